(* PROPERTY THEOREMS: C87 a URI continued.
   Vocabulary: SpecContinue.v (with_end, with_segment, only_root), Rfc3986.v (L, opt_pre, in_opt), SpecUri.v (fits). *)
From Verif Require Import Base ModelRule ModelUri Rfc3986 SpecHost SpecUri SpecParts SpecContinue UriSplit PropSplitFacts ContinueFacts.
From Coq Require Import Lia.
Local Open Scope list_scope.

Lemma fits_start fuel u v : fits fuel (u ++ v) -> fits fuel u.
Proof. unfold fits. rewrite app_length. lia. Qed.
Lemma comps_inj p q : comps p = comps q -> p = q.
Proof. intros E. rewrite <- (parts_of_comps p), <- (parts_of_comps q). now rewrite E. Qed.
Lemma comps_tail p q f : comps (with_end p q f) = with_t (comps p) q f. Proof. reflexivity. Qed.
Lemma tail_head (t : str) : (forall c, hd_error t = Some c -> c = "?"%char \/ c = "#"%char) -> PegLang.nohd (SpecRegex.none_of "?#") t.
Proof. destruct t as [|c t]; intros H; [exact I|]. destruct (H c eq_refl) as [->| ->]; reflexivity. Qed.

(* An accepted text without query and fragment, followed by any text t that is empty or begins with "?" or "#" (so that a byte
   of t is not added to the last component): accepted exactly if t is "?" query, "#" fragment or both, with these, and
   everything else is as it was. *)
Theorem C87_tail sg fuel s p t q : fits fuel (s ++ t) -> p_query p = None -> p_fragment p = None ->
  (forall c, hd_error t = Some c -> c = "?"%char \/ c = "#"%char) ->
  (split sg fuel s = Ok (Some p) ->
    (split sg fuel (s ++ t) = Ok (Some q)
     <-> exists x f, t = opt_pre (ss "?") x ++ opt_pre (ss "#") f /\ in_opt query x /\ in_opt fragment f /\ q = with_end p x f))
  /\ (split_reference sg fuel s = Ok (Some p) ->
    (split_reference sg fuel (s ++ t) = Ok (Some q)
     <-> exists x f, t = opt_pre (ss "?") x ++ opt_pre (ss "#") f /\ in_opt query x /\ in_opt fragment f /\ q = with_end p x f)).
Proof.
  intros F Q N H. pose proof (fits_start _ _ _ F) as Fs. apply tail_head in H.
  assert (K : reference_decomp s (comps p) -> (reference_decomp (s ++ t) (comps q) <-> exists x f, t = opt_pre (ss "?") x ++ opt_pre (ss "#") f /\ in_opt query x /\ in_opt fragment f /\ q = with_end p x f)).
  { intros D. rewrite (continue_tail s (comps p) t (comps q) D Q N H). split; intros (x & f & E & X & Y & Z); exists x, f; (split; [exact E|]; split; [exact X|]; split; [exact Y|]).
    - apply comps_inj. now rewrite comps_tail. - now rewrite Z, comps_tail. }
  split; intros E.
  - apply split_iff in E; [|exact Fs]. destruct E as [D U]. specialize (K (or_introl D)). rewrite (split_iff sg fuel _ _ F). split.
    + intros [Dq _]. apply K. now left.
    + intros Z. pose proof Z as (x & f & _ & _ & _ & Eq). apply K in Z. split; [|subst q; exact U]. apply (same_kind s (comps p) (s ++ t) (comps q)); [now left|exact Z|now subst q|exact D].
  - apply split_reference_iff in E; [|exact Fs]. destruct E as [D U]. specialize (K D). rewrite (split_reference_iff sg fuel _ _ F). split.
    + intros [Dq _]. now apply K.
    + intros Z. pose proof Z as (x & f & _ & _ & _ & Eq). apply K in Z. split; [exact Z|subst q; exact U].
Qed.
Print Assumptions C87_tail.
(* an accepted text without fragment, followed by "#" and any text f *)
Theorem C87_fragment sg fuel s p f q : fits fuel (s ++ ss "#" ++ f) -> p_fragment p = None ->
  (split sg fuel s = Ok (Some p) -> (split sg fuel (s ++ ss "#" ++ f) = Ok (Some q) <-> L fragment f /\ q = with_end p (p_query p) (Some f)))
  /\ (split_reference sg fuel s = Ok (Some p) -> (split_reference sg fuel (s ++ ss "#" ++ f) = Ok (Some q) <-> L fragment f /\ q = with_end p (p_query p) (Some f))).
Proof.
  intros F N. pose proof (fits_start _ _ _ F) as Fs.
  assert (K : reference_decomp s (comps p) -> (reference_decomp (s ++ ss "#" ++ f) (comps q) <-> L fragment f /\ q = with_end p (p_query p) (Some f))).
  { intros D. rewrite (continue_fragment s (comps p) f (comps q) D N). split; intros [X Y]; (split; [exact X|]); [apply comps_inj; now rewrite comps_tail|now rewrite Y, comps_tail]. }
  split; intros E.
  - apply split_iff in E; [|exact Fs]. destruct E as [D U]. specialize (K (or_introl D)). rewrite (split_iff sg fuel _ _ F). split.
    + intros [Dq _]. apply K. now left.
    + intros Z. pose proof Z as (_ & Eq). apply K in Z. split; [|subst q; exact U]. apply (same_kind s (comps p) (s ++ ss "#" ++ f) (comps q)); [now left|exact Z|now subst q|exact D].
  - apply split_reference_iff in E; [|exact Fs]. destruct E as [D U]. specialize (K D). rewrite (split_reference_iff sg fuel _ _ F). split.
    + intros [Dq _]. now apply K.
    + intros Z. pose proof Z as (_ & Eq). apply K in Z. split; [exact Z|subst q; exact U].
Qed.
Print Assumptions C87_fragment.
(* an accepted text without query and fragment, followed by "/" and a segment: one more segment, unless the text ends with the root
   and has no authority *)
Theorem C87_segment sg fuel s p x : fits fuel (s ++ ss "/" ++ x) -> p_query p = None -> p_fragment p = None -> ~ only_root p -> L segment x ->
  (split sg fuel s = Ok (Some p) -> split sg fuel (s ++ ss "/" ++ x) = Ok (Some (with_segment p x)))
  /\ (split_reference sg fuel s = Ok (Some p) -> split_reference sg fuel (s ++ ss "/" ++ x) = Ok (Some (with_segment p x))).
Proof.
  intros F Q N R X. pose proof (fits_start _ _ _ F) as Fs. assert (C : comps (with_segment p x) = with_s (comps p) x) by reflexivity.
  assert (R' : ~ (c_authority (comps p) = None /\ c_absolute (comps p) = true /\ c_segments (comps p) = [[]])).
  { intros (A & B & S). apply R. split; [|split; assumption]. cbn in A. destruct (p_authority p); [discriminate A|reflexivity]. }
  split; intros E.
  - apply split_iff in E; [|exact Fs]. destruct E as [D U]. apply split_iff; [exact F|]. rewrite C. split; [|exact U].
    apply (same_kind s (comps p) (s ++ ss "/" ++ x) (with_s (comps p) x)); [now left|apply continue_segment; auto; now left|reflexivity|exact D].
  - apply split_reference_iff in E; [|exact Fs]. destruct E as [D U]. apply split_reference_iff; [exact F|]. rewrite C. split; [apply continue_segment; auto|exact U].
Qed.
Print Assumptions C87_segment.
Example C87_ex : exists p, split true 100 (ss "http://h/a") = Ok (Some p) /\ p_query p = None /\ p_fragment p = None /\ ~ only_root p
  /\ split true 100 (ss "http://h/a" ++ ss "?x=1#f") = Ok (Some (with_end p (Some (ss "x=1")) (Some (ss "f"))))
  /\ split true 100 (ss "http://h/a" ++ ss "/" ++ ss "b") = Ok (Some (with_segment p (ss "b"))) /\ split true 100 (ss "http://h/a" ++ ss "?x=1#f#") = Ok None.
Proof.
  eexists. split; [vm_compute; reflexivity|]. split; [reflexivity|]. split; [reflexivity|]. split; [intros (A & _); discriminate A|]. split; [vm_compute; reflexivity|]. split; vm_compute; reflexivity.
Qed.
(* What is excluded: "/b" put after "a:/" makes an authority *)
Theorem C87_root_refuted : exists p q, split true 100 (ss "a:/") = Ok (Some p) /\ p_authority p = None
  /\ split true 100 (ss "a:/" ++ ss "/" ++ ss "b") = Ok (Some q) /\ option_map ModelUri.host (p_authority q) = Some (ss "b") /\ segments (p_path q) = [].
Proof. do 2 eexists. split; [vm_compute; reflexivity|]. split; [reflexivity|]. split; [vm_compute; reflexivity|]. split; reflexivity. Qed.
Print Assumptions C87_root_refuted.
