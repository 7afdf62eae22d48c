(* PROPERTY THEOREMS: C86 a URI cut short.
   Vocabulary: SpecCut.v (cut_escape, head_text, cut_behind, cut_host, plain_host), SpecParts.v (comps), SpecUri.v (fits). *)
From Verif Require Import Base ModelRule ModelUri Rfc3986 SpecHost SpecUri SpecParts SpecPct SpecStore SpecCut UriSplit PropSplitFacts CutFacts.
From Coq Require Import Lia.
Local Open Scope list_scope.

Lemma fits_prefix fuel u v : fits fuel (u ++ v) -> fits fuel u.
Proof. unfold fits. rewrite app_length. lia. Qed.
Lemma safe_prefix sg u v c : reference_decomp (u ++ v) c -> ctype_safe sg u.
Proof. intros D. apply safe_low. right. apply decomp_low in D. now apply Forall_app in D. Qed.
Lemma behind_unambiguous c d : cut_behind c d -> unambiguous d -> unambiguous c.
Proof. intros (_ & A & _). unfold unambiguous. now rewrite A. Qed.

(* A text that split accepts, cut anywhere after scheme and authority: accepted exactly if the cut does not go through an
   escape, and then everything before the cut is as it was. *)
Theorem C86_split sg fuel u v p : fits fuel (u ++ v) -> split sg fuel (u ++ v) = Ok (Some p) -> has_prefix (head_text (comps p)) u ->
  (~ cut_escape u -> exists q, split sg fuel u = Ok (Some q) /\ cut_behind (comps q) (comps p)) /\ (cut_escape u -> split sg fuel u = Ok None).
Proof.
  intros F E (x & ->). pose proof (fits_prefix _ _ _ F) as Fu. apply split_iff in E; [|exact F]. destruct E as [D U]. split; intros N.
  - destruct (uri_cut _ _ x v D eq_refl N) as (c & Dc & B). exists (parts_of c). rewrite (split_iff sg fuel _ _ Fu), comps_parts_of. split; [split; [exact Dc|]|exact B]. eapply behind_unambiguous; eassumption.
  - apply (split_rejects sg fuel _ Fu); [eapply safe_prefix; left; exact D|]. intros c Dc. exfalso. revert N. apply whole_uncut. eapply reference_whole. left. exact Dc.
Qed.
Print Assumptions C86_split.
Theorem C86_split_reference sg fuel u v p : fits fuel (u ++ v) -> split_reference sg fuel (u ++ v) = Ok (Some p) -> has_prefix (head_text (comps p)) u ->
  (~ cut_escape u -> exists q, split_reference sg fuel u = Ok (Some q) /\ cut_behind (comps q) (comps p)) /\ (cut_escape u -> split_reference sg fuel u = Ok None).
Proof.
  intros F E (x & ->). pose proof (fits_prefix _ _ _ F) as Fu. apply split_reference_iff in E; [|exact F]. destruct E as [D U]. split; intros N.
  - assert (K : exists c, reference_decomp (head_text (comps p) ++ x) c /\ cut_behind c (comps p)).
    { destruct D as [D|D]; [destruct (uri_cut _ _ x v D eq_refl N) as (c & Dc & B)|destruct (relative_cut _ _ x v D eq_refl N) as (c & Dc & B)]; exists c; split; [now left|exact B|now right|exact B]. }
    destruct K as (c & Dc & B). exists (parts_of c). rewrite (split_reference_iff sg fuel _ _ Fu), comps_parts_of. split; [split; [exact Dc|]|exact B]. eapply behind_unambiguous; eassumption.
  - apply (split_reference_rejects sg fuel _ Fu); [eapply safe_prefix; exact D|]. intros c Dc. exfalso. revert N. apply whole_uncut. eapply reference_whole. exact Dc.
Qed.
Print Assumptions C86_split_reference.
Example C86_ex : let s := ss "http://u:p@[::1]/a/b%20c?q" in exists p, split true 100 s = Ok (Some p)
  /\ has_prefix (head_text (comps p)) (ss "http://u:p@[::1]/a/b%20") /\ has_prefix (ss "http://u:p@[::1]/a/b%20") s /\ ~ cut_escape (ss "http://u:p@[::1]/a/b%20")
  /\ cut_escape (ss "http://u:p@[::1]/a/b%2").
Proof.
  eexists. split; [vm_compute; reflexivity|]. split; [eexists; vm_compute; reflexivity|]. split; [eexists; vm_compute; reflexivity|]. split.
  - intros (w & [E|(a & E)]); apply (f_equal (@rev ascii)) in E; rewrite rev_app_distr in E; vm_compute in E; discriminate E.
  - exists (ss "http://u:p@[::1]/a/b"). right. exists "2"%char. reflexivity.
Qed.

(* Cut within host and port, if there is no userinfo and the host is not an IP literal: the same, and what is left of host and
   port is the host and the port. *)
Theorem C86_host sg fuel u v p : fits fuel (u ++ v) -> plain_host (comps p) ->
  has_prefix (opt_post (p_scheme p) (ss ":") ++ ss "//") u -> has_prefix u (head_text (comps p)) ->
  (split sg fuel (u ++ v) = Ok (Some p) ->
    (~ cut_escape u -> exists q, split sg fuel u = Ok (Some q) /\ cut_host (comps q) (comps p)) /\ (cut_escape u -> split sg fuel u = Ok None))
  /\ (split_reference sg fuel (u ++ v) = Ok (Some p) ->
    (~ cut_escape u -> exists q, split_reference sg fuel u = Ok (Some q) /\ cut_host (comps q) (comps p)) /\ (cut_escape u -> split_reference sg fuel u = Ok None)).
Proof.
  intros F PH P1 P2. pose proof (fits_prefix _ _ _ F) as Fu. split; intros E.
  - apply split_iff in E; [|exact F]. destruct E as [D U]. split; intros N.
    + destruct (uri_host_cut u v (comps p) D PH P1 P2 N) as (c & Dc & B & Uc). exists (parts_of c). rewrite (split_iff sg fuel _ _ Fu), comps_parts_of. auto.
    + apply (split_rejects sg fuel _ Fu); [eapply safe_prefix; left; exact D|]. intros c Dc. exfalso. revert N. apply whole_uncut. eapply reference_whole. left. exact Dc.
  - apply split_reference_iff in E; [|exact F]. destruct E as [D U]. split; intros N.
    + assert (K : exists c, reference_decomp u c /\ cut_host c (comps p) /\ (unambiguous (comps p) -> unambiguous c)).
      { destruct D as [D|D]; [destruct (uri_host_cut u v (comps p) D PH P1 P2 N) as (c & Dc & B)|destruct (relative_host_cut u v (comps p) D PH P1 P2 N) as (c & Dc & B)]; exists c; split; [now left|exact B|now right|exact B]. }
      destruct K as (c & Dc & B & Uc). exists (parts_of c). rewrite (split_reference_iff sg fuel _ _ Fu), comps_parts_of. unfold reference_decomp in Dc. auto.
    + apply (split_reference_rejects sg fuel _ Fu); [eapply safe_prefix; exact D|]. intros c Dc. exfalso. revert N. apply whole_uncut. eapply reference_whole. exact Dc.
Qed.
Print Assumptions C86_host.
(* So with such a host every beginning that goes beyond the scheme's colon is accepted, but for escapes cut in two; every beginning of
   a reference without scheme. *)
Theorem C86_any sg fuel u v p : fits fuel (u ++ v) -> plain_host (comps p) -> has_prefix (opt_post (p_scheme p) (ss ":")) u ->
  (split sg fuel (u ++ v) = Ok (Some p) -> ((exists q, split sg fuel u = Ok (Some q)) <-> ~ cut_escape u))
  /\ (split_reference sg fuel (u ++ v) = Ok (Some p) -> ((exists q, split_reference sg fuel u = Ok (Some q)) <-> ~ cut_escape u)).
Proof.
  intros F PH P1. pose proof (fits_prefix _ _ _ F) as Fu. split; intros E.
  - apply split_iff in E; [|exact F]. destruct E as [D U]. split; intros N.
    + destruct N as (q & Q). apply split_iff in Q; [|exact Fu]. apply whole_uncut. eapply reference_whole. left. apply Q.
    + destruct (uri_any_cut u v (comps p) D PH P1 N) as (c & Dc & Uc). exists (parts_of c). rewrite (split_iff sg fuel _ _ Fu), comps_parts_of. auto.
  - apply split_reference_iff in E; [|exact F]. destruct E as [D U]. split; intros N.
    + destruct N as (q & Q). apply split_reference_iff in Q; [|exact Fu]. apply whole_uncut. eapply reference_whole. apply Q.
    + assert (K : exists c, reference_decomp u c /\ (unambiguous (comps p) -> unambiguous c)).
      { destruct D as [D|D]; [destruct (uri_any_cut u v (comps p) D PH P1 N) as (c & Dc & Uc)|destruct (relative_any_cut u v (comps p) D PH P1 N) as (c & Dc & Uc)]; exists c; split; [now left|exact Uc|now right|exact Uc]. }
      destruct K as (c & Dc & Uc). exists (parts_of c). rewrite (split_reference_iff sg fuel _ _ Fu), comps_parts_of. unfold reference_decomp in Dc. auto.
Qed.
Print Assumptions C86_any.
Example C86_any_ex : exists p, split true 100 (ss "http://www.x%41y:80/a") = Ok (Some p) /\ plain_host (comps p) /\ has_prefix (opt_post (p_scheme p) (ss ":")) (ss "http:/")
  /\ has_prefix (opt_post (p_scheme p) (ss ":") ++ ss "//") (ss "http://www.x%41") /\ has_prefix (ss "http://www.x%41") (head_text (comps p)).
Proof.
  eexists. split; [vm_compute; reflexivity|]. split; [intros u h q E; injection E as <- <- _; split; [reflexivity|intros (r & R); discriminate R]|].
  split; [eexists; vm_compute; reflexivity|]. split; eexists; vm_compute; reflexivity.
Qed.
(* With a userinfo or an IP literal this is not so: the rest may be rejected, or the userinfo may become the host *)
Theorem C86_userinfo_refuted :
  (exists p, split true 100 (ss "http://www.good.com@evil.com/") = Ok (Some p) /\ option_map ModelUri.host (p_authority p) = Some (ss "evil.com")
    /\ exists q, split true 100 (ss "http://www.good.com") = Ok (Some q) /\ option_map ModelUri.host (p_authority q) = Some (ss "www.good.com"))
  /\ (exists p, split true 100 (ss "http://user:pw@h/") = Ok (Some p) /\ split true 100 (ss "http://user:pw") = Ok None)
  /\ (exists p, split true 100 (ss "http://[::1]/") = Ok (Some p) /\ split true 100 (ss "http://[::1") = Ok None).
Proof.
  split; [|split]; eexists; (split; [vm_compute; reflexivity|]); try (vm_compute; reflexivity).
  split; [vm_compute; reflexivity|]. eexists. split; vm_compute; reflexivity.
Qed.
Print Assumptions C86_userinfo_refuted.
