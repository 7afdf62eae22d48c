(* The properties that the project's fuzz tests state *)
From Verif Require Import Base ModelUri Peg PegLang UriHost UriStruct UriSplit UriValid UriProps JoinFacts Rfc3986 SpecHost SpecParts SpecUri SpecRegex RegexFacts RegexUri InfluenceFacts SpecFuzz.
From Coq Require Import Lia.
Local Open Scope list_scope.

Lemma path_text_string p : path_string p = path_text (absolute p) (segments p).
Proof.
  pose proof (compose_eq (mkparts None None p None None)) as E. unfold compose, hier_string in E. cbn in E. rewrite !app_nil_r in E. exact E.
Qed.
Lemma path_text_free abs l : Forall (L segment) l -> all (none_of "?#") (path_text abs l).
Proof.
  intros F. unfold path_text. destruct abs; [now apply slashed_free|]. destruct l as [|x l]; [constructor|]. apply Forall_app. split; [|apply slashed_free; exact (Forall_inv_tail F)].
  pose proof (segment_free x (Forall_inv F)) as H. revert H. apply all_imp. vm_compute. reflexivity.
Qed.
Lemma accepted_authority sg fuel p : fits fuel (compose p) -> well_formed p -> (exists q, split sg fuel (compose p) = Ok (Some q)) ->
  p_authority p <> None \/ forall y, two_slashes (path_string (p_path p)) y -> reads_as_authority y.
Proof.
  intros Hf W (q & E). destruct (p_authority p) as [a|] eqn:A; [left; discriminate|right]. intros y (rest & Ey & Ny & Hr).
  apply split_iff in E; [|exact Hf]. destruct E as [(sch & sh & st & Es & Ls & Et & Hh & (Est & Lq & Lf)) U].
  destruct W as ((sch' & Es' & Ls') & _ & Sg & Q & F). rewrite compose_eq, Es' in Et. unfold hier_string in Et. cbn [comps c_authority c_absolute c_segments] in Et. rewrite A in Et.
  change (if absolute (p_path p) then slashed (segments (p_path p)) else match segments (p_path p) with [] => [] | x :: rest0 => x ++ slashed rest0 end) with (path_text (absolute (p_path p)) (segments (p_path p))) in Et.
  rewrite <- path_text_string in Et. cbn [opt_post] in Et. rewrite <- app_assoc in Et.
  assert (sch' = sch) as ->.
  { apply (cut_at (none_of ":") _ _ _ _) in Et; [exact Et| | |reflexivity|reflexivity].
    - destruct (scheme_free_chars _ Ls') as [_ H]. revert H. apply all_imp. vm_compute. reflexivity.
    - destruct (scheme_free_chars _ Ls) as [_ H]. revert H. apply all_imp. vm_compute. reflexivity. }
  apply app_inv_head in Et. apply app_inv_head in Et.
  destruct (hier_pieces segment_nz sh (comps q) (or_introl eq_refl) Hh) as (Esh & Au & Fp).
  assert (Nst : nohd (none_of "?#") st) by (rewrite Est; apply nohd_tail).
  assert (Np : nohd (none_of "?#") (opt_pre (ss "?") (p_query p) ++ opt_pre (ss "#") (p_fragment p))) by exact (nohd_tail (comps p)).
  assert (Ash : all (none_of "?#") sh).
  { rewrite Esh. apply Forall_app. split; [|exact Fp]. destruct (option_map authority_text (c_authority (comps q))) as [t|]; [|constructor]. cbn [opt_pre]. apply Forall_app. split; [now repeat constructor|].
    destruct Au as [Au _]. revert Au. apply all_imp. vm_compute. reflexivity. }
  assert (P : path_string (p_path p) = sh).
  { apply (cut_at (none_of "?#") _ _ _ _) in Et; [exact Et| |exact Ash|exact Np|exact Nst]. rewrite path_text_string. now apply path_text_free. }
  rewrite Ey in P. destruct Hh as [(a & sa & sp & Ea & Esh' & Da & (Esp & _))|[Ea _]].
  - rewrite Esh' in P. apply app_inv_head in P. assert (y = sa) as ->.
    { apply (cut_at (none_of "/")) in P; [exact P| | | |].
      - apply Forall_forall. intros c I. unfold none_of. change (ss "/") with ["/"%char]. cbn [existsb]. destruct (Ascii.eqb_spec c "/"%char) as [->|]; [now elim Ny|reflexivity].
      - destruct (authority_free _ _ Da) as [_ H]. revert H. apply all_imp. vm_compute. reflexivity.
      - destruct Hr as [->|(r & ->)]; reflexivity.
      - destruct (slashed_head (c_segments (comps q))) as [H|(x & H)]; rewrite Esp, H; reflexivity. }
    destruct a as [[u h] po]. exists u, h, po. split; [exact Da|]. unfold unambiguous in U. now rewrite Ea in U.
  - rewrite Ea in *. cbn [option_map opt_pre app] in *. rewrite Esh in P. elim Au. exists (y ++ rest). symmetry. exact P.
Qed.
(* the other way round *)
Definition accepted (s : str) : Prop := exists p, URI_decomp s (comps p) /\ unambiguous (comps p).
Lemma accepts p : well_formed p -> representable p -> accepted (compose p).
Proof. intros W R. exists (canon p). now apply canon_decomp. Qed.
Lemma accepts_two p y l : well_formed p -> p_authority p = None -> p_path p = mkpath true ([] :: y :: l) -> reads_as_authority y -> accepted (compose p).
Proof.
  intros (S & _ & G & Q & F) A P (u & h & po & D & U). rewrite P in G. cbn [segments] in G. apply Forall_inv_tail, Forall_inv_tail in G.
  assert (W : well_formed (mkparts (p_scheme p) (Some (mkauth u h po)) (mkpath true l) (p_query p) (p_fragment p))).
  { split; [exact S|]. destruct D as (_ & D1 & D2 & D3). split; [split; [exact D1|split; [split; [exact D2|exact U]|exact D3]]|]. split; [exact G|]. split; [exact Q|exact F]. }
  assert (R : representable (mkparts (p_scheme p) (Some (mkauth u h po)) (mkpath true l) (p_query p) (p_fragment p))) by (left; discriminate).
  pose proof (accepts _ W R) as X. rewrite compose_eq in X. rewrite compose_eq. unfold hier_string in *. cbn [comps c_authority c_absolute c_segments p_authority p_path absolute segments p_scheme p_query p_fragment ModelUri.userinfo ModelUri.host ModelUri.port] in *.
  rewrite A, P. cbn [absolute segments]. change (slashed ([] :: y :: l)) with (ss "/" ++ [] ++ (ss "/" ++ y) ++ slashed l). destruct D as (-> & _). exact X.
Qed.
Lemma accepts_ext p p' : compose p' = compose p -> accepted (compose p') -> accepted (compose p).
Proof. now intros ->. Qed.
Lemma accepts_all p : well_formed p -> (p_authority p <> None \/ forall y, two_slashes (path_string (p_path p)) y -> reads_as_authority y) -> accepted (compose p).
Proof.
  intros W H. destruct (p_authority p) as [a|] eqn:A; [apply accepts; [exact W|left; rewrite A; discriminate]|]. destruct H as [H|H]; [congruence|].
  assert (Seg : forall y l, segments (p_path p) = [] :: y :: l \/ segments (p_path p) = [] :: [] :: y :: l -> ~ In "/"%char y).
  { intros y l Hs. destruct W as (_ & _ & G & _). apply segment_no_slash. rewrite Forall_forall in G. apply G. destruct Hs as [-> | ->]; cbn; auto. }
  assert (Nil : segments (p_path p) = [] \/ segments (p_path p) = [[]] /\ absolute (p_path p) = false -> accepted (compose p)).
  { intros K. destruct W as (S & _ & G & Q & F). assert (W' : well_formed (mkparts (p_scheme p) None (mkpath false []) (p_query p) (p_fragment p))) by (split; [exact S|]; split; [exact I|]; split; [constructor|]; split; [exact Q|exact F]).
    refine (accepts_ext p (mkparts (p_scheme p) None (mkpath false []) (p_query p) (p_fragment p)) _ (accepts _ W' _)); [|right; exact I].
    rewrite !compose_eq. unfold hier_string. cbn [comps c_authority c_absolute c_segments p_authority p_path absolute segments p_scheme p_query p_fragment]. rewrite A. destruct K as [->|[-> ->]]; [now destruct (absolute _)|reflexivity]. }
  assert (Two : forall y l, p_path p = mkpath true ([] :: y :: l) -> accepted (compose p)).
  { intros y l K. apply (accepts_two p y l W A K). apply H. rewrite path_text_string, K. cbn [absolute segments]. exists (slashed l). split; [reflexivity|].
    split; [apply (Seg y l); left; now rewrite K|apply slashed_head]. }
  destruct (p_path p) as [abs segs] eqn:P. cbn [absolute segments] in *. destruct segs as [|x segs]; [apply Nil; now left|].
  destruct x as [|c x]; [|apply accepts; [exact W|]; right; rewrite P; cbn [absolute segments]; destruct abs; discriminate].
  destruct segs as [|y l].
  - destruct abs; [apply accepts; [exact W|]; right; now rewrite P|apply Nil; now right].
  - destruct abs; [now apply (Two y l)|]. destruct W as (S & _ & G & Q & F). rewrite P in G. cbn [segments] in G. apply Forall_inv_tail in G.
    set (p' := mkparts (p_scheme p) None (mkpath true (y :: l)) (p_query p) (p_fragment p)).
    assert (W' : well_formed p') by (split; [exact S|]; split; [exact I|]; split; [exact G|]; split; [exact Q|exact F]).
    assert (C : compose p' = compose p).
    { rewrite !compose_eq. unfold hier_string, p'. cbn [comps c_authority c_absolute c_segments p_authority p_path absolute segments p_scheme p_query p_fragment]. now rewrite A, P. }
    apply (accepts_ext p p' C). destruct y as [|c y]; [|apply accepts; [exact W'|right; discriminate]]. destruct l as [|z l]; [apply accepts; [exact W'|right; exact I]|].
    apply (accepts_two p' z l W' eq_refl eq_refl). apply H. rewrite path_text_string. cbn [absolute segments]. exists (slashed l). split; [reflexivity|]. split; [|apply slashed_head].
    apply (Seg z l). now right.
Qed.
Lemma accepted_iff sg fuel p : fits fuel (compose p) -> parts_valid sg fuel p = Ok true ->
  ((exists q, split sg fuel (compose p) = Ok (Some q)) <-> p_authority p <> None \/ forall y, two_slashes (path_string (p_path p)) y -> reads_as_authority y).
Proof.
  intros Hf V. apply parts_valid_iff in V; [|now apply compose_parts_fit]. split; [now apply accepted_authority|]. intros H. destruct (accepts_all p V H) as (q & D). exists q. now apply split_iff.
Qed.
