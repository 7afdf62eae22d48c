(* Texts added at the end of a URI: proofs for C87. *)
From Verif Require Import Base ModelUri Rfc3986 SpecHost SpecUri SpecParts SpecRegex SpecContinue Peg PegLang PegUri UriHost UriSplit RegexUri PropSplitFacts InfluenceFacts.
From Coq Require Import Lia.
Local Open Scope list_scope.

Definition tail (q f : option str) : str := opt_pre (ss "?") q ++ opt_pre (ss "#") f.
Definition with_t (c : components) (q f : option str) : components := mkcomponents (c_scheme c) (c_authority c) (c_absolute c) (c_segments c) q f.
Lemma stem_ref s c : reference_decomp s c -> exists m, s = m ++ tail (c_query c) (c_fragment c) /\ all (none_of "?#") m /\ in_opt query (c_query c) /\ in_opt fragment (c_fragment c)
  /\ forall q f, in_opt query q -> in_opt fragment f -> (URI_decomp s c -> URI_decomp (m ++ tail q f) (with_t c q f)) /\ (relative_decomp s c -> relative_decomp (m ++ tail q f) (with_t c q f)).
Proof.
  intros D. assert (P : forall first sh, first = segment_nz \/ first = segment_nz_nc -> hier_decomp first sh c -> all (none_of "?#") sh).
  { intros first sh Fi H. pose proof (hier_pieces first sh c Fi H) as (Esh & A & P). rewrite Esh. apply Forall_app. split; [|exact P].
    destruct (option_map authority_text (c_authority c)) as [a|]; [|constructor]. destruct A as [A _]. apply Forall_app. split; [repeat constructor|]. revert A. apply all_imp. vm_compute. reflexivity. }
  destruct D as [(sch & sh & st & ES & LS & -> & H & T)|(sh & st & ES & -> & H & T)].
  - pose proof T as (-> & Q & F). exists (sch ++ ss ":" ++ sh). split; [unfold tail; now rewrite <- !app_assoc|]. split.
    { apply Forall_app. split; [apply scheme_free_chars in LS as [_ LS]; revert LS; apply all_imp; vm_compute; reflexivity|]. apply Forall_app. split; [repeat constructor|]. eapply P; [|exact H]. now left. }
    split; [exact Q|]. split; [exact F|]. intros q f Lq Lf. split.
    + intros _. exists sch, sh, (tail q f). split; [exact ES|]. split; [exact LS|]. split; [now rewrite <- !app_assoc|]. split; [exact H|]. split; [reflexivity|auto].
    + intros (? & ? & N & _). congruence.
  - pose proof T as (-> & Q & F). exists sh. split; [reflexivity|]. split; [eapply P; [|exact H]; now right|].
    split; [exact Q|]. split; [exact F|]. intros q f Lq Lf. split.
    + intros (? & ? & ? & N & _). congruence.
    + intros _. exists sh, (tail q f). split; [exact ES|]. split; [reflexivity|]. split; [exact H|]. split; [reflexivity|auto].
Qed.
Lemma nohd_tl q f : nohd (none_of "?#") (tail q f).
Proof. unfold tail. destruct q; [reflexivity|]. destruct f; [reflexivity|exact I]. Qed.
Lemma pre_inj o o' c (x : str) : opt_pre (c :: x) o = opt_pre (c :: x) o' -> o = o'.
Proof. destruct o, o'; cbn; intros E; try discriminate E; [|reflexivity]. injection E as E. apply app_inv_head in E. congruence. Qed.
Lemma tail_inj q f q' f' : in_opt query q -> in_opt query q' -> tail q f = tail q' f' -> q = q' /\ f = f'.
Proof.
  intros Q Q' E. assert (E0 : opt_pre (ss "?") q = opt_pre (ss "?") q').
  { eapply (cut_at (none_of "#")); [| | | |exact E].
    - destruct q as [q|]; [|constructor]. constructor; [reflexivity|]. now apply query_free.
    - destruct q' as [q'|]; [|constructor]. constructor; [reflexivity|]. now apply query_free.
    - destruct f; [reflexivity|exact I]. - destruct f'; [reflexivity|exact I]. }
  unfold tail in E. rewrite E0 in E. apply app_inv_head in E. split; [exact (pre_inj _ _ _ _ E0)|exact (pre_inj _ _ _ _ E)].
Qed.
Lemma with_t_self c : with_t c (c_query c) (c_fragment c) = c. Proof. now destruct c. Qed.
(* after a text without query and fragment *)
Lemma continue_tail s c t d : reference_decomp s c -> c_query c = None -> c_fragment c = None -> nohd (none_of "?#") t ->
  reference_decomp (s ++ t) d <-> exists q f, t = tail q f /\ in_opt query q /\ in_opt fragment f /\ d = with_t c q f.
Proof.
  intros D Q F N. destruct (stem_ref s c D) as (m & E & A & _ & _ & K). rewrite Q, F in E. unfold tail in E at 1. cbn in E. rewrite app_nil_r in E. subst m. split.
  - intros D'. destruct (stem_ref _ d D') as (m & E & A' & Q' & F' & K'). assert (s = m) as <- by (eapply (cut_at (none_of "?#")); [exact A|exact A'|exact N|apply nohd_tl|exact E]).
    apply app_inv_head in E. exists (c_query d), (c_fragment d). split; [exact E|]. split; [exact Q'|]. split; [exact F'|].
    assert (S : reference_decomp s (with_t d None None)). { destruct (K' None None I I) as [U R]. unfold tail in U, R. cbn in U, R. rewrite app_nil_r in U, R. destruct D' as [D'|D']; [left; auto|right; auto]. }
    pose proof (reference_unique s _ _ D S) as ->. cbn. now destruct d.
  - intros (q & f & -> & Lq & Lf & ->). destruct (K q f Lq Lf) as [U R]. destruct D as [D|D]; [left; auto|right; auto].
Qed.
(* after a text without fragment *)
Lemma continue_fragment s c f d : reference_decomp s c -> c_fragment c = None ->
  reference_decomp (s ++ ss "#" ++ f) d <-> L fragment f /\ d = with_t c (c_query c) (Some f).
Proof.
  intros D F. destruct (stem_ref s c D) as (m & E & A & Q & _ & K). rewrite F in E. unfold tail in E. cbn [opt_pre] in E. rewrite app_nil_r in E. split.
  - intros D'. destruct (stem_ref _ d D') as (m' & E' & A' & Q' & F' & K'). unfold tail in E'. rewrite (app_assoc m') in E'.
    assert (X : forall m q, all (none_of "?#") m -> in_opt query q -> all (none_of "#") (m ++ opt_pre (ss "?") q)).
    { intros m0 q M LQ. apply Forall_app. split; [revert M; apply all_imp; vm_compute; reflexivity|]. destruct q as [q|]; [|constructor]. constructor; [reflexivity|]. now apply query_free. }
    assert (S : s = m' ++ opt_pre (ss "?") (c_query d)).
    { eapply (cut_at (none_of "#")); [|apply X; [exact A'|exact Q']| | |exact E']; [rewrite E; apply X; assumption|reflexivity|destruct (c_fragment d); [reflexivity|exact I]]. }
    rewrite <- S in E'. apply app_inv_head in E'. destruct (c_fragment d) as [f'|] eqn:Fd; cbn in E'; [|discriminate E']. injection E' as <-. split; [exact F'|].
    assert (R : reference_decomp s (with_t d (c_query d) None)).
    { destruct (K' (c_query d) None Q' I) as [U R]. unfold tail in U, R. cbn [opt_pre] in U, R. rewrite app_nil_r, <- S in U, R. destruct D' as [D'|D']; [left; auto|right; auto]. }
    pose proof (reference_unique s _ _ D R) as ->. destruct d. cbn in *. now rewrite Fd.
  - intros (Lf & ->). destruct (K (c_query c) (Some f) Q Lf) as [U R]. unfold tail in U, R. rewrite app_assoc, <- E in U, R. destruct D as [D|D]; [left; auto|right; auto].
Qed.
(* the kind stays the same *)
Lemma same_kind s c s' c' : reference_decomp s c -> reference_decomp s' c' -> c_scheme c' = c_scheme c -> (URI_decomp s c <-> URI_decomp s' c').
Proof.
  intros D D' E. assert (K : forall s c, reference_decomp s c -> (URI_decomp s c <-> c_scheme c <> None)).
  { intros s0 c0 [D0|D0]; split; auto.
    - intros (sch & _ & _ & S & _). congruence. - intros (sch & _ & _ & S & _). congruence.
    - destruct D0 as (_ & _ & S & _). congruence. }
  rewrite (K s c D), (K s' c' D'), E. reflexivity.
Qed.
(* one more segment *)
Lemma slashed_snoc l x : slashed (l ++ [x]) = slashed l ++ ss "/" ++ x.
Proof. unfold slashed. rewrite map_app, List.concat_app. cbn. now rewrite app_nil_r. Qed.
Definition with_s (c : components) (x : str) : components :=
  mkcomponents (c_scheme c) (c_authority c) (match c_segments c with [] => true | _ => c_absolute c end) (c_segments c ++ [x]) (c_query c) (c_fragment c).
Lemma hier_segment first sh c x : first = segment_nz \/ first = segment_nz_nc -> hier_decomp first sh c -> L segment x -> ~ (c_authority c = None /\ c_absolute c = true /\ c_segments c = [[]]) ->
  hier_decomp first (sh ++ ss "/" ++ x) (with_s c x).
Proof.
  intros Fi H X N. destruct H as [(a & sa & sp & A & -> & D & (-> & F & B))|(A & [P|[P|P]])].
  - left. exists a, sa, (slashed (c_segments c ++ [x])). split; [exact A|]. split; [rewrite slashed_snoc; now rewrite <- !app_assoc|]. split; [exact D|]. split; [reflexivity|]. split; [apply Forall_app; split; [exact F|now repeat constructor]|].
    cbn. destruct (c_segments c); [reflexivity|]. cbn. now rewrite B.
  - right. split; [exact A|]. left. destruct P as (B & -> & [S|(y & rest & S & Y & F)]); [elim N; auto|]. cbn [with_s c_absolute c_segments]. rewrite S. cbn [app]. split; [exact B|]. split; [change (y :: rest ++ [x]) with ((y :: rest) ++ [x]); now rewrite slashed_snoc|].
    right. exists y, (rest ++ [x]). split; [reflexivity|]. split; [exact Y|]. apply Forall_app. split; [exact F|now repeat constructor].
  - right. split; [exact A|]. right; left. destruct P as (B & y & rest & S & -> & Y & F). cbn [with_s c_absolute c_segments]. rewrite S. cbn [app]. split; [exact B|]. exists y, (rest ++ [x]). split; [reflexivity|]. split; [rewrite slashed_snoc; now rewrite <- !app_assoc|]. split; [exact Y|].
    apply Forall_app. split; [exact F|now repeat constructor].
  - right. split; [exact A|]. left. destruct P as (-> & B & S). cbn [with_s c_absolute c_segments]. rewrite S. cbn [app]. split; [reflexivity|]. split; [unfold slashed; cbn; now rewrite app_nil_r|].
    destruct x as [|x0 x]; [now left|right]. exists (x0 :: x), []. split; [reflexivity|]. split; [|constructor]. destruct X as (l & E & G & _ & _). exists l. split; [exact E|]. split; [exact G|]. split; [destruct l; [discriminate E|cbn; lia]|exact I].
Qed.
Lemma continue_segment s c x : reference_decomp s c -> c_query c = None -> c_fragment c = None -> L segment x -> ~ (c_authority c = None /\ c_absolute c = true /\ c_segments c = [[]]) ->
  reference_decomp (s ++ ss "/" ++ x) (with_s c x).
Proof.
  intros [(sch & sh & st & ES & LS & -> & H & T)|(sh & st & ES & -> & H & T)] Q F X N; destruct T as (-> & _ & _); rewrite Q, F; cbn [opt_pre app]; rewrite app_nil_r.
  - left. exists sch, (sh ++ ss "/" ++ x), []. split; [exact ES|]. split; [exact LS|]. split; [now rewrite app_nil_r, <- !app_assoc|]. split; [apply hier_segment; auto|]. unfold tail_decomp, with_s. cbn [c_query c_fragment]. rewrite Q, F. repeat split.
  - right. exists (sh ++ ss "/" ++ x), []. split; [exact ES|]. split; [now rewrite app_nil_r|]. split; [apply hier_segment; auto|]. unfold tail_decomp, with_s. cbn [c_query c_fragment]. rewrite Q, F. repeat split.
Qed.
