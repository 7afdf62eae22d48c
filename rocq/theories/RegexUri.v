(* Appendix B's regular expression on URIs *)
From Verif Require Import Base Peg PegLang UriHost UriStruct JoinFacts Rfc3986 PartsProps SpecRegex RegexFacts.
Local Open Scope nat_scope.

Lemma chars g f s : forallb (fun c => implb (may_use g c) (f c)) Peg.all_ascii = true -> L g s -> all f s.
Proof. intros S. apply (uses_only g _ f); [now intros|exact S]. Qed.
Lemma segment_free s : L segment s -> all (none_of "/?#") s. Proof. apply chars. vm_compute. reflexivity. Qed.
Lemma segment_nz_nc_free s : L segment_nz_nc s -> all (none_of ":/?#") s. Proof. apply chars. vm_compute. reflexivity. Qed.
Lemma userinfo_free s : L userinfo s -> all (none_of "/?#@[]") s. Proof. apply chars. vm_compute. reflexivity. Qed.
Lemma host_free s : L host s -> all (none_of "/?#@") s. Proof. apply chars. vm_compute. reflexivity. Qed.
Lemma port_free s : L port s -> all (none_of "/?#@[]:") s. Proof. apply chars. vm_compute. reflexivity. Qed.
Lemma query_free s : L query s -> all (none_of "#") s. Proof. apply chars. vm_compute. reflexivity. Qed.
Lemma fragment_free s : L fragment s -> all (fun c => negb (Ascii.eqb c newline)) s. Proof. apply chars. vm_compute. reflexivity. Qed.
Lemma scheme_free_chars s : L scheme s -> s <> [] /\ all (none_of ":/?#") s.
Proof. intros H. split; [apply (scheme_chars s H)|]. revert H. apply chars. vm_compute. reflexivity. Qed.

Lemma opt_free g f o : (forall s, L g s -> all f s) -> in_opt g o -> match o with Some x => all f x | None => True end.
Proof. destruct o; cbn; auto. Qed.
Lemma slashed_free segs : Forall (L segment) segs -> all (none_of "?#") (slashed segs).
Proof.
  intros F. induction F as [|x l H _ IH]; [constructor|]. unfold slashed. cbn [map List.concat]. apply Forall_app. split; [|exact IH].
  constructor; [reflexivity|]. apply segment_free in H. revert H. apply all_imp. vm_compute. reflexivity.
Qed.
Lemma slashed_head segs : slashed segs = [] \/ exists x, slashed segs = "/"%char :: x.
Proof. destruct segs as [|x l]; [now left|]. right. eexists. reflexivity. Qed.
Lemma authority_free s a : authority_decomp s a -> s = authority_text a /\ all (none_of "/?#") s.
Proof.
  destruct a as [[u h] p]. intros (-> & U & H & P). split; [reflexivity|]. apply Forall_app. split; [|apply Forall_app; split].
  - destruct u as [u|]; [|constructor]. apply Forall_app. split; [|now repeat constructor]. apply userinfo_free in U. revert U. apply all_imp. vm_compute. reflexivity.
  - apply host_free in H. revert H. apply all_imp. vm_compute. reflexivity.
  - destruct p as [p|]; [|constructor]. constructor; [reflexivity|]. apply port_free in P. revert P. apply all_imp. vm_compute. reflexivity.
Qed.
Lemma to_segment first x : (first = segment_nz \/ first = segment_nz_nc) -> L first x -> L segment x /\ x <> [].
Proof. intros [-> | ->]; [apply nz_seg'|apply nz_nc_seg]. Qed.
Lemma hier_pieces first sh c : (first = segment_nz \/ first = segment_nz_nc) -> hier_decomp first sh c ->
  sh = opt_pre (ss "//") (option_map authority_text (c_authority c)) ++ path_text (c_absolute c) (c_segments c)
  /\ match option_map authority_text (c_authority c) with
     | Some a => all (none_of "/?#") a /\ (path_text (c_absolute c) (c_segments c) = [] \/ exists x, path_text (c_absolute c) (c_segments c) = "/"%char :: x)
     | None => ~ starts_slash2 (path_text (c_absolute c) (c_segments c)) end
  /\ all (none_of "?#") (path_text (c_absolute c) (c_segments c)).
Proof.
  intros HF [(a & sa & sp & -> & -> & A & (-> & S & E))|(-> & [H|[H|H]])]; cbn [option_map opt_pre].
  - apply authority_free in A as [-> A].
    assert (P : path_text (c_absolute c) (c_segments c) = slashed (c_segments c)) by (rewrite E; destruct (c_segments c); reflexivity).
    rewrite P, <- app_assoc. split; [reflexivity|]. split; [|now apply slashed_free]. split; [exact A|]. apply slashed_head.
  - destruct H as (-> & -> & H). cbn [path_text app]. split; [reflexivity|].
    assert (S : Forall (L segment) (c_segments c)).
    { destruct H as [->|(x & rest & -> & X & R)]; [|constructor; [apply (nz_seg' x X)|exact R]]. constructor; [|constructor]. exists []. cbn. repeat split; auto; lia. }
    split; [|now apply slashed_free]. intros (t & T). destruct H as [E|(x & rest & E & X & R)]; rewrite E in T; [discriminate|].
    destruct (nz_seg' x X) as [Y N]. destruct x as [|d x]; [congruence|]. apply segment_free, Forall_inv in Y. cbn in T. injection T as -> _. discriminate.
  - destruct H as (-> & x & rest & -> & -> & X & R). cbn [path_text app]. destruct (to_segment first x HF X) as [Y N]. apply segment_free in Y.
    split; [reflexivity|]. split.
    + intros (t & T). destruct x as [|d x]; [congruence|]. apply Forall_inv in Y. cbn in T. injection T as -> _. discriminate.
    + apply Forall_app. split; [revert Y; apply all_imp; vm_compute; reflexivity|now apply slashed_free].
  - destruct H as (-> & -> & ->). cbn [path_text app]. split; [reflexivity|]. split; [intros (t & T); discriminate|constructor].
Qed.
(* a relative reference shows no scheme *)
Lemma free_start t : nohd (none_of "/?#:") t -> scheme_free t.
Proof.
  intros H x y E N A. destruct x as [|c x]; [congruence|]. apply Forall_inv in A. subst t. cbn [app nohd] in H.
  revert A H. pose proof (sweep (fun c => implb (none_of ":/?#" c) (none_of "/?#:" c)) eq_refl c) as S. cbv beta in S. intros A. rewrite A in S. cbn in S. congruence.
Qed.
Lemma free_after m r : all (none_of ":/?#") m -> nohd (none_of "/?#") r -> scheme_free (m ++ r).
Proof.
  intros A N x y E NX AX. destruct (app_eq_app _ _ _ _ E) as (l & [[-> X]|[-> X]]).
  - (* m = x ++ l *) destruct l as [|c l]; cbn [app] in X.
    + subst r. cbn in N. discriminate.
    + injection X as <- _. apply Forall_app in A as [_ A]. apply Forall_inv in A. discriminate.
  - destruct l as [|c l]; cbn [app] in X.
    + subst r. cbn in N. discriminate.
    + subst r. cbn [nohd] in N. apply Forall_app in AX as [_ AX]. apply Forall_inv in AX.
      pose proof (sweep (fun c => implb (none_of ":/?#" c) (none_of "/?#" c)) eq_refl c) as S. cbv beta in S. rewrite AX in S. cbn in S. congruence.
Qed.
Lemma tail_head st c : tail_decomp st c -> nohd (none_of "?#") st.
Proof. intros (-> & _). destruct (c_query c); [reflexivity|]. destruct (c_fragment c); [reflexivity|exact I]. Qed.
Lemma nohd_weak r : nohd (none_of "?#") r -> nohd (none_of "/?#") r.
Proof. apply nohd_imp_b. vm_compute. reflexivity. Qed.
Lemma relative_free sh st c : hier_decomp segment_nz_nc sh c -> tail_decomp st c -> scheme_free (sh ++ st).
Proof.
  intros H T. apply tail_head in T. destruct H as [(a & sa & sp & _ & -> & _)|(_ & [H|[H|H]])].
  - apply free_start. reflexivity.
  - destruct H as (_ & -> & [->|(x & rest & -> & _)]); apply free_start; reflexivity.
  - destruct H as (_ & x & rest & _ & -> & X & R). rewrite <- app_assoc. apply free_after; [now apply segment_nz_nc_free|].
    destruct (slashed_head rest) as [->|[y ->]]; [cbn [app]; now apply nohd_weak|reflexivity].
  - destruct H as (-> & _). cbn [app]. apply free_start. destruct st as [|d st]; [exact I|]. cbn [nohd] in *.
    revert T. pose proof (sweep (fun c => implb (none_of "/?#:" c) (none_of "?#" c)) eq_refl d) as S. cbv beta in S. destruct (none_of "/?#:" d); [|reflexivity]. cbn in S. congruence.
Qed.

Definition pieces_of (c : components) : pieces :=
  mkpieces (c_scheme c) (option_map authority_text (c_authority c)) (Some (path_text (c_absolute c) (c_segments c))) (c_query c) (c_fragment c).
Lemma by_regex_found s (sch au : option str) (path : str) (q f : option str) :
  found appendix_B s = Some ([], (match sch with Some x => [(1, x ++ ss ":"); (2, x)] | None => [] end)
     ++ (match au with Some x => [(3, ss "//" ++ x); (4, x)] | None => [] end) ++ [(5, path)]
     ++ (match q with Some x => [(6, ss "?" ++ x); (7, x)] | None => [] end) ++ match f with Some x => [(8, ss "#" ++ x); (9, x)] | None => [] end) ->
  by_regex s = Some (mkpieces sch au (Some path) q f).
Proof. intros H. unfold by_regex. rewrite H. destruct sch, au, q, f; reflexivity. Qed.
Lemma regex_URI s c : URI_decomp s c -> by_regex s = Some (pieces_of c).
Proof.
  intros (sch & sh & st & ES & LS & -> & H & T). pose proof (hier_pieces segment_nz sh c (or_introl eq_refl) H) as (-> & A & P). destruct T as (-> & Q & F).
  unfold pieces_of. apply by_regex_found. eapply by_regex_pieces; [rewrite ES; now apply scheme_free_chars|exact A|exact P|exact (opt_free _ _ _ query_free Q)|exact (opt_free _ _ _ fragment_free F)|].
  rewrite ES. cbn [opt_post]. now rewrite <- !app_assoc.
Qed.
Lemma regex_relative s c : relative_decomp s c -> by_regex s = Some (pieces_of c).
Proof.
  intros (sh & st & ES & -> & H & T). pose proof (relative_free _ _ _ H T) as RF. pose proof (hier_pieces segment_nz_nc sh c (or_intror eq_refl) H) as (-> & A & P). destruct T as (-> & Q & F).
  unfold pieces_of. apply by_regex_found. eapply by_regex_pieces; [rewrite ES; rewrite <- app_assoc in RF; exact RF|exact A|exact P|exact (opt_free _ _ _ query_free Q)|exact (opt_free _ _ _ fragment_free F)|].
  rewrite ES. cbn [opt_post app]. now rewrite <- !app_assoc.
Qed.
