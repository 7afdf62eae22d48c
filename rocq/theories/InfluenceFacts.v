(* What of the base shows in the result of join *)
From Verif Require PropSplitFacts.
From Verif Require Import Base PathFacts ModelUri Peg PegLang UriHost UriStruct JoinFacts Rfc3986 PartsProps SpecUri SpecParts SpecRegex RegexFacts RegexUri.
Local Open Scope list_scope.

(* effective scheme of the reference *)
Definition eff (b r : parts) (strict : bool) : option str := if negb strict && opt_eqb str_eqb (p_scheme r) (p_scheme b) then None else p_scheme r.
Lemma eff_ext b b' r strict : p_scheme b = p_scheme b' -> eff b r strict = eff b' r strict.
Proof. unfold eff. now intros ->. Qed.
Lemma join_eff b r strict : join_parts b r strict =
  match eff b r strict with
  | Some s => mkparts (Some s) (p_authority r) (remove_dot_segments (p_path r)) (p_query r) (p_fragment r)
  | None => match p_authority r with
    | Some a => mkparts (p_scheme b) (Some a) (remove_dot_segments (p_path r)) (p_query r) (p_fragment r)
    | None => if path_is_empty (p_path r) then mkparts (p_scheme b) (p_authority b) (p_path b) (match p_query r with Some q => Some q | None => p_query b end) (p_fragment r)
       else mkparts (p_scheme b) (p_authority b) (remove_dot_segments (if absolute (p_path r) then p_path r else merge b r)) (p_query r) (p_fragment r)
    end end.
Proof.
  unfold join_parts, eff. cbv zeta. destruct (if negb strict && _ then None else _); [reflexivity|]. destruct (p_authority r); [reflexivity|].
  destruct (path_is_empty _); [reflexivity|]. now destruct (absolute _).
Qed.
Lemma join_nothing b b' r : p_scheme r <> None -> join_parts b r true = join_parts b' r true.
Proof. intros H. rewrite !join_eff. unfold eff. cbn [negb andb]. now destruct (p_scheme r). Qed.
Lemma join_scheme_only b b' r strict : p_scheme b = p_scheme b' -> p_authority r <> None -> join_parts b r strict = join_parts b' r strict.
Proof. intros E H. rewrite !join_eff, <- (eff_ext b b' r strict E), <- E. now destruct (p_authority r). Qed.
Lemma join_origin_only b b' r strict : p_scheme b = p_scheme b' -> p_authority b = p_authority b' -> segments (p_path r) <> [] -> absolute (p_path r) = true ->
  join_parts b r strict = join_parts b' r strict.
Proof. intros E1 E2 P A. rewrite !join_eff, <- (eff_ext b b' r strict E1), <- E1, <- E2, A. unfold path_is_empty. now destruct (segments (p_path r)). Qed.
Lemma join_directory_only b b' r strict d x x' : p_scheme b = p_scheme b' -> p_authority b = p_authority b' -> absolute (p_path b) = absolute (p_path b') ->
  segments (p_path b) = d ++ [x] -> segments (p_path b') = d ++ [x'] -> d <> [] -> segments (p_path r) <> [] -> join_parts b r strict = join_parts b' r strict.
Proof.
  intros E1 E2 E3 Sb Sb' N P. rewrite !join_eff, <- (eff_ext b b' r strict E1), <- E1, <- E2.
  assert (M : merge b r = merge b' r).
  { unfold merge, path_is_empty. rewrite <- E2, <- E3, Sb, Sb'. rewrite !app_length. cbn [length]. rewrite !Nat.add_sub, !firstn_app, !Nat.sub_diag, !firstn_all. cbn [firstn]. rewrite !app_nil_r.
    destruct d as [|d0 d]; [congruence|]. cbn [length app]. assert (Nat.ltb 1 (S (length d) + 1) = true) as -> by (apply Nat.ltb_lt; lia). reflexivity. }
  unfold path_is_empty. destruct (segments (p_path r)); [congruence|]. now rewrite M.
Qed.
Lemma join_no_query b b' r strict : p_scheme b = p_scheme b' -> p_authority b = p_authority b' -> p_path b = p_path b' ->
  p_scheme r <> None /\ strict = true \/ p_authority r <> None \/ segments (p_path r) <> [] \/ p_query r <> None -> join_parts b r strict = join_parts b' r strict.
Proof.
  intros E1 E2 E3 H. destruct H as [[H ->]|H]; [now apply join_nothing|]. rewrite !join_eff, <- (eff_ext b b' r strict E1), <- E1, <- E2, <- E3.
  assert (M : merge b r = merge b' r) by (unfold merge; now rewrite E2, E3). rewrite <- M.
  destruct (eff b r strict); [reflexivity|]. destruct (p_authority r); [reflexivity|]. unfold path_is_empty. destruct (segments (p_path r)); [|reflexivity].
  destruct (p_query r); [reflexivity|]. destruct H as [H|[H|H]]; congruence.
Qed.
Lemma join_no_fragment b b' r strict : p_scheme b = p_scheme b' -> p_authority b = p_authority b' -> p_path b = p_path b' -> p_query b = p_query b' ->
  join_parts b r strict = join_parts b' r strict.
Proof.
  intros E1 E2 E3 E4. rewrite !join_eff, <- (eff_ext b b' r strict E1), <- E1, <- E2, <- E3, <- E4.
  assert (M : merge b r = merge b' r) by (unfold merge; now rewrite E2, E3). now rewrite <- M.
Qed.
Lemma join_whole_authority b r strict :
  (p_authority (join_parts b r strict) = p_authority r /\ (p_authority r <> None \/ p_scheme r <> None))
  \/ (p_authority (join_parts b r strict) = p_authority b /\ p_authority r = None /\ (p_scheme r = None \/ (strict = false /\ p_scheme r = p_scheme b))).
Proof.
  rewrite join_eff. unfold eff. destruct (negb strict && opt_eqb str_eqb (p_scheme r) (p_scheme b)) eqn:C.
  - assert (D : strict = false /\ p_scheme r = p_scheme b).
    { apply andb_prop in C as [C D]. split; [now destruct strict|]. destruct (p_scheme r) as [x|], (p_scheme b) as [y|]; cbn in D; try discriminate D; [|reflexivity]. destruct (str_eqb_spec x y); congruence. }
    destruct (p_authority r) as [a|] eqn:A; [left; cbn; split; [reflexivity|left; discriminate]|]. right. destruct (path_is_empty _); cbn; auto.
  - destruct (p_scheme r) as [s|]; [left; cbn; split; [reflexivity|right; discriminate]|].
    destruct (p_authority r) as [a|] eqn:A; [left; cbn; split; [reflexivity|left; discriminate]|]. right. destruct (path_is_empty _); cbn; auto.
Qed.
Lemma join_fragment b r strict : p_fragment (join_parts b r strict) = p_fragment r.
Proof. rewrite join_eff. destruct (eff b r strict); [reflexivity|]. destruct (p_authority r); [reflexivity|]. now destruct (path_is_empty _). Qed.

(* --- the texts -------------------------------------------------------------------------------------------- *)
Lemma cut_at (f : ascii -> bool) u u' x x' : all f u -> all f u' -> nohd f x -> nohd f x' -> u ++ x = u' ++ x' -> u = u'.
Proof.
  revert u'. induction u as [|c u IH]; intros [|c' u'] A A' H H' E; cbn [app] in E.
  - reflexivity.
  - subst x. apply Forall_inv in A'. cbn in H. congruence.
  - subst x'. apply Forall_inv in A. cbn in H'. congruence.
  - injection E as -> E. f_equal. apply (IH u'); auto; now apply Forall_inv_tail in A, A'.
Qed.
Definition stem_of (c : components) : components := mkcomponents (c_scheme c) (c_authority c) (c_absolute c) (c_segments c) None None.
Definition unfragmented (c : components) : components := mkcomponents (c_scheme c) (c_authority c) (c_absolute c) (c_segments c) (c_query c) None.
Lemma uri_stem s c : URI_decomp s c -> exists u, s = u ++ opt_pre (ss "?") (c_query c) ++ opt_pre (ss "#") (c_fragment c) /\ all (none_of "?#") u
  /\ (forall s' c', URI_decomp s' c' -> stem_of c' = stem_of c -> s' = u ++ opt_pre (ss "?") (c_query c') ++ opt_pre (ss "#") (c_fragment c')) /\ URI_decomp u (stem_of c).
Proof.
  intros (sch & sh & st & ES & LS & -> & H & T). pose proof (hier_pieces segment_nz sh c (or_introl eq_refl) H) as (Esh & A & P). destruct T as (-> & Q & F).
  exists (sch ++ ss ":" ++ sh). split; [now rewrite <- !app_assoc|]. split; [|split].
  - apply Forall_app. split; [apply scheme_free_chars in LS as [_ LS]; revert LS; apply all_imp; vm_compute; reflexivity|]. apply Forall_app. split; [repeat constructor|].
    rewrite Esh. apply Forall_app. split.
    + destruct (option_map authority_text (c_authority c)) as [a|]; [|constructor]. destruct A as [A _]. apply Forall_app. split; [repeat constructor|]. revert A. apply all_imp. vm_compute. reflexivity.
    + exact P.
  - intros s' c' (sch' & sh' & st' & ES' & LS' & -> & H' & T') E. unfold stem_of in E. injection E as E1 E2 E3 E4.
    pose proof (hier_pieces segment_nz sh' c' (or_introl eq_refl) H') as (Esh' & _). destruct T' as (-> & _). rewrite <- !app_assoc.
    assert (sch' = sch) as -> by congruence. f_equal. f_equal. rewrite Esh', Esh, E2, E3, E4. reflexivity.
  - exists sch, sh, []. split; [exact ES|]. split; [exact LS|]. split; [now rewrite app_nil_r|]. split; [exact H|]. split; [reflexivity|]. split; exact I.
Qed.
Lemma nohd_tail c : nohd (none_of "?#") (opt_pre (ss "?") (c_query c) ++ opt_pre (ss "#") (c_fragment c)).
Proof. destruct (c_query c); [reflexivity|]. destruct (c_fragment c); [reflexivity|exact I]. Qed.
Lemma same_stem s s' c c' u x x' : URI_decomp s c -> URI_decomp s' c' -> s = u ++ x -> s' = u ++ x' -> all (none_of "?#") u -> nohd (none_of "?#") x -> nohd (none_of "?#") x' ->
  stem_of c = stem_of c'.
Proof.
  intros D D' E E' A N N'. destruct (uri_stem s c D) as (v & Es & Av & _ & Dv). destruct (uri_stem s' c' D') as (v' & Es' & Av' & _ & Dv').
  assert (v = u) as ->. { eapply cut_at; [exact Av|exact A|apply nohd_tail|exact N|rewrite <- Es; exact E]. }
  assert (v' = u) as ->. { eapply cut_at; [exact Av'|exact A|apply nohd_tail|exact N'|rewrite <- Es'; exact E']. }
  eapply PropSplitFacts.reference_unique; left; eassumption.
Qed.
Lemma uri_unfragmented s c : URI_decomp s c -> exists u, s = u ++ opt_pre (ss "#") (c_fragment c) /\ all (none_of "#") u /\ URI_decomp u (unfragmented c).
Proof.
  intros D. destruct (uri_stem s c D) as (v & Es & Av & _ & _). destruct D as (sch & sh & st & ES & LS & Es' & H & T). pose proof T as (-> & Q & F).
  exists (v ++ opt_pre (ss "?") (c_query c)). split; [rewrite <- app_assoc; exact Es|]. split.
  - apply Forall_app. split; [revert Av; apply all_imp; vm_compute; reflexivity|]. destruct (c_query c) as [q|]; [|constructor]. apply Forall_app. split; [repeat constructor|]. now apply query_free.
  - exists sch, sh, (opt_pre (ss "?") (c_query c)). split; [exact ES|]. split; [exact LS|]. split.
    + rewrite Es in Es'. rewrite !app_assoc in Es'. apply app_inv_tail in Es'. rewrite Es'. now rewrite <- !app_assoc.
    + split; [exact H|]. split; [cbn; now rewrite app_nil_r|]. split; [exact Q|exact I].
Qed.
Lemma same_unfragmented s s' c c' u x x' : URI_decomp s c -> URI_decomp s' c' -> s = u ++ x -> s' = u ++ x' -> all (none_of "#") u -> nohd (none_of "#") x -> nohd (none_of "#") x' ->
  unfragmented c = unfragmented c'.
Proof.
  intros D D' E E' A N N'. destruct (uri_unfragmented s c D) as (v & Es & Av & Dv). destruct (uri_unfragmented s' c' D') as (v' & Es' & Av' & Dv').
  assert (T : forall c, nohd (none_of "#") (opt_pre (ss "#") (c_fragment c))) by (intros k; destruct (c_fragment k); [reflexivity|exact I]).
  assert (v = u) as ->. { eapply cut_at; [exact Av|exact A|apply T|exact N|rewrite <- Es; exact E]. }
  assert (v' = u) as ->. { eapply cut_at; [exact Av'|exact A|apply T|exact N'|rewrite <- Es'; exact E']. }
  eapply PropSplitFacts.reference_unique; left; eassumption.
Qed.
Lemma comps_auth (a b : option ModelUri.authority) : match a with Some a => Some (ModelUri.userinfo a, ModelUri.host a, ModelUri.port a) | None => None end
  = match b with Some a => Some (ModelUri.userinfo a, ModelUri.host a, ModelUri.port a) | None => None end -> a = b.
Proof. destruct a as [[]|], b as [[]|]; cbn; intros E; try discriminate E; [|reflexivity]. now injection E as -> -> ->. Qed.
Lemma path_ext (p q : ModelUri.path) : absolute p = absolute q -> segments p = segments q -> p = q.
Proof. destruct p, q. cbn. now intros -> ->. Qed.
Lemma join_split sg fuel base ref strict t : join sg fuel base ref strict = Ok (Some t) ->
  exists b r, split sg fuel base = Ok (Some b) /\ split_reference sg fuel ref = Ok (Some r) /\ t = join_parts b r strict.
Proof.
  unfold join, bind. destruct (split sg fuel base) as [[b|]| |]; try discriminate. destruct (split_reference sg fuel ref) as [[r|]| |]; try discriminate.
  intros E. injection E as <-. eauto.
Qed.
Lemma text_fragment sg fuel u x x' ref strict t t' : fits fuel (u ++ x) -> fits fuel (u ++ x') -> all (none_of "#") u -> nohd (none_of "#") x -> nohd (none_of "#") x' ->
  join sg fuel (u ++ x) ref strict = Ok (Some t) -> join sg fuel (u ++ x') ref strict = Ok (Some t') -> t = t'.
Proof.
  intros F F' A N N' J J'. apply join_split in J as (b & r & B & R & ->). apply join_split in J' as (b' & r' & B' & R' & ->).
  assert (r' = r) as -> by congruence. destruct (PropSplitFacts.split_sound sg fuel _ b F B) as (_ & D & _). destruct (PropSplitFacts.split_sound sg fuel _ b' F' B') as (_ & D' & _).
  pose proof (same_unfragmented _ _ _ _ u x x' D D' eq_refl eq_refl A N N') as E. unfold unfragmented, comps in E. cbn in E. injection E as E1 E2 E3 E4 E5.
  apply join_no_fragment; [exact E1|now apply comps_auth|now apply path_ext|exact E5].
Qed.
Lemma text_query sg fuel u x x' ref strict t t' : fits fuel (u ++ x) -> fits fuel (u ++ x') -> fits fuel ref -> all (none_of "?#") u -> nohd (none_of "?#") x -> nohd (none_of "?#") x' ->
  ref <> [] -> hd_error ref <> Some "#"%char -> strict = true \/ (forall r, split_reference sg fuel ref = Ok (Some r) -> p_scheme r = None) ->
  join sg fuel (u ++ x) ref strict = Ok (Some t) -> join sg fuel (u ++ x') ref strict = Ok (Some t') -> t = t'.
Proof.
  intros F F' FR A N N' NE NF ST J J'. apply join_split in J as (b & r & B & R & ->). apply join_split in J' as (b' & r' & B' & R' & ->).
  assert (r' = r) as -> by congruence. destruct (PropSplitFacts.split_sound sg fuel _ b F B) as (_ & D & _). destruct (PropSplitFacts.split_sound sg fuel _ b' F' B') as (_ & D' & _).
  pose proof (same_stem _ _ _ _ u x x' D D' eq_refl eq_refl A N N') as E. unfold stem_of, comps in E. cbn in E. injection E as E1 E2 E3 E4.
  apply join_no_query; [exact E1|now apply comps_auth|now apply path_ext|].
  destruct (p_authority r) eqn:RA; [right; left; discriminate|]. destruct (segments (p_path r)) eqn:RS; [|right; right; left; discriminate].
  destruct (p_query r) eqn:RQ; [right; right; right; discriminate|]. destruct (p_scheme r) as [z|] eqn:RZ.
  - destruct ST as [->|ST]; [left; split; [discriminate|reflexivity]|]. apply ST in R. congruence.
  - exfalso. apply (PropSplitFacts.split_reference_spec sg fuel ref r FR) in R as [[(sch & _ & _ & X & _)|(sh & st & _ & -> & H & (-> & _))] _]; [cbn in X; congruence|].
    cbn [comps c_query c_fragment] in *. rewrite RQ in *. assert (sh = []) as ->.
    { destruct H as [(a & _ & _ & X & _)|(_ & [(_ & Es & [X|(k & rest & X & _)])|[(_ & k & rest & X & _)|(X & _)]])]; cbn in *; try congruence.
      - rewrite RA in X. discriminate X. }
    destruct (p_fragment r); [apply NF; reflexivity|now apply NE].
Qed.
