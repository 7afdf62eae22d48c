(* valid () asks for no memory, and remove_dot_segments () for none *)
From Verif Require Import Base ModelRule ModelUri ModelParse ParseWork ParseCost ModelAlloc AllocFacts PathFacts.

(* no acceptor anywhere *)
Fixpoint plain (g : gram) : bool := match g with Rule c => plain_chain c | _ => true end
with plain_chain (c : chain) : bool :=
  match c with
  | Start => true
  | Concat c g acc | Optional c g acc => plain_chain c && plain g && match acc with None => true | Some _ => false end
  | Repeat c g _ _ => plain_chain c && plain g
  | Alt c gs => plain_chain c && plain_all gs
  end
with plain_all (gs : grams) : bool := match gs with Gnil => true | Gcons g gs => plain g && plain_all gs end.

Section Memory.
Context {Mem : Type}.
Variable alloc : request -> Mem -> option Mem.
Notation R := (@R Mem).
(* an empty vector is free *)
Hypothesis nothing : forall m, alloc (Accs 0) m = Some m.
(* the same result, and the memory is as it was *)
Definition quiet {X} (a : R X) (o : outcome X) : Prop := forall m, a m = lift o m.
Definition gives {X} (o : outcome X) (P : X -> Prop) : Prop := forall x, o = Ok x -> P x.
Lemma quiet_lift {X} (o : outcome X) : quiet (lift o) o. Proof. intros m. reflexivity. Qed.
Lemma quiet_ret {X} (x : X) : quiet (ret x) (Ok x). Proof. intros m. reflexivity. Qed.
Lemma quiet_seq {X Y} (P : X -> Prop) (a : R X) o (f : X -> R Y) g :
  quiet a o -> gives o P -> (forall x, P x -> quiet (f x) (g x)) -> quiet (seqm a f) (o >>= g).
Proof.
  intros H G K m. unfold seqm. rewrite H. unfold lift. destruct o as [x| |] eqn:E; cbn [bind]; try reflexivity. apply K, G. reflexivity.
Qed.
Lemma quiet_need {Y} (f : unit -> R Y) o : quiet (f tt) o -> quiet (seqm (need alloc (Accs 0)) f) o.
Proof. intros H m. unfold seqm, need. rewrite nothing. cbn. apply H. Qed.
Lemma gives_seq {X Y} (P : X -> Prop) (Q : Y -> Prop) (o : outcome X) (g : X -> outcome Y) :
  gives o P -> (forall x, P x -> gives (g x) Q) -> gives (o >>= g) Q.
Proof. intros H K y E. destruct o as [x| |]; try discriminate. exact (K x (H x eq_refl) y E). Qed.
Lemma gives_ok {X} (P : X -> Prop) x : P x -> gives (Ok x) P. Proof. intros H y E. now injection E as <-. Qed.

Definition bare (r : rule action) : Prop := accs r = [].
Definition bare_m (x : matched_result action) : Prop := match x with Some (_, a) => a = [] | None => True end.
Definition calmly (F : rule action -> R (matched_result action)) (f : matcher action) : Prop :=
  forall r, bare r -> quiet (F r) (f r) /\ gives (f r) bare_m.
Lemma quiet_copy r : bare r -> quiet (copy_m alloc r) (Ok r).
Proof. intros H. unfold copy_m. rewrite H. apply quiet_need, quiet_ret. Qed.
Lemma quiet_join self s : bare self -> quiet (join_rule_mm alloc self (s, [])) (join_rule_m self (s, [])) /\ gives (join_rule_m self (s, [])) bare.
Proof.
  intros H. split.
  - intros m. unfold join_rule_mm. rewrite H. cbn [length snd Nat.add]. unfold seqm at 1, lift. destruct (join_rule_m self (s, [])) as [r| |]; cbn [bind]; try reflexivity.
    unfold seqm, need. rewrite nothing. reflexivity.
  - intros r E. unfold join_rule_m in E. destruct (tail self); [|discriminate]. destruct (substr_from _ _) as [t| |]; try discriminate. cbn in E. injection E as <-.
    unfold bare. cbn. now rewrite H.
Qed.
Lemma quiet_concat F f opt self : calmly F f -> bare self -> quiet (concat_impl_m alloc F None opt self) (concat_impl f None opt self) /\ gives (concat_impl f None opt self) bare.
Proof.
  intros C H. unfold concat_impl_m, concat_impl. destruct (tail self) as [t|]; [|split; [now apply quiet_copy|now apply gives_ok]].
  destruct (C (rule_of t) eq_refl) as [Q G]. split.
  - eapply quiet_seq; [exact Q|exact G|]. intros [[s a]|] Ha; cbn in Ha.
    + subst a. intros m. unfold seqm, ret. cbn [bind]. now apply quiet_join.
    + destruct opt; [now apply quiet_copy|apply quiet_ret].
  - eapply gives_seq; [exact G|]. intros [[s a]|] Ha; cbn in Ha.
    + subst a. now apply quiet_join.
    + apply gives_ok. destruct opt; [exact H|reflexivity].
Qed.
Lemma quiet_optional F f self : calmly F f -> bare self -> quiet (optional_impl_m alloc F None self) (optional_impl f None self) /\ gives (optional_impl f None self) bare.
Proof.
  intros C H. unfold optional_impl_m, optional_impl. destruct (tail self) as [t|]; [|split; [now apply quiet_copy|now apply gives_ok]].
  destruct (quiet_concat F f true (rule_of t) C eq_refl) as [Q G]. split.
  - eapply quiet_seq; [exact Q|exact G|]. intros r Hr. destruct (tail r); [|now apply quiet_copy]. rewrite H, Hr. apply quiet_need, quiet_ret.
  - eapply gives_seq; [exact G|]. intros r Hr. destruct (tail r); apply gives_ok; [|exact H]. unfold bare. cbn. now rewrite H, Hr.
Qed.
Definition bare_s (x : nat * acceptors action * N) : Prop := snd (fst x) = [].
Lemma quiet_star_loop F f max fuel : calmly F f -> forall s len count,
  quiet (star_loop_m alloc fuel F max s len [] count) (star_loop fuel f max s len [] count) /\ gives (star_loop fuel f max s len [] count) bare_s.
Proof.
  intros C. induction fuel as [|fuel IH]; intros s len count; cbn [star_loop_m star_loop]; [split; [apply quiet_lift|discriminate]|].
  destruct (C (rule_of s) eq_refl) as [Q G]. split.
  - eapply quiet_seq; [exact Q|exact G|]. intros [[ms a]|] Ha; [|apply quiet_ret]. cbn in Ha. subst a. cbv zeta. destruct (N.ltb _ _); [apply quiet_ret|].
    destruct (Nat.ltb _ _); [apply quiet_lift|]. apply quiet_need. cbn [app]. apply IH.
  - eapply gives_seq; [exact G|]. intros [[ms a]|] Ha; [|now apply gives_ok]. cbn in Ha. subst a. cbv zeta. destruct (N.ltb _ _); [now apply gives_ok|].
    destruct (Nat.ltb _ _); [discriminate|]. cbn [app]. apply IH.
Qed.
Lemma quiet_star F f fuel min max self : calmly F f -> bare self -> quiet (star_m alloc fuel F min max self) (star fuel f min max self) /\ gives (star fuel f min max self) bare.
Proof.
  intros C H. unfold star_m, star. destruct (tail self) as [t|]; [|split; [now apply quiet_copy|now apply gives_ok]]. rewrite H.
  destruct (quiet_star_loop F f max fuel C t 0 0) as [Q G]. split.
  - cbn [length]. apply quiet_need. eapply quiet_seq; [exact Q|exact G|]. intros [[len acc] count] Ha. destruct (N.ltb _ _); [apply quiet_ret|].
    apply (quiet_seq (fun _ => True)); [apply quiet_lift|easy|]. intros t' _. apply quiet_ret.
  - eapply gives_seq; [exact G|]. intros [[len acc] count] Ha. destruct (N.ltb _ _); [now apply gives_ok|].
    apply (gives_seq (fun _ => True)); [easy|]. intros t' _. now apply gives_ok.
Qed.
Lemma quiet_alternative Fs fs self : Forall2 calmly Fs fs -> bare self -> quiet (alternative_m alloc Fs self) (alternative fs self) /\ gives (alternative fs self) bare.
Proof.
  intros H B. induction H as [|F f Fs fs C _ [IH1 IH2]]; [split; [apply quiet_ret|now apply gives_ok]|]. cbn [alternative_m alternative].
  destruct (tail self) as [t|]; [|split; [now apply quiet_copy|now apply gives_ok]]. destruct (C (rule_of t) eq_refl) as [Q G]. split.
  - eapply quiet_seq; [exact Q|exact G|]. intros [[s a]|] Ha; [|exact IH1]. cbn in Ha. subst a. now apply quiet_join.
  - eapply gives_seq; [exact G|]. intros [[s a]|] Ha; [|exact IH2]. cbn in Ha. subst a. now apply quiet_join.
Qed.
Lemma quiet_matched r self : bare self -> quiet (matched_m alloc r self) (matched r self) /\ gives (matched r self) bare_m.
Proof.
  intros H. split.
  - intros m. unfold matched_m. rewrite H. cbn [length]. unfold seqm at 1, lift. destruct (matched r self) as [[y|]| |]; cbn [bind]; try reflexivity.
    unfold seqm, need. rewrite nothing. reflexivity.
  - intros y E. unfold matched in E. destruct (tail self) as [t|]; [|now injection E as <-]. destruct (tail r); [|discriminate]. destruct (Nat.ltb _ _); injection E as <-; exact H.
Qed.
Lemma quiet_leaf (f : matcher action) : (forall r, bare r -> gives (f r) bare_m) -> calmly (leaf_m f) f.
Proof. intros H r B. split; [apply quiet_lift|now apply H]. Qed.
Lemma bare_char (p : ascii -> outcome bool) r : gives (single_char_p p r) bare_m.
Proof.
  intros y E. unfold single_char_p in E. destruct (tail r) as [[|c t]|]; try (now injection E as <-). destruct (p c) as [[]| |]; try discriminate; now injection E as <-.
Qed.
Lemma quiet_run sg fuel :
  (forall g, plain g = true -> calmly (run_m alloc sg fuel g) (run sg fuel g))
  /\ (forall c, plain_chain c = true -> forall r, bare r -> quiet (run_chain_m alloc sg fuel c r) (run_chain sg fuel c r) /\ gives (run_chain sg fuel c r) bare)
  /\ (forall gs, plain_all gs = true -> Forall2 calmly (run_all_m alloc sg fuel gs) (run_all sg fuel gs)).
Proof.
  apply gram_mut; intros; try (apply quiet_leaf; intros; apply bare_char); cbn [run_m run run_chain_m run_chain run_all_m run_all]; cbn [plain plain_chain plain_all] in *.
  - apply quiet_leaf. intros r _ y E. unfold single_code_point, single_char in E. destruct (c_tolower _); cbn [bind] in E; try discriminate. exact (bare_char _ _ _ E).
  - apply quiet_leaf. intros r _ y E. unfold code_point_range, char_range in E. destruct (c_tolower _); cbn [bind] in E; try discriminate.
    destruct (c_tolower _); cbn [bind] in E; try discriminate. exact (bare_char _ _ _ E).
  - apply quiet_leaf. intros r _ y E. unfold not_colon in E. destruct (tail r) as [[|c t]|]; [| |]; try (now injection E as <-). destruct (Ascii.eqb c ":"); now injection E as <-.
  - intros r B. destruct (H H0 r B) as [Q G]. split.
    + eapply quiet_seq; [exact Q|exact G|]. intros x Hx. now apply quiet_matched.
    + eapply gives_seq; [exact G|]. intros x Hx. now apply quiet_matched.
  - split; [apply quiet_ret|now apply gives_ok].
  - apply andb_prop in H1 as [H1 Ha]. apply andb_prop in H1 as [H1 Hg]. destruct acc; [discriminate|]. destruct (H H1 r H2) as [Q G]. specialize (H0 Hg). split.
    + eapply quiet_seq; [exact Q|exact G|]. intros x Hx. now apply quiet_concat.
    + eapply gives_seq; [exact G|]. intros x Hx. now apply (quiet_concat (run_m alloc sg fuel g)).
  - apply andb_prop in H1 as [H1 Ha]. apply andb_prop in H1 as [H1 Hg]. destruct acc; [discriminate|]. destruct (H H1 r H2) as [Q G]. specialize (H0 Hg). split.
    + eapply quiet_seq; [exact Q|exact G|]. intros x Hx. now apply quiet_optional.
    + eapply gives_seq; [exact G|]. intros x Hx. now apply (quiet_optional (run_m alloc sg fuel g)).
  - apply andb_prop in H1 as [H1 Hg]. destruct (H H1 r H2) as [Q G]. specialize (H0 Hg). split.
    + eapply quiet_seq; [exact Q|exact G|]. intros x Hx. now apply quiet_star.
    + eapply gives_seq; [exact G|]. intros x Hx. now apply (quiet_star (run_m alloc sg fuel g)).
  - apply andb_prop in H1 as [H1 Hg]. destruct (H H1 r H2) as [Q G]. specialize (H0 Hg). split.
    + eapply quiet_seq; [exact Q|exact G|]. intros x Hx. now apply quiet_alternative.
    + eapply gives_seq; [exact G|]. intros x Hx. now apply (quiet_alternative (run_all_m alloc sg fuel gs)).
  - constructor.
  - apply andb_prop in H1 as [H1 H2]. constructor; auto.
Qed.
Lemma quiet_matches sg fuel g s : plain g = true -> quiet (matches_m alloc sg fuel g s) (matches (run sg fuel g) s).
Proof.
  intros P. unfold matches_m, matches, concat. destruct (quiet_concat _ _ false (rule_of s) (proj1 (quiet_run sg fuel) g P) eq_refl) as [Q G].
  eapply quiet_seq; [exact Q|exact G|]. intros r Hr. apply (quiet_seq (fun _ => True)); [|easy|intros b _; apply quiet_ret].
  unfold done_m, done. rewrite Hr. destruct (tail r) as [[|c t]|]; intros m; reflexivity.
Qed.
Lemma quiet_opt sg fuel g s : plain g = true -> quiet (opt_matches_m alloc sg fuel g s) (opt_matches (run sg fuel g) s).
Proof. intros P. destruct s; [now apply quiet_matches|apply quiet_ret]. Qed.
Lemma quiet_and x y (a b : R bool) : quiet a x -> quiet b y -> quiet (andalso_m a b) (andalso x y).
Proof. intros H K. apply (quiet_seq (fun _ => True)); [exact H|easy|]. intros [] _; [exact K|apply quiet_ret]. Qed.
Lemma quiet_segs sg fuel l : quiet (segs_valid_m alloc sg fuel l) (segs_valid sg fuel l).
Proof. induction l as [|s l IH]; [apply quiet_ret|]. cbn [segs_valid_m segs_valid]. apply quiet_and; [now apply (quiet_matches sg fuel Segment)|exact IH]. Qed.
Lemma quiet_valid sg fuel p : quiet (parts_valid_m alloc sg fuel p) (parts_valid sg fuel p).
Proof.
  unfold parts_valid_m, parts_valid. apply quiet_and. { destruct (p_scheme p); [now apply (quiet_matches sg fuel Scheme)|apply quiet_ret]. }
  apply quiet_and. { destruct (p_authority p) as [a|]; [|apply quiet_ret]. unfold authority_valid_m, authority_valid.
    apply quiet_and; [now apply (quiet_opt sg fuel Userinfo)|]. apply quiet_and; [now apply (quiet_matches sg fuel Host)|now apply (quiet_opt sg fuel Port)]. }
  apply quiet_and; [apply quiet_segs|]. apply quiet_and; now apply (quiet_opt sg fuel Query).
Qed.
End Memory.

(* --- remove_dot_segments ----------------------------------------------------- *)
Lemma stk_length st l : length (stk st l) <= length st + length l.
Proof.
  revert st. induction l as [|x l IH]; intros st; cbn [stk length]; [lia|]. destruct (is_dot x); [specialize (IH st); lia|]. destruct (is_dotdot x).
  - specialize (IH (removelast st)). assert (length (removelast st) <= length st); [|lia].
    destruct st as [|y st _] using rev_ind; [cbn; lia|]. rewrite removelast_last, app_length. cbn. lia.
  - specialize (IH (st ++ [x])). rewrite app_length in IH. cbn in IH. lia.
Qed.
Lemma snoc_empty_length (k : list str) n : length k <= n ->
  length match k ++ [[]] with [] => [[]] | _ => if is_empty (last (k ++ [[]]) []) then k ++ [[]] else (k ++ [[]]) ++ [[]] end <= n + 1.
Proof.
  intros H. rewrite last_last. cbn [is_empty]. destruct k as [|y q]; cbn [app]; [cbn; lia|].
  cbn [length] in *. rewrite app_length. cbn. lia.
Qed.
Lemma rds_length segs : length (rds_segments segs) <= length segs.
Proof.
  rewrite rds_segments_stk. cbv zeta. destruct segs as [|x l _] using rev_ind; [cbn; lia|].
  assert (E : match l ++ [x] with [] => false | _ => dirlike (last (l ++ [x]) []) end = dirlike x).
  { rewrite last_last. destruct l; reflexivity. }
  rewrite E, stk_app, app_length. cbn [length]. pose proof (stk_length [] l) as L. cbn [length] in L. cbn [stk].
  unfold dirlike. destruct (is_dot x); [|destruct (is_dotdot x)]; cbn [orb].
  - destruct (stk [] l) as [|y k] eqn:Ek; [cbn; lia|]. destruct (is_empty _); [lia|]. rewrite app_length. cbn [length] in *. lia.
  - assert (L2 : length (removelast (stk [] l)) <= length l).
    { destruct (stk [] l) as [|y k _] using rev_ind; [cbn; lia|]. rewrite removelast_last. rewrite app_length in L. lia. }
    destruct (removelast (stk [] l)) as [|y k] eqn:Ek; [cbn; lia|]. destruct (is_empty _); [lia|]. rewrite app_length. cbn [length] in *. lia.
  - destruct x as [|c x]; cbn [is_empty].
    + apply snoc_empty_length. lia.
    + rewrite app_length. cbn [length]. lia.
Qed.
