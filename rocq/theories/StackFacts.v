(* Proofs about the parser with the depth of its calls *)
From Verif Require Import Base ModelRule ModelUri ModelParse ParseWork ModelStack.
From Coq Require Import Lia.
Local Open Scope nat_scope.

(* --- it is the parser --- *)
Definition drop {X} (x : outcome (X * nat)) : outcome X := do (y, _) <- x; Ok y.
Section Drop.
Context {A : Type}.
Implicit Types (F : matcher_d A) (f : matcher A).
Definition drops F f := forall r, drop (F r) = f r.
Lemma by_drop F f r : drops F f -> match F r with Ok (m, _) => f r = Ok m | Fault e => f r = Fault e | Diverge => f r = Diverge end.
Proof. intros H. specialize (H r). unfold drop in H. destruct (F r) as [[m w]| |]; cbn in H; congruence. Qed.
Ltac fcase F r H := let Q := fresh "Q" in pose proof (by_drop F _ r H) as Q; destruct (F r) as [[[[? ?]|] ?]| |]; rewrite Q; cbn [bind].
Lemma drop_concat_impl F f acc opt self : drops F f -> drop (concat_impl_d F acc opt self) = concat_impl f acc opt self.
Proof.
  intros H. unfold concat_impl_d, concat_impl. destruct (tail self) as [t|]; [|reflexivity]. fcase F (rule_of (A:=A) t) H; try reflexivity.
  - destruct (join_rule_m self _); reflexivity.
  - destruct opt; reflexivity.
Qed.
Lemma drop_concat F f acc self : drops F f -> drop (concat_d F acc self) = concat_impl f acc false self.
Proof. intros H. rewrite <- (drop_concat_impl F f acc false self H). unfold concat_d, drop. destruct (concat_impl_d F acc false self) as [[? ?]| |]; reflexivity. Qed.
Lemma drop_optional F f acc self : drops F f -> drop (optional_d F acc self) = optional_impl f acc self.
Proof.
  intros H. unfold optional_d, optional_impl. destruct (tail self) as [t|]; [|reflexivity].
  pose proof (drop_concat_impl F f acc true (rule_of t) H) as Q. unfold drop in Q. destruct (concat_impl_d F acc true (rule_of t)) as [[r w]| |]; cbn [bind] in Q; rewrite <- Q; try reflexivity.
  cbn [bind]. destruct (tail r); reflexivity.
Qed.
Lemma drop_star_loop F f max fuel : drops F f -> forall s len acc count, drop (star_loop_d fuel F max s len acc count) = star_loop fuel f max s len acc count.
Proof.
  intros H. induction fuel as [|fuel IH]; intros s len acc count; [reflexivity|]. cbn [star_loop_d star_loop]. fcase F (rule_of (A:=A) s) H; try reflexivity.
  cbv zeta. destruct (max <? _)%N; [reflexivity|]. destruct (Nat.ltb _ _); [reflexivity|]. rewrite <- IH. unfold drop. destruct (star_loop_d _ _ _ _ _ _ _) as [[? ?]| |]; reflexivity.
Qed.
Lemma drop_star F f fuel min max self : drops F f -> drop (star_d fuel F min max self) = star fuel f min max self.
Proof.
  intros H. unfold star_d, star. destruct (tail self) as [t|]; [|reflexivity]. rewrite <- (drop_star_loop F f max fuel H). unfold drop at 2.
  destruct (star_loop_d _ _ _ _ _ _ _) as [[[[len acc] count] w]| |]; cbn [bind]; try reflexivity. destruct (count <? min)%N; [reflexivity|]. destruct (substr_from len t); reflexivity.
Qed.
Lemma drop_alternative Fs fs self : Forall2 drops Fs fs -> drop (alternative_d Fs self) = alternative fs self.
Proof.
  induction 1 as [|F f Fs fs H _ IH]; [reflexivity|]. cbn [alternative_d alternative]. destruct (tail self) as [t|]; [|reflexivity].
  fcase F (rule_of (A:=A) t) H; try reflexivity.
  - destruct (join_rule_m self _); reflexivity.
  - rewrite <- IH. unfold drop. destruct (alternative_d Fs self) as [[? ?]| |]; reflexivity.
Qed.
Lemma drop_leaf k f : drops (leaf_d k f) f.
Proof. intros r. unfold drop, leaf_d. destruct (f r); reflexivity. Qed.
Lemma drop_then {B} x x1 (F : rule A -> outcome (B * nat)) (f1 : rule A -> outcome B) : drop x = x1 -> (forall r, drop (F r) = f1 r) -> drop (then_d x F) = x1 >>= f1.
Proof.
  intros <- H. unfold drop, then_d. destruct x as [[r w]| |]; cbn; try reflexivity. rewrite <- H. unfold drop. destruct (F r) as [[y w']| |]; reflexivity.
Qed.
Lemma drop_matched r self : drop (matched_d r self) = matched (A:=A) r self.
Proof. unfold drop, matched_d. destruct (matched r self); reflexivity. Qed.
End Drop.
Lemma drop_fn {X} (x : outcome (X * nat)) : drop (fn_d x) = drop x.
Proof. destruct x as [[? ?]| |]; reflexivity. Qed.
Lemma drop_all sg fuel :
  (forall g, drops (run_d sg fuel g) (run sg fuel g))
  /\ (forall c r, drop (run_chain_d sg fuel c r) = run_chain sg fuel c r)
  /\ (forall gs, Forall2 drops (run_all_d sg fuel gs) (run_all sg fuel gs)).
Proof.
  apply gram_mut; intros; try apply drop_leaf; cbn [run_d run run_chain_d run_chain run_all_d run_all].
  - intros r. unfold drop. destruct (not_colon r); reflexivity.
  - intros r. rewrite drop_fn. apply drop_then; [apply H|apply drop_matched].
  - reflexivity.
  - apply drop_then; [apply H|]. intros r'. now apply drop_concat.
  - apply drop_then; [apply H|]. intros r'. now apply drop_optional.
  - apply drop_then; [apply H|]. intros r'. now apply drop_star.
  - apply drop_then; [apply H|]. intros r'. now apply drop_alternative.
  - constructor.
  - now constructor.
Qed.
Lemma drop_parse sg fuel g s : drop (parse_d sg fuel g s) = parse_done (run sg fuel g) s.
Proof.
  unfold parse_d, parse_done, concat. rewrite <- (drop_concat (run_d sg fuel g) (run sg fuel g) None (rule_of s)) by apply drop_all. unfold drop.
  destruct (concat_d _ _ _) as [[r w]| |]; cbn [bind]; try reflexivity. destruct (done run_action r empty_parts); reflexivity.
Qed.
Lemma drop_split sg fuel s : drop (split_d sg fuel s) = split sg fuel s.
Proof. unfold split_d. rewrite drop_fn, drop_parse. unfold split. now rewrite uri_is. Qed.
Lemma drop_split_reference sg fuel s : drop (split_reference_d sg fuel s) = split_reference sg fuel s.
Proof. unfold split_reference_d. rewrite drop_fn, drop_parse. unfold split_reference. now rewrite uri_reference_is. Qed.
Lemma drop_join sg fuel b r strict : drop (join_d sg fuel b r strict) = join sg fuel b r strict.
Proof.
  unfold join_d, join. rewrite drop_fn, <- drop_split. unfold drop. destruct (split_d sg fuel b) as [[[x|] d]| |]; cbn [bind]; try reflexivity.
  rewrite <- drop_split_reference. unfold drop. destruct (split_reference_d sg fuel r) as [[[y|] d']| |]; reflexivity.
Qed.

(* --- how deep --- *)
Fixpoint dg (g : gram) : nat := match g with Single _ => 5 | Not_colon => 2 | Rule c => S (Nat.max (dc c) 1) | _ => 3 end
with dc (c : chain) : nat :=
  match c with
  | Start => 0
  | Concat c g _ => Nat.max (dc c) (2 + Nat.max (dg g) 2)
  | Optional c g acc => Nat.max (dc c) (match acc with None => 1 | Some _ => 0 end + (2 + Nat.max (dg g) 2))
  | Repeat c g _ _ => Nat.max (dc c) (S (dg g))
  | Alt c gs => Nat.max (dc c) (da gs)
  end
with da (gs : grams) : nat := match gs with Gnil => 1 | Gcons g gs => S (Nat.max (Nat.max (dg g) 2) (da gs)) end.

Definition below {X} (K : nat) (x : outcome (X * nat)) : Prop := forall y d, x = Ok (y, d) -> d <= K.
Section Below.
Context {A : Type}.
Implicit Types (F : matcher_d A).
Definition shallow K F := forall r, below K (F r).
Lemma below_concat_impl K F acc opt self : shallow K F -> below (S (Nat.max K 2)) (concat_impl_d F acc opt self).
Proof.
  intros H y d. unfold concat_impl_d. destruct (tail self) as [t|]; [|intros E; injection E as <- <-; lia]. specialize (H (rule_of t)). unfold below in H. destruct (F (rule_of t)) as [[[[s a]|] k]| |]; cbn [bind]; try discriminate.
  - specialize (H _ _ eq_refl). cbv zeta. destruct (join_rule_m self _) as [r| |]; cbn [bind]; try discriminate. intros E. injection E as <- <-. unfold join_depth. lia.
  - specialize (H _ _ eq_refl). destruct opt; intros E; injection E as <- <-; lia.
Qed.
Lemma below_concat K F acc self : shallow K F -> below (2 + Nat.max K 2) (concat_d F acc self).
Proof.
  intros H y d. unfold concat_d. pose proof (below_concat_impl K F acc false self H) as B. unfold below in B. destruct (concat_impl_d F acc false self) as [[r k]| |]; cbn [bind]; try discriminate.
  intros E. injection E as <- <-. specialize (B _ _ eq_refl). lia.
Qed.
Lemma below_optional K F acc self : shallow K F -> below (match acc with None => 1 | Some _ => 0 end + (2 + Nat.max K 2)) (optional_d F acc self).
Proof.
  intros H y d. unfold optional_d. destruct (tail self) as [t|]; [|intros E; injection E as <- <-; lia].
  pose proof (below_concat_impl K F acc true (rule_of t) H) as B. unfold below in B. destruct (concat_impl_d F acc true (rule_of t)) as [[r k]| |]; cbn [bind]; try discriminate.
  specialize (B _ _ eq_refl). destruct (tail r); intros E; injection E as <- <-; unfold join_depth; lia.
Qed.
Lemma below_star_loop K F max fuel : shallow K F -> forall s len acc count, below K (star_loop_d fuel F max s len acc count).
Proof.
  intros H. induction fuel as [|fuel IH]; intros s len acc count y d; cbn [star_loop_d]; [discriminate|]. pose proof (H (rule_of s)) as B. unfold below in B. destruct (F (rule_of s)) as [[[[ms a]|] k]| |]; cbn [bind]; try discriminate.
  - specialize (B _ _ eq_refl). cbv zeta. destruct (max <? _)%N; [intros E; injection E as <- <-; exact B|]. destruct (Nat.ltb _ _); [discriminate|].
    specialize (IH (skipn (length ms) s) (len + length ms) (acc ++ a) (uint_incr count)). unfold below in IH. destruct (star_loop_d _ _ _ _ _ _ _) as [[r k']| |]; cbn [bind]; try discriminate.
    intros E. injection E as <- <-. specialize (IH _ _ eq_refl). lia.
  - intros E. injection E as <- <-. exact (B _ _ eq_refl).
Qed.
Lemma below_star K F fuel min max self : shallow K F -> below (S K) (star_d fuel F min max self).
Proof.
  intros H y d. unfold star_d. destruct (tail self) as [t|]; [|intros E; injection E as <- <-; lia]. pose proof (below_star_loop K F max fuel H t 0 (accs self) 0%N) as B. unfold below in B.
  destruct (star_loop_d _ _ _ _ _ _ _) as [[[[len acc] count] k]| |]; cbn [bind]; try discriminate. specialize (B _ _ eq_refl).
  destruct (count <? min)%N; [intros E; injection E as <- <-; lia|]. destruct (substr_from len t); cbn [bind]; try discriminate. intros E. injection E as <- <-. lia.
Qed.
(* the depth of alternatives, each with the depth of its match function *)
Fixpoint alt_depth (Ks : list nat) : nat := match Ks with [] => 1 | K :: Ks => S (Nat.max (Nat.max K 2) (alt_depth Ks)) end.
Lemma below_alternative Ks Fs self : Forall2 shallow Ks Fs -> below (alt_depth Ks) (alternative_d Fs self).
Proof.
  induction 1 as [|K F Ks Fs H _ IH]; intros y d; cbn [alternative_d alt_depth]; [intros E; injection E as <- <-; lia|]. destruct (tail self) as [t|]; [|intros E; injection E as <- <-; lia].
  pose proof (H (rule_of t)) as B. unfold below in B. destruct (F (rule_of t)) as [[[[s a]|] k]| |]; cbn [bind]; try discriminate; specialize (B _ _ eq_refl).
  - destruct (join_rule_m self _) as [r| |]; cbn [bind]; try discriminate. intros E. injection E as <- <-. unfold join_depth. lia.
  - unfold below in IH. destruct (alternative_d Fs self) as [[r k']| |]; cbn [bind]; try discriminate. intros E. injection E as <- <-. specialize (IH _ _ eq_refl). lia.
Qed.
Lemma below_leaf k f : shallow k (leaf_d (A:=A) k f).
Proof. intros r y d. unfold leaf_d. destruct (f r); cbn [bind]; try discriminate. intros E. injection E as <- <-. destruct (tail r) as [[|]|]; lia. Qed.
Lemma below_then {B} K K' x (F : rule A -> outcome (B * nat)) : below K x -> (forall r, below K' (F r)) -> below (Nat.max K K') (then_d x F).
Proof.
  intros H H' y d. unfold then_d. unfold below in H. destruct x as [[r k]| |]; cbn [bind]; try discriminate. specialize (H _ _ eq_refl). pose proof (H' r) as B'. unfold below in B'.
  destruct (F r) as [[z k']| |]; cbn [bind]; try discriminate. specialize (B' _ _ eq_refl). intros E. injection E as <- <-. lia.
Qed.
End Below.
Lemma below_fn {X} K (x : outcome (X * nat)) : below K x -> below (S K) (fn_d x).
Proof. intros H y d. unfold fn_d. unfold below in H. destruct x as [[z k]| |]; cbn [bind]; try discriminate. specialize (H _ _ eq_refl). intros E. injection E as <- <-. lia. Qed.
Lemma below_le {X} K K' (x : outcome (X * nat)) : K <= K' -> below K x -> below K' x.
Proof. intros L H y d E. specialize (H y d E). lia. Qed.
Fixpoint depths (gs : grams) : list nat := match gs with Gnil => [] | Gcons g gs => dg g :: depths gs end.
Lemma da_depths gs : da gs = alt_depth (depths gs).
Proof. induction gs as [|g gs IH]; cbn [da depths alt_depth]; [reflexivity|now rewrite IH]. Qed.
Lemma below_all sg fuel :
  (forall g, shallow (dg g) (run_d sg fuel g))
  /\ (forall c r, below (dc c) (run_chain_d sg fuel c r))
  /\ (forall gs, Forall2 shallow (depths gs) (run_all_d sg fuel gs)).
Proof.
  apply gram_mut; intros; try apply below_leaf; cbn [run_d run_chain_d run_all_d dg dc da depths].
  - intros r y d. destruct (not_colon r); cbn [bind]; try discriminate. intros E. injection E as <- <-. lia.
  - intros r. apply below_fn, below_then; [apply H|]. intros r' y d. unfold matched_d. destruct (matched r r'); cbn [bind]; try discriminate. intros E. injection E as <- <-. lia.
  - intros y d E. injection E as <- <-. lia.
  - apply below_then; [apply H|]. intros r'. now apply below_concat.
  - apply below_then; [apply H|]. intros r'. now apply below_optional.
  - apply below_then; [apply H|]. intros r'. now apply below_star.
  - apply below_then; [apply H|]. intros r'. rewrite da_depths. now apply below_alternative.
  - constructor.
  - now constructor.
Qed.
Lemma below_parse sg fuel g s : below (2 + Nat.max (dg g) 2) (parse_d sg fuel g s).
Proof.
  intros y d. unfold parse_d. pose proof (below_concat (dg g) (run_d sg fuel g) None (rule_of s) (proj1 (below_all sg fuel) g)) as B. unfold below in B.
  destruct (concat_d _ _ _) as [[r k]| |]; cbn [bind]; try discriminate. specialize (B _ _ eq_refl). destruct (done run_action r empty_parts) as [[b st]| |]; cbn [bind fst snd]; try discriminate.
  intros E. injection E as <- <-. unfold done_depth. destruct b; lia.
Qed.
Lemma below_split sg fuel s : below 53 (split_d sg fuel s).
Proof. unfold split_d. apply (below_fn 52). eapply below_le; [|apply below_parse]. vm_compute. lia. Qed.
Lemma below_split_reference sg fuel s : below 56 (split_reference_d sg fuel s).
Proof. unfold split_reference_d. apply (below_fn 55). eapply below_le; [|apply below_parse]. vm_compute. lia. Qed.
Lemma below_join sg fuel b r strict : below 57 (join_d sg fuel b r strict).
Proof.
  apply (below_fn 56). intros y d. pose proof (below_split sg fuel b) as B. unfold below in B. destruct (split_d sg fuel b) as [[[x|] k]| |]; cbn [bind]; try discriminate; specialize (B _ _ eq_refl).
  - pose proof (below_split_reference sg fuel r) as B'. unfold below in B'. destruct (split_reference_d sg fuel r) as [[[z|] k']| |]; cbn [bind]; try discriminate; specialize (B' _ _ eq_refl); intros E; injection E as <- <-; lia.
  - intros E. injection E as <- <-. lia.
Qed.

(* --- valid () --- *)
Lemma drop_matches sg fuel g s : drop (matches_d sg fuel g s) = matches (run sg fuel g) s.
Proof.
  unfold matches_d, matches, concat, parse_d. rewrite <- (drop_concat (run_d sg fuel g) (run sg fuel g) None (rule_of s)) by apply drop_all. unfold drop.
  destruct (concat_d _ _ _) as [[r w]| |]; cbn [bind]; try reflexivity. destruct (done run_action r empty_parts) as [[b x]| |]; cbn [bind fst]; try reflexivity. destruct b; reflexivity.
Qed.
Lemma drop_opt_matches sg fuel g s : drop (opt_matches_d sg fuel g s) = opt_matches (run sg fuel g) s.
Proof. destruct s; [apply drop_matches|reflexivity]. Qed.
Lemma drop_andalso x y x' y' : drop x = x' -> drop y = y' -> drop (andalso_d x y) = andalso x' y'.
Proof.
  intros <- <-. unfold andalso_d, andalso, drop. destruct x as [[b w]| |]; cbn [bind]; try reflexivity. destruct b; [|reflexivity]. destruct y as [[b w']| |]; reflexivity.
Qed.
Lemma drop_segs_valid sg fuel l : drop (segs_valid_d sg fuel l) = segs_valid sg fuel l.
Proof. induction l as [|s l IH]; [reflexivity|]. cbn [segs_valid_d segs_valid]. apply drop_andalso; [apply (drop_matches sg fuel Segment)|exact IH]. Qed.
Lemma drop_valid sg fuel p : drop (parts_valid_d sg fuel p) = parts_valid sg fuel p.
Proof.
  unfold parts_valid_d, parts_valid. rewrite drop_fn. apply drop_andalso. { destruct (p_scheme p); [apply (drop_matches sg fuel Scheme)|reflexivity]. }
  apply drop_andalso. { destruct (p_authority p) as [a|]; [|reflexivity]. rewrite drop_fn. unfold authority_valid_d, authority_valid.
    apply drop_andalso; [apply (drop_opt_matches sg fuel Userinfo)|]. apply drop_andalso; [apply (drop_matches sg fuel Host)|apply (drop_opt_matches sg fuel Port)]. }
  apply drop_andalso; [rewrite drop_fn; apply drop_segs_valid|]. apply drop_andalso; apply (drop_opt_matches sg fuel Query).
Qed.
Lemma below_matches sg fuel g s : below (2 + Nat.max (dg g) 2) (matches_d sg fuel g s).
Proof.
  intros y d. unfold matches_d. pose proof (below_parse sg fuel g s) as B. unfold below in B. destruct (parse_d sg fuel g s) as [[r k]| |]; cbn [bind]; try discriminate.
  intros E. injection E as <- <-. exact (B _ _ eq_refl).
Qed.
Lemma below_opt_matches sg fuel g s : below (2 + Nat.max (dg g) 2) (opt_matches_d sg fuel g s).
Proof. destruct s; [apply below_matches|]. intros y d E. injection E as <- <-. lia. Qed.
Lemma below_andalso K x y : below K x -> below K y -> below K (andalso_d x y).
Proof.
  intros H H' z d. unfold andalso_d. unfold below in H, H'. destruct x as [[b k]| |]; cbn [bind]; try discriminate. specialize (H _ _ eq_refl). destruct b.
  - destruct y as [[b k']| |]; cbn [bind]; try discriminate. specialize (H' _ _ eq_refl). intros E. injection E as <- <-. lia.
  - intros E. injection E as <- <-. lia.
Qed.
Lemma below_zero K b : below K (Ok (b, 0) : outcome (bool * nat)).
Proof. intros y d E. injection E as <- <-. lia. Qed.
Lemma below_segs_valid sg fuel l : below (2 + Nat.max (dg Segment) 2) (segs_valid_d sg fuel l).
Proof. induction l as [|s l IH]; cbn [segs_valid_d]; [apply below_zero|]. apply below_andalso; [apply below_matches|exact IH]. Qed.
Lemma below_valid sg fuel p : below 40 (parts_valid_d sg fuel p).
Proof.
  unfold parts_valid_d. apply (below_fn 39).
  apply below_andalso. { destruct (p_scheme p); [|apply below_zero]. eapply below_le; [|apply below_matches]. vm_compute. lia. }
  apply below_andalso. { destruct (p_authority p) as [a|]; [|apply below_zero]. apply (below_fn 38). unfold authority_valid_d.
    apply below_andalso; [eapply below_le; [|apply below_opt_matches]; vm_compute; lia|].
    apply below_andalso; [eapply below_le; [|apply below_matches]; vm_compute; lia|eapply below_le; [|apply below_opt_matches]; vm_compute; lia]. }
  apply below_andalso. { apply (below_fn 38). eapply below_le; [|apply below_segs_valid]. vm_compute. lia. }
  apply below_andalso; (eapply below_le; [|apply below_opt_matches]; vm_compute; lia).
Qed.
