(* Proofs about the counted parser *)
From Verif Require Import Base ModelRule ModelUri ModelParse.
Local Open Scope N_scope.

(* --- the counted parser is the parser --- *)
Lemma uri_is sg fuel : URI sg fuel = run sg fuel Uri.
Proof. reflexivity. Qed.
Lemma uri_reference_is sg fuel : URI_reference sg fuel = run sg fuel Uri_reference.
Proof. reflexivity. Qed.
Definition erase {X} (x : outcome (X * cost)) : outcome X := do (y, _) <- x; Ok y.
Section Erase.
Context {A : Type}.
Implicit Types (F : matcher_w A) (f : matcher A).
Definition erases F f := forall r, erase (F r) = f r.
Lemma by_erase F f r : erases F f -> match F r with Ok (m, _) => f r = Ok m | Fault e => f r = Fault e | Diverge => f r = Diverge end.
Proof. intros H. specialize (H r). unfold erase in H. destruct (F r) as [[m w]| |]; cbn in H; congruence. Qed.
Ltac fcase F r H := let Q := fresh "Q" in pose proof (by_erase F _ r H) as Q; destruct (F r) as [[[[? ?]|] ?]| |]; rewrite Q; cbn [bind].
Lemma erase_concat F f acc opt self : erases F f -> erase (concat_impl_w F acc opt self) = concat_impl f acc opt self.
Proof.
  intros H. unfold concat_impl_w, concat_impl. destruct (tail self) as [t|]; [|reflexivity]. fcase F (rule_of (A:=A) t) H; try reflexivity.
  - destruct (join_rule_m self _); reflexivity.
  - destruct opt; reflexivity.
Qed.
Lemma erase_optional F f acc self : erases F f -> erase (optional_impl_w F acc self) = optional_impl f acc self.
Proof.
  intros H. unfold optional_impl_w, optional_impl. destruct (tail self) as [t|]; [|reflexivity].
  pose proof (erase_concat F f acc true (rule_of t) H) as Q. unfold erase in Q. destruct (concat_impl_w F acc true (rule_of t)) as [[r w]| |]; cbn [bind] in Q; rewrite <- Q; try reflexivity.
  cbn [bind]. destruct (tail r); reflexivity.
Qed.
Lemma erase_star_loop F f max fuel : erases F f -> forall s len acc count, erase (star_loop_w fuel F max s len acc count) = star_loop fuel f max s len acc count.
Proof.
  intros H. induction fuel as [|fuel IH]; intros s len acc count; [reflexivity|]. cbn [star_loop_w star_loop]. fcase F (rule_of (A:=A) s) H; try reflexivity.
  cbv zeta. destruct (max <? _); [reflexivity|]. destruct (Nat.ltb _ _); [reflexivity|]. rewrite <- IH. unfold erase. destruct (star_loop_w _ _ _ _ _ _ _) as [[? ?]| |]; reflexivity.
Qed.
Lemma erase_star F f fuel min max self : erases F f -> erase (star_w fuel F min max self) = star fuel f min max self.
Proof.
  intros H. unfold star_w, star. destruct (tail self) as [t|]; [|reflexivity]. rewrite <- (erase_star_loop F f max fuel H). unfold erase at 2.
  destruct (star_loop_w _ _ _ _ _ _ _) as [[[[len acc] count] w]| |]; cbn [bind]; try reflexivity. destruct (count <? min); [reflexivity|]. destruct (substr_from len t); reflexivity.
Qed.
Lemma erase_alternative Fs fs self : Forall2 erases Fs fs -> erase (alternative_w Fs self) = alternative fs self.
Proof.
  induction 1 as [|F f Fs fs H _ IH]; [reflexivity|]. cbn [alternative_w alternative]. destruct (tail self) as [t|]; [|reflexivity].
  fcase F (rule_of (A:=A) t) H; try reflexivity.
  - destruct (join_rule_m self _); reflexivity.
  - rewrite <- IH. unfold erase. destruct (alternative_w Fs self) as [[? ?]| |]; reflexivity.
Qed.
Lemma erase_leaf f : erases (leaf_w f) f.
Proof. intros r. unfold erase, leaf_w. destruct (f r); reflexivity. Qed.
Lemma erase_then {B} x x1 (F : rule A -> outcome (B * cost)) (f1 : rule A -> outcome B) : erase x = x1 -> (forall r, erase (F r) = f1 r) -> erase (then_w x F) = x1 >>= f1.
Proof.
  intros <- H. unfold erase, then_w. destruct x as [[r w]| |]; cbn; try reflexivity. rewrite <- H. unfold erase. destruct (F r) as [[y w']| |]; reflexivity.
Qed.
Lemma erase_matched r self : erase (matched_w r self) = matched (A:=A) r self.
Proof. unfold erase, matched_w. destruct (matched r self); reflexivity. Qed.
End Erase.
Scheme gram_ind2 := Induction for gram Sort Prop
with chain_ind2 := Induction for chain Sort Prop
with grams_ind2 := Induction for grams Sort Prop.
Combined Scheme gram_mut from gram_ind2, chain_ind2, grams_ind2.
Lemma erase_all sg fuel :
  (forall g, erases (run_w sg fuel g) (run sg fuel g))
  /\ (forall c r, erase (run_chain_w sg fuel c r) = run_chain sg fuel c r)
  /\ (forall gs, Forall2 erases (run_all_w sg fuel gs) (run_all sg fuel gs)).
Proof.
  apply gram_mut; intros; try apply erase_leaf; cbn [run_w run run_chain_w run_chain run_all_w run_all].
  - intros r. apply erase_then; [apply H|apply erase_matched].
  - reflexivity.
  - apply erase_then; [apply H|]. intros r'. now apply erase_concat.
  - apply erase_then; [apply H|]. intros r'. now apply erase_optional.
  - apply erase_then; [apply H|]. intros r'. now apply erase_star.
  - apply erase_then; [apply H|]. intros r'. now apply erase_alternative.
  - constructor.
  - now constructor.
Qed.
Lemma erase_parse sg fuel g s : erase (parse_w sg fuel g s) = parse_done (run sg fuel g) s.
Proof.
  unfold parse_w, parse_done, concat. rewrite <- (erase_concat (run_w sg fuel g) (run sg fuel g) None false (rule_of s)) by apply erase_all. unfold erase.
  destruct (concat_impl_w _ _ _ _) as [[r w]| |]; cbn [bind]; try reflexivity. destruct (done run_action r empty_parts); reflexivity.
Qed.
Lemma split_both sg fuel s r : (exists w, split_w sg fuel s = Ok (r, w)) <-> split sg fuel s = Ok r.
Proof.
  unfold split. rewrite uri_is, <- erase_parse. unfold split_w, erase. destruct (parse_w _ _ _ _) as [[x w]| |]; cbn [bind].
  - split; [intros (w' & E); congruence|intros E; exists w; congruence].
  - split; [intros (w & E); discriminate|discriminate].
  - split; [intros (w & E); discriminate|discriminate].
Qed.
Lemma split_reference_both sg fuel s r : (exists w, split_reference_w sg fuel s = Ok (r, w)) <-> split_reference sg fuel s = Ok r.
Proof.
  unfold split_reference. rewrite uri_reference_is, <- erase_parse. unfold split_reference_w, erase. destruct (parse_w _ _ _ _) as [[x w]| |]; cbn [bind].
  - split; [intros (w' & E); congruence|intros E; exists w; congruence].
  - split; [intros (w & E); discriminate|discriminate].
  - split; [intros (w & E); discriminate|discriminate].
Qed.
