(* The combinators with effects do what SpecCalls.v says *)
From Verif Require Import Base ModelRule ModelCalls SpecCalls.
From Coq Require Import Lia.
Local Open Scope list_scope.

Scheme eval_ind2 := Minimality for eval Sort Prop with reps_ind2 := Minimality for reps Sort Prop.
Combined Scheme eval_reps from eval_ind2, reps_ind2.

Section F.
Context {A U : Type}.
Variable cl : client A U.
Notation hist := (list (event A U)).

Lemma reps_not_no g max h s n r h' : reps cl g max h s n r h' -> r <> No.
Proof. induction 1; try discriminate. destruct r; try discriminate. contradiction. Qed.
Lemma yes_split : (forall g h s r h', eval cl g h s r h' -> forall m a t, r = Yes m a t -> s = m ++ t)
  /\ (forall g max h s n r h', reps cl g max h s n r h' -> forall m a t, r = Yes m a t -> s = m ++ t).
Proof.
  apply eval_reps; intros; try discriminate; try (congruence || fail).
  all: try match goal with H : Yes _ _ _ = Yes _ _ _ |- _ => injection H as <- <- <-; first [assumption|reflexivity] end.
  - destruct r; try discriminate. cbn in H3. injection H3 as <- <- <-. rewrite (H0 _ _ _ eq_refl), (H2 _ _ _ eq_refl). now rewrite app_assoc.
  - destruct r; try contradiction; discriminate.
  - destruct r; try discriminate. cbn in H1. injection H1 as <- <- <-. eauto.
  - destruct r; try discriminate; cbn in H1; injection H1 as <- <- <-; eauto.
  - eauto.
  - eauto.
  - eauto.
  - destruct r; try discriminate. cbn in H4. injection H4 as <- <- <-. rewrite (H0 _ _ _ eq_refl), (H3 _ _ _ eq_refl). now rewrite app_assoc.
Qed.

(* an outcome as the combinators give it *)
Definition shown (r : result A) : option (matched_result A) := match r with Thrown => None | No => Some None | Yes m a _ => Some (Some (m, a)) end.

Definition says fuel (g : grammar A U) h s r h' := grammar_e cl fuel g (rule_of s) h = Ok (shown r, h').
Lemma matched_self (m rest : str) (a : acceptors A) s : s = m ++ rest -> matched (rule_of s) (mkrule (Some rest) a) = Ok (Some (m, a)).
Proof.
  intros ->. unfold matched. cbn [tail rule_of accs]. rewrite app_length. destruct (Nat.ltb_spec (length m + length rest) (length rest)); [lia|].
  replace (length m + length rest - length rest)%nat with (length m + 0)%nat by lia. rewrite firstn_app_2, app_nil_r. reflexivity.
Qed.
Lemma join_self (m rest : str) (a b : acceptors A) s : s = m ++ rest -> join_rule_m (mkrule (Some s) b) (m, a) = Ok (mkrule (Some rest) (b ++ a)).
Proof.
  intros ->. unfold join_rule_m, substr_from. cbn [tail fst snd accs]. rewrite app_length. destruct (Nat.ltb_spec (length m + length rest) (length m)); [lia|].
  cbn [bind]. rewrite skipn_app, Nat.sub_diag, skipn_all. reflexivity.
Qed.
Lemma nil_tail (s : str) (m rest : str) (a : acceptors A) : matched (rule_of s) (@rule_fail A) = Ok None. Proof. reflexivity. Qed.

(* concat on a rule with text s *)
Lemma concat_says (f : matcher_e A hist) acc opt s b h r h' : f (rule_of s) h = Ok (shown r, h') -> (forall m a t, r = Yes m a t -> s = m ++ t) ->
  concat_impl_e f acc opt (mkrule (Some s) b) h =
  Ok (match r with Thrown => None | No => Some (if opt then mkrule (Some s) b else rule_fail)
      | Yes m a t => Some (mkrule (Some t) (b ++ match acc with None => a | Some g => a ++ [(g, m)] end)) end, h').
Proof.
  intros E H. unfold concat_impl_e. cbn [tail]. unfold andthen. rewrite E. cbn [bind]. destruct r as [| |m a t]; cbn [shown]; [reflexivity|reflexivity|].
  unfold pure_code. rewrite (join_self m t _ b s (H _ _ _ eq_refl)). reflexivity.
Qed.

Lemma incr_small c : (c + 1 < 2 ^ 32)%N -> uint_incr c = (c + 1)%N.
Proof. intros H. unfold uint_incr. apply N.mod_small. exact H. Qed.
(* max0: the limit star () was given; c of them have been used *)
Definition left_of (max0 : N) (c : N) (max : option N) : Prop := match max with None => max0 = uint_max | Some k => (max0 = c + k)%N /\ (max0 < uint_max)%N end.
Definition loops fuel (g : grammar A U) max h s n r h' : Prop := forall loop max0 len acc c, (n < loop)%nat -> left_of max0 c max -> (c + N.of_nat n < 2 ^ 32)%N ->
  exists d, ((d = c + N.of_nat n)%N \/ (max0 < d /\ max0 = c + N.of_nat n)%N) /\ star_loop_e loop (grammar_e cl fuel g) max0 s len acc c h =
    Ok (match r with Yes m a t => Some ((len + length m)%nat, acc ++ a, d) | _ => None end, h').

Lemma says_star fuel min max g h s n r h' : loops fuel g max h s n r h' -> (n < fuel)%nat -> (N.of_nat n < 2 ^ 32)%N -> (min <= max_of max)%N ->
  match max with Some k => (k < uint_max)%N | None => True end -> (forall m a t, r = Yes m a t -> s = m ++ t) -> r <> No ->
  says fuel (Star min max g) h s (match r with Yes _ _ _ => if (N.of_nat n <? min)%N then No else r | _ => r end) h'.
Proof.
  intros L Hf Hn Hm Hk Hs Nn. unfold says. cbn [grammar_e]. unfold andthen at 1. unfold star_e. cbn [tail rule_of accs].
  destruct (L fuel (max_of max) 0%nat [] 0%N Hf) as (d & Hd & E). { destruct max; cbn; [split; [lia|exact Hk]|reflexivity]. } { lia. }
  unfold andthen. rewrite E. destruct r as [| |m a t]; cbn [bind shown]; [reflexivity|contradiction|]. cbn [app Nat.add].
  assert (Ed : (d <? min)%N = (N.of_nat n <? min)%N). { destruct Hd as [->|[Hd He]]; [reflexivity|]. destruct (N.ltb_spec d min); [lia|]. destruct (N.ltb_spec (N.of_nat n) min); [lia|reflexivity]. }
  rewrite Ed. destruct (N.of_nat n <? min)%N.
  - cbn [bind gives]. reflexivity.
  - specialize (Hs _ _ _ eq_refl). subst s. unfold pure_code, substr_from. rewrite app_length. destruct (Nat.ltb_spec (length m + length t) (length m)); [lia|].
    cbn [bind]. rewrite skipn_app, Nat.sub_diag, skipn_all. cbn [app skipn]. unfold matched_e, pure_code.
    change (skipn 0 t) with t. rewrite (matched_self m t a _ eq_refl). reflexivity.
Qed.

Theorem eval_says : (forall g h s r h', eval cl g h s r h' -> limits_ok g -> exists k, forall fuel, (k <= fuel)%nat -> says fuel g h s r h')
  /\ (forall g max h s n r h', reps cl g max h s n r h' -> limits_ok g -> exists k, forall fuel, (k <= fuel)%nat -> loops fuel g max h s n r h').
Proof.
  pose proof (proj1 yes_split) as YS. pose proof (proj2 yes_split) as YR.
  apply eval_reps.
  - intros u h s m a rest E -> _. exists 0%nat. intros fuel _. unfold says. cbn [grammar_e user tail rule_of]. unfold user, called. cbn [tail rule_of]. rewrite E. reflexivity.
  - intros u h s E _. exists 0%nat. intros fuel _. unfold says. cbn [grammar_e]. unfold user, called. cbn [tail rule_of]. rewrite E. reflexivity.
  - intros u h s E _. exists 0%nat. intros fuel _. unfold says. cbn [grammar_e]. unfold user, called. cbn [tail rule_of]. rewrite E. reflexivity.
  - intros u h _. exists 0%nat. intros fuel _. reflexivity.
  - intros u h c s E _. exists 0%nat. intros fuel _. unfold says. cbn [grammar_e]. unfold single_char_e, andthen, asked. cbn [tail rule_of]. rewrite E. reflexivity.
  - intros u h c s E _. exists 0%nat. intros fuel _. unfold says. cbn [grammar_e]. unfold single_char_e, andthen, asked. cbn [tail rule_of]. rewrite E. reflexivity.
  - intros u h c s E _. exists 0%nat. intros fuel _. unfold says. cbn [grammar_e]. unfold single_char_e, andthen, asked. cbn [tail rule_of]. rewrite E. reflexivity.
  - intros g k h s m a t h1 r h2 E1 I1 E2 I2 [L1 L2]. destruct (I1 L1) as (k1 & K1). destruct (I2 L2) as (k2 & K2). exists (Nat.max k1 k2). intros fuel Hf.
    specialize (K1 fuel ltac:(lia)). specialize (K2 fuel ltac:(lia)). unfold says in *. cbn [grammar_e]. unfold andthen.
    change (rule_of s) with (@mkrule A (Some s) []) in K1 |- *. change (@mkrule A (Some s) []) with (@rule_of A s) in K1.
    rewrite (concat_says _ None false s [] h _ _ K1 (YS _ _ _ _ _ E1)). cbn [bind app]. rewrite (concat_says _ None false t a h1 _ _ K2 (YS _ _ _ _ _ E2)). cbn [bind].
    pose proof (YS _ _ _ _ _ E1 _ _ _ eq_refl) as S1.
    destruct r as [| |m' a' t']; cbn [after shown]; [reflexivity|reflexivity|]. pose proof (YS _ _ _ _ _ E2 _ _ _ eq_refl) as S2.
    unfold matched_e, pure_code. change (@mkrule A (Some s) []) with (@rule_of A s). rewrite (matched_self (m ++ m') t') by (rewrite S1, S2; apply app_assoc). reflexivity.
  - intros g k h s r h1 E1 I1 Nr [L1 L2]. destruct (I1 L1) as (k1 & K1). exists k1. intros fuel Hf. specialize (K1 fuel Hf). unfold says in *. cbn [grammar_e]. unfold andthen.
    change (rule_of s) with (@mkrule A (Some s) []) in K1 |- *. change (@mkrule A (Some s) []) with (@rule_of A s) in K1.
    rewrite (concat_says _ None false s [] h _ _ K1 (YS _ _ _ _ _ E1)). destruct r; [reflexivity|reflexivity|contradiction].
  - intros g x h s r h1 E1 I1 L1. destruct (I1 L1) as (k1 & K1). exists k1. intros fuel Hf. specialize (K1 fuel Hf). unfold says in *. cbn [grammar_e]. unfold andthen.
    change (rule_of s) with (@mkrule A (Some s) []) in K1 |- *. change (@mkrule A (Some s) []) with (@rule_of A s) in K1.
    rewrite (concat_says _ (Some x) false s [] h _ _ K1 (YS _ _ _ _ _ E1)). destruct r as [| |m a t]; [reflexivity|reflexivity|]. cbn [bind app acting shown].
    unfold matched_e, pure_code. change (@mkrule A (Some s) []) with (@rule_of A s). rewrite (matched_self m t) by (exact (YS _ _ _ _ _ E1 _ _ _ eq_refl)). reflexivity.
  - intros g h s r h1 E1 I1 L1. destruct (I1 L1) as (k1 & K1). exists k1. intros fuel Hf. specialize (K1 fuel Hf). unfold says in *. cbn [grammar_e]. unfold andthen at 1, optional_impl_e. cbn [tail rule_of].
    unfold andthen. change (rule_of s) with (@mkrule A (Some s) []) in K1 |- *. change (@mkrule A (Some s) []) with (@rule_of A s) in K1.
    rewrite (concat_says _ None true s [] h _ _ K1 (YS _ _ _ _ _ E1)). destruct r as [| |m a t]; cbn [bind tail app or_empty shown]; [reflexivity| |].
    + cbn [gives bind]. unfold join_rule_r. cbn [tail accs app]. unfold matched_e, pure_code. pose proof (matched_self [] s [] s eq_refl) as Z. unfold rule_of in Z. rewrite Z. reflexivity.
    + unfold gives, join_rule_r. cbn [bind tail accs app]. unfold matched_e, pure_code. change (@mkrule A (Some s) []) with (@rule_of A s). rewrite (matched_self m t) by (exact (YS _ _ _ _ _ E1 _ _ _ eq_refl)). reflexivity.
  - intros g k h s r h1 E1 I1 Nr [L1 L2]. destruct (I1 L1) as (k1 & K1). exists k1. intros fuel Hf. specialize (K1 fuel Hf). unfold says in *. cbn [grammar_e]. unfold andthen at 1. cbn [alternative_e tail rule_of]. unfold andthen at 1.
    rewrite K1. destruct r as [| |m a t]; cbn [bind shown]; [reflexivity|contradiction|]. unfold pure_code. change (rule_of s) with (@mkrule A (Some s) []). rewrite (join_self m t) by (exact (YS _ _ _ _ _ E1 _ _ _ eq_refl)).
    cbn [bind app]. unfold matched_e, pure_code. change (@mkrule A (Some s) []) with (@rule_of A s). rewrite (matched_self m t) by (exact (YS _ _ _ _ _ E1 _ _ _ eq_refl)). reflexivity.
  - intros g k h s h1 r h2 E1 I1 E2 I2 [L1 L2]. destruct (I1 L1) as (k1 & K1). destruct (I2 L2) as (k2 & K2). exists (Nat.max k1 k2). intros fuel Hf.
    specialize (K1 fuel ltac:(lia)). specialize (K2 fuel ltac:(lia)). unfold says in *. cbn [grammar_e]. unfold andthen at 1. cbn [alternative_e tail rule_of]. unfold andthen at 1.
    rewrite K1. cbn [bind shown]. unfold andthen at 1. rewrite K2. destruct r as [| |m a t]; cbn [bind shown gives]; [reflexivity|reflexivity|].
    unfold pure_code. change (rule_of s) with (@mkrule A (Some s) []). rewrite (join_self m t) by (exact (YS _ _ _ _ _ E2 _ _ _ eq_refl)).
    cbn [bind app]. unfold matched_e, pure_code. change (@mkrule A (Some s) []) with (@rule_of A s). rewrite (matched_self m t) by (exact (YS _ _ _ _ _ E2 _ _ _ eq_refl)). reflexivity.
  - intros min max g h s n r h1 R I Hn Nt Hm (La & Lb & Lc). destruct (I Lc) as (k & K). exists (Nat.max k (S n)). intros fuel Hf.
    pose proof (says_star fuel min max g h s n r h1 (K fuel ltac:(lia)) ltac:(lia) Hn La Lb (YR _ _ _ _ _ _ _ R) (reps_not_no _ _ _ _ _ _ _ R)) as Z.
    destruct r as [| |m a t]; [contradiction|exact Z|]. destruct (N.ltb_spec (N.of_nat n) min); [lia|exact Z].
  - intros min max g h s n r h1 R I Hn Nt Hm (La & Lb & Lc). destruct (I Lc) as (k & K). exists (Nat.max k (S n)). intros fuel Hf.
    pose proof (says_star fuel min max g h s n r h1 (K fuel ltac:(lia)) ltac:(lia) Hn La Lb (YR _ _ _ _ _ _ _ R) (reps_not_no _ _ _ _ _ _ _ R)) as Z.
    destruct r as [| |m a t]; [contradiction|exact Z|]. destruct (N.ltb_spec (N.of_nat n) min); [exact Z|lia].
  - intros min max g h s n h1 R I Hn (La & Lb & Lc). destruct (I Lc) as (k & K). exists (Nat.max k (S n)). intros fuel Hf.
    exact (says_star fuel min max g h s n Thrown h1 (K fuel ltac:(lia)) ltac:(lia) Hn La Lb (YR _ _ _ _ _ _ _ R) (reps_not_no _ _ _ _ _ _ _ R)).
  - intros g max h s h1 E I L. destruct (I L) as (k & K). exists k. intros fuel Hf loop max0 len acc c Hl _ _. specialize (K fuel Hf). unfold says in K. destruct loop as [|loop]; [lia|].
    exists c. split; [left; lia|]. cbn [star_loop_e]. unfold andthen. rewrite K. cbn [bind shown gives]. rewrite app_nil_r, Nat.add_0_r. reflexivity.
  - intros g max h s h1 E I L. destruct (I L) as (k & K). exists k. intros fuel Hf loop max0 len acc c Hl _ _. specialize (K fuel Hf). unfold says in K. destruct loop as [|loop]; [lia|].
    exists c. split; [left; lia|]. cbn [star_loop_e]. unfold andthen. rewrite K. reflexivity.
  - intros g h s m a t h1 E I L. destruct (I L) as (k & K). exists k. intros fuel Hf loop max0 len acc c Hl [Hm Hu] _. specialize (K fuel Hf). unfold says in K. destruct loop as [|loop]; [lia|].
    unfold uint_max in Hu. change (2 ^ 32)%N with 4294967296%N in Hu. assert (Ic : uint_incr c = (c + 1)%N) by (apply incr_small; change (2 ^ 32)%N with 4294967296%N; lia).
    exists (c + 1)%N. split; [right; lia|]. cbn [star_loop_e]. unfold andthen. rewrite K. cbn [bind shown]. rewrite Ic. destruct (N.ltb_spec max0 (c + 1)); [|lia].
    unfold gives. cbn [length]. rewrite app_nil_r, Nat.add_0_r. reflexivity.
  - intros g max h s m a t h1 n r h2 E I Nm R IR L. destruct (I L) as (k & K). destruct (IR L) as (k2 & K2). exists (Nat.max k k2). intros fuel Hf loop max0 len acc c Hl Hm Hc.
    specialize (K fuel ltac:(lia)). unfold says in K. specialize (K2 fuel ltac:(lia)). destruct loop as [|loop]; [lia|].
    assert (Ic : uint_incr c = (c + 1)%N) by (apply incr_small; lia).
    destruct (K2 loop max0 (len + length m)%nat (acc ++ a) (c + 1)%N) as (d & Hd & Ed); [lia| |lia|].
    { destruct max as [q|]; cbn [left_of one_fewer option_map] in *; [|exact Hm]. assert (q <> 0%N) by congruence. lia. }
    exists d. split; [lia|]. cbn [star_loop_e]. unfold andthen. rewrite K. cbn [bind shown]. rewrite Ic.
    pose proof (YS _ _ _ _ _ E _ _ _ eq_refl) as Es. destruct (N.ltb_spec max0 (c + 1)) as [Hx|Hx].
    { exfalso. destruct max as [q|]; cbn [left_of] in Hm; [assert (q <> 0%N) by congruence; lia|]. unfold uint_max in Hm. change (2 ^ 32)%N with 4294967296%N in *. lia. }
    subst s. rewrite app_length. destruct (Nat.ltb_spec (length m + length t) (length m)); [lia|].
    rewrite skipn_app, Nat.sub_diag, skipn_all. cbn [app skipn]. change (skipn 0 t) with t. unfold andthen in Ed. rewrite Ed.
    destruct r as [| |m' a' t']; cbn [after]; try reflexivity. rewrite app_length, app_assoc, Nat.add_assoc. reflexivity.
Qed.
End F.
