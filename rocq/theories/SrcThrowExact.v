(* What a loop over a transcoding view has seen when its source throws for the first time *)
From Verif Require Import Base ModelIcu ModelSrcThrow IcuView SrcThrowFacts.
Local Open Scope list_scope.

Section E.
Variables (fails : nat -> bool) (T : tcdr) (cap : nat) (base : list N).
Hypothesis Hcap : cap < 16.
Definition reach (n : nat) (t : tc_st T) (w : list N) : Prop := feed T (tc_init T) (firstn n base) = Ok (t, w).
Lemma feed_app l2 : forall l1 s, feed T s (l1 ++ l2) = do (s1, w1) <- feed T s l1; do (s2, w2) <- feed T s1 l2; Ok (s2, w1 ++ w2).
Proof.
  induction l1 as [|u l1 IH]; intros s; cbn [feed app bind].
  - destruct (feed T s l2) as [[]| |]; reflexivity.
  - destruct (tc_op T s u) as [[s1 w1]| |]; cbn [bind]; try reflexivity. rewrite IH.
    destruct (feed T s1 l1) as [[s2 w2]| |]; cbn [bind]; try reflexivity.
    destruct (feed T s2 l2) as [[s3 w3]| |]; cbn [bind]; try reflexivity. now rewrite app_assoc.
Qed.
Lemma firstn_S n u : nth_error base n = Some u -> firstn (S n) base = firstn n base ++ [u].
Proof. clear. revert n. induction base as [|x b IH]; intros [|n] H; cbn in *; try discriminate; [congruence|]. rewrite (IH n H). reflexivity. Qed.
Lemma reach_step n t w u t' w' : reach n t w -> nth_error base n = Some u -> tc_op T t u = Ok (t', w') -> reach (S n) t' (w ++ w').
Proof.
  unfold reach. intros R H E. rewrite (firstn_S _ _ H), feed_app, R. cbn [bind feed]. rewrite E. cbn [bind]. now rewrite app_nil_r.
Qed.

Lemma loop_bound fuel : forall nx t acc next t' out, fill_loop T cap base fuel nx t acc = Ok (next, t', out) -> nx <= length base -> nx <= next <= length base.
Proof.
  clear. induction fuel as [|fuel IH]; intros nx t acc next t' out; cbn [fill_loop]; destruct acc as [|a acc]; intros H L.
  - destruct (nth_error base nx); [discriminate|]. injection H as <- _ _. lia.
  - injection H as <- _ _. lia.
  - destruct (nth_error base nx) as [u|] eqn:U; [|injection H as <- _ _; lia].
    destruct (tc_op T t u) as [[t2 w]| |]; cbn [bind] in H; try discriminate. destruct (Nat.ltb _ _); [discriminate|].
    apply IH in H; [lia|]. apply Nat.le_succ_l. apply nth_error_Some. congruence.
  - injection H as <- _ _. lia.
Qed.

Variable m : nat.
Hypothesis Hbefore : forall j, j < m -> fails j = false.
Hypothesis Hat : fails m = true \/ 2 * length base <= m.

Lemma loop_first fuel : forall next t acc seen r, fill_loop T cap base fuel next t acc = Ok r -> reach next t (seen ++ acc) -> 2 * next <= m ->
  (exists next' t' out, r = (next', t', out) /\ fill_loop_x fails T cap base fuel (2 * next) next t acc = Ok (Done (2 * next') r)
     /\ 2 * next' <= m /\ next <= next' /\ reach next' t' (seen ++ out))
  \/ (m < 2 * length base /\ (exists k' b, fill_loop_x fails T cap base fuel (2 * next) next t acc = Ok (Threw k' b)) /\ exists s, reach (m / 2) s seen).
Proof.
  induction fuel as [|fuel IH]; intros next t acc seen r; cbn [fill_loop fill_loop_x]; destruct acc as [|a acc]; intros H R L.
  - destruct (nth_error base next) eqn:N0; [discriminate|]. injection H as <-. left. exists next, t, []. auto.
  - injection H as <-. left. exists next, t, (a :: acc). auto.
  - destruct (nth_error base next) as [u|] eqn:N0; [|injection H as <-; left; exists next, t, []; auto].
    assert (NL : next < length base) by (apply nth_error_Some; congruence).
    destruct (Nat.eq_dec m (2 * next)) as [Em|Nm].
    { right. destruct Hat as [F|F]; [|lia]. split; [lia|]. rewrite <- Em, F. split; [do 2 eexists; reflexivity|].
      exists t. replace (m / 2) with next. { rewrite app_nil_r in R. exact R. } rewrite Em, Nat.mul_comm, Nat.div_mul; lia. }
    rewrite (Hbefore (2 * next)) by lia.
    destruct (tc_op T t u) as [[t' w]| |] eqn:E; cbn [bind] in H |- *; try discriminate. cbn [app] in H |- *.
    destruct (Nat.ltb cap (length w)); [discriminate|].
    destruct (Nat.eq_dec m (S (2 * next))) as [Em|Nm'].
    { right. destruct Hat as [F|F]; [|lia]. split; [lia|]. rewrite <- Em, F. split; [do 2 eexists; reflexivity|].
      exists t. replace (m / 2) with next. { rewrite app_nil_r in R. exact R. } rewrite Em. replace (S (2 * next)) with (1 + next * 2) by lia. rewrite Nat.div_add by lia. reflexivity. }
    rewrite (Hbefore (S (2 * next))) by lia.
    replace (S (S (2 * next))) with (2 * S next) by lia.
    assert (R' : reach (S next) t' (seen ++ w)). { rewrite app_nil_r in R. exact (reach_step _ _ _ _ _ _ R N0 E). }
    destruct (IH (S next) t' w seen r H R' ltac:(lia)) as [(n2 & t2 & o2 & A & B & C & D & F)|X]; [|right; exact X].
    left. exists n2, t2, o2. do 3 (split; [assumption|]). split; [lia|exact F].
  - injection H as <-. left. exists next, t, (a :: acc). auto.
Qed.

Lemma fill_first it wf r seen : fill T cap base (length base) it wf = Ok r -> (v_next T it <= length base) ->
  (v_next T it < length base -> reach (v_next T it) (v_tc T it) seen) -> 2 * v_next T it <= m ->
  (fill_x fails T cap base (length base) (2 * v_next T it) it wf = Ok (Done (2 * v_next T (fst r)) r)
     /\ 2 * v_next T (fst r) <= m /\ v_next T (fst r) <= length base
     /\ (v_next T (fst r) < length base -> reach (v_next T (fst r)) (v_tc T (fst r)) (seen ++ v_out T (fst r))))
  \/ (m < 2 * length base /\ (exists k' it', fill_x fails T cap base (length base) (2 * v_next T it) it wf = Ok (Threw k' (it', wf))) /\ exists s, reach (m / 2) s seen).
Proof.
  unfold fill, fill_x. destruct (negb _); [discriminate|]. intros H Hn R L.
  destruct (fill_loop T cap base (length base) (v_next T it) (v_tc T it) []) as [[[next t] out]| |] eqn:E; cbn [bind] in H; try discriminate.
  destruct (Nat.eq_dec (v_next T it) (length base)) as [El|Nl].
  - assert (Z : nth_error base (v_next T it) = None) by (apply nth_error_None; lia).
    assert (fill_loop T cap base (length base) (v_next T it) (v_tc T it) [] = Ok (v_next T it, v_tc T it, [])) as E' by (destruct (length base); cbn [fill_loop]; rewrite Z; reflexivity).
    rewrite E' in E. injection E as <- <- <-.
    assert (fill_loop_x fails T cap base (length base) (2 * v_next T it) (v_next T it) (v_tc T it) [] = Ok (Done (2 * v_next T it) (v_next T it, v_tc T it, []))) as -> by (destruct (length base); cbn [fill_loop_x]; rewrite Z; reflexivity).
    left. cbn [bind]. destruct (Nat.eqb_spec (v_next T it) (length base)) as [_|]; [|contradiction].
    destruct (tc_end T (v_tc T it)) as [[t' w]| |]; cbn [bind] in H |- *; try discriminate. cbn [app] in *. destruct (Nat.ltb cap (length w)); [discriminate|].
    injection H as <-. cbn [fst v_next]. split; [reflexivity|]. split; [lia|]. split; [lia|]. intros X. lia.
  - assert (R' : reach (v_next T it) (v_tc T it) (seen ++ [])) by (rewrite app_nil_r; apply R; lia).
    destruct (loop_first _ _ _ _ _ _ E R' L) as [(n2 & t2 & o2 & A & B & C & D & F)|(X & (k' & [b1 b2] & ->) & Y)]; cbn [bind].
    + injection A as <- <- <-. rewrite B. cbn [bind]. left.
      assert (NB : next <= length base).
      { apply (loop_bound _ _ _ _ _ _ _ E). exact Hn. }
      destruct (Nat.eqb_spec next (length base)) as [El|Nx].
      * destruct (tc_end T t) as [[t' w]| |]; cbn [bind] in H |- *; try discriminate. destruct (Nat.ltb cap (length (out ++ w))); [discriminate|].
        injection H as <-. cbn [fst v_next v_tc v_out]. split; [reflexivity|]. split; [exact C|]. split; [lia|]. intros Y. lia.
      * cbn [bind] in H |- *. destruct (Nat.ltb cap (length out)); [discriminate|].
        injection H as <-. cbn [fst v_next v_tc v_out]. split; [reflexivity|]. split; [exact C|]. split; [lia|]. intros _. exact F.
    + right. split; [exact X|]. split; [|exact Y]. do 2 eexists. reflexivity.
Qed.

(* the shape of an iterator right behind a fill *)
Lemma fill_shape fuel it wf it' wf' : fill T cap base fuel it wf = Ok (it', wf') ->
  v_first T it' = 0%N /\ v_last T it' = N.of_nat (length (v_out T it')) /\ length (v_out T it') < 16 /\ v_current T it' = v_next T it /\ (wf' = true -> wf = true).
Proof.
  unfold fill. destruct (negb _); [discriminate|].
  destruct (fill_loop _ _ _ _ _ _ _) as [[[next t] out]| |]; cbn [bind]; try discriminate.
  destruct (if Nat.eqb next (length base) then _ else _) as [[t2 o2]| |]; cbn [bind]; try discriminate.
  destruct (Nat.ltb_spec cap (length o2)); [discriminate|]. intros H'. injection H' as <- <-.
  cbn [v_first v_last v_out v_current]. split; [reflexivity|]. split; [apply (small_mod cap Hcap); lia|]. split; [lia|]. split; [reflexivity|]. destruct (tc_wf T t2); [auto|discriminate].
Qed.
Lemma next_wf it wf it' wf' : vnext T cap base (length base) it wf = Ok (it', wf') -> wf' = true -> wf = true.
Proof.
  unfold vnext. destruct (_ =? _)%N; [discriminate|]. destruct (_ =? _)%N; [|congruence]. intros H. apply fill_shape in H. apply H.
Qed.
Lemma collect_wf fuel : forall it wf r, vcollect T cap base fuel it wf = Ok (r, true) -> wf = true.
Proof.
  induction fuel as [|fuel IH]; intros it wf r; cbn [vcollect]; [discriminate|]. destruct (vdone T base it); [congruence|].
  destruct (vderef T it); cbn [bind]; try discriminate. destruct (vnext _ _ _ _ _ _) as [[it' wf']| |] eqn:E; cbn [bind]; try discriminate.
  destruct (vcollect T cap base fuel it' wf') as [[r' ok]| |] eqn:C; cbn [bind]; try discriminate. intros H. injection H as <- ->.
  eapply next_wf; [exact E|]. eapply IH. exact C.
Qed.

Lemma for_first fuel : forall it wf b seen r ok, vcollect T cap base fuel it wf = Ok (r, ok) ->
  v_first T it = N.of_nat b -> v_last T it = N.of_nat (length (v_out T it)) -> length (v_out T it) < 16 -> b <= length (v_out T it) ->
  v_next T it <= length base -> 2 * v_next T it <= m ->
  (v_next T it < length base -> reach (v_next T it) (v_tc T it) (seen ++ skipn b (v_out T it))) ->
  (vdone T base it = true -> v_next T it = length base) ->
  (2 * length base <= m /\ range_for fails T cap base fuel (2 * v_next T it) it wf = Ok (true, r, ok))
  \/ (m < 2 * length base /\ exists w wf' s, range_for fails T cap base fuel (2 * v_next T it) it wf = Ok (false, w, wf') /\ reach (m / 2) s (seen ++ w) /\ (ok = true -> wf' = true)).
Proof.
  induction fuel as [|fuel IH]; intros it wf b seen r ok; cbn [vcollect range_for]; [discriminate|]. intros H Hf Hl Ho Hb Hn Lm R Hd.
  destruct (vdone T base it) eqn:D.
  { injection H as <- <-. left. split; [rewrite <- (Hd eq_refl); exact Lm|reflexivity]. }
  destruct (vderef T it) as [u| |] eqn:U; cbn [bind] in H |- *; try discriminate.
  destruct (vnext T cap base (length base) it wf) as [[it' wf1]| |] eqn:E; cbn [bind] in H; try discriminate.
  destruct (vcollect T cap base fuel it' wf1) as [[r' ok']| |] eqn:C; cbn [bind] in H; try discriminate. injection H as <- <-.
  unfold vderef in U. unfold vnext in E. unfold vnext_x.
  destruct (N.eqb_spec (v_first T it) (v_last T it)) as [|NE]; [discriminate|].
  rewrite Hf, Nat2N.id in U.
  destruct (nth_error (v_out T it) b) as [u'|] eqn:NB; [|discriminate]. injection U as ->.
  assert (Bl : b < length (v_out T it)) by (apply nth_error_Some; congruence).
  cbn [v_first v_last] in E |- *.
  assert (Hf' : ((v_first T it + 1) mod 2 ^ 4)%N = N.of_nat (S b)).
  { rewrite Hf. replace (N.of_nat b + 1)%N with (N.of_nat (S b)) by lia. apply (small_mod cap Hcap). lia. }
  rewrite Hf' in E |- *. rewrite Hl in E |- *.
  assert (Sk : skipn b (v_out T it) = u :: skipn (S b) (v_out T it)) by (apply skipn_nth; exact NB).
  destruct (N.eqb_spec (N.of_nat (S b)) (N.of_nat (length (v_out T it)))) as [El|Nl].
  - set (it0 := Vit T (v_current T it) (v_next T it) (v_out T it) (v_tc T it) (N.of_nat (S b)) (N.of_nat (length (v_out T it)))) in *.
    assert (R0 : v_next T it0 < length base -> reach (v_next T it0) (v_tc T it0) (seen ++ [u])).
    { intros X. specialize (R X). rewrite Sk in R. rewrite (skipn_all2 (v_out T it)) in R by lia. exact R. }
    destruct (fill_shape _ _ _ _ _ E) as (S1 & S2 & S3 & S4 & S5).
    destruct (fill_first it0 wf _ (seen ++ [u]) E Hn R0 Lm) as [(A & B & B' & R1)|(X & (k' & it1 & A) & (s & Y))].
    + change (v_next T it0) with (v_next T it) in A. rewrite A. cbn [bind fst]. cbn [fst] in *.
      destruct (IH it' wf1 0 (seen ++ [u]) r' ok' C) as [[P Q]|(P & w & wf' & s & Q & Y & W)]; try assumption; try lia.
      * unfold vdone. rewrite S4. change (v_next T it0) with (v_next T it). intros V. apply Nat.eqb_eq in V.
        assert (v_next T it <= v_next T it'); [|lia]. 
        clear -E Hn. unfold fill in E. destruct (negb _); [discriminate|]. change (v_next T it0) with (v_next T it) in E.
        destruct (fill_loop T cap base (length base) (v_next T it) (v_tc T it0) []) as [[[next t] out]| |] eqn:F; cbn [bind] in E; try discriminate.
        assert (G : v_next T it <= next).
        { apply (loop_bound _ _ _ _ _ _ _ F). exact Hn. }
        destruct (if Nat.eqb next (length base) then _ else _) as [[t2 o2]| |]; cbn [bind] in E; try discriminate.
        destruct (Nat.ltb _ _); [discriminate|]. injection E as <- _. exact G.
      * left. split; [exact P|]. rewrite Q. reflexivity.
      * right. split; [exact P|]. exists (u :: w), wf', s. rewrite Q. split; [reflexivity|]. rewrite <- app_assoc in Y. split; [exact Y|exact W].
    + change (v_next T it0) with (v_next T it) in A. rewrite A. cbn [bind]. right. split; [exact X|]. exists [u], wf, s. split; [reflexivity|]. split; [exact Y|].
      intros ->. apply S5. eapply collect_wf. exact C.
  - injection E as <- <-. cbn [bind].
    destruct (IH _ wf (S b) (seen ++ [u]) r' ok' C) as [[P Q]|(P & w & wf' & s & Q & Y & W)]; cbn [v_first v_last v_out v_next v_tc v_current]; try reflexivity; try assumption; try lia.
    + intros X. specialize (R X). rewrite Sk in R. rewrite <- app_assoc. exact R.
    + unfold vdone in D |- *. cbn [v_current]. congruence.
    + cbn [v_next] in Q. change (N.pos (Pos.of_succ_nat b)) with (N.of_nat (S b)) in Q. rewrite Q. cbn [bind]. left. split; [exact P|reflexivity].
    + cbn [v_next] in Q. change (N.pos (Pos.of_succ_nat b)) with (N.of_nat (S b)) in Q. rewrite Q. cbn [bind]. right. split; [exact P|]. exists (u :: w), wf', s. split; [reflexivity|]. rewrite <- app_assoc in Y. split; [exact Y|exact W].
Qed.

Lemma view_first fuel r ok : view_iterate T cap base fuel = Ok (r, ok) -> base <> [] ->
  (2 * length base <= m /\ view_range_for fails T cap base fuel = Ok (true, r, ok))
  \/ (m < 2 * length base /\ exists w wf' s, view_range_for fails T cap base fuel = Ok (false, w, wf') /\ reach (m / 2) s w /\ (ok = true -> wf' = true)).
Proof.
  intros H NE. unfold view_iterate in H. destruct (vbegin T cap base (length base) true) as [[it wf]| |] eqn:E; cbn [bind] in H; try discriminate.
  assert (L0 : 0 < length base) by (destruct base; [contradiction|cbn; lia]).
  unfold vbegin in E. unfold view_range_for, vbegin_x. destruct (Nat.eqb_spec 0 (length base)) as [|_]; [lia|].
  set (it0 := Vit T 0 0 [] (tc_init T) 0 0) in *.
  destruct (fill_shape _ _ _ _ _ E) as (S1 & S2 & S3 & S4 & S5).
  assert (R0 : v_next T it0 < length base -> reach (v_next T it0) (v_tc T it0) []) by (intros _; reflexivity).
  destruct (fill_first it0 true _ [] E ltac:(cbn; lia) R0 ltac:(cbn; lia)) as [(A & B & B' & R1)|(X & (k' & it1 & A) & (s & Y))].
  - change (2 * v_next T it0) with 0 in A. rewrite A. cbn [bind fst] in *.
    destruct (for_first fuel it wf 0 [] r ok H) as [[P Q]|(P & w & wf' & s & Q & Y & W)]; try assumption; try lia.
    + unfold vdone. rewrite S4. cbn [it0 v_next]. intros V. apply Nat.eqb_eq in V. lia.
    + left. split; [exact P|exact Q].
    + right. split; [exact P|]. exists w, wf', s. auto.
  - change (2 * v_next T it0) with 0 in A. rewrite A. cbn [bind]. right. split; [exact X|]. exists [], true, s. auto.
Qed.
End E.
