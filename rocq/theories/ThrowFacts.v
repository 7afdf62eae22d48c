From Verif Require Import Base ModelIcu ModelThrow SpecThrow.
From Coq Require Import Lia.
Local Open Scope N_scope.
Local Open Scope list_scope.

Definition noexcept_put {S} (st : stmt S) : Prop := match st with Put ne _ => ne = true | _ => True end.
Record steps (T : xtcdr) : Prop := {
  steps_op : forall s u, tc_op (x_tc T) s u = do l <- x_op T s u; Ok (effect l s);
  steps_end : forall s, tc_end (x_tc T) s = do l <- x_end T s; Ok (effect l s) }.
Lemma effect_app {S} (a b : list (stmt S)) s : effect (a ++ b) s = let (s', w) := effect a s in let (s'', w') := effect b s' in (s'', w ++ w').
Proof.
  revert s. induction a as [|[ne u|s'] a IH]; intros s; cbn [effect app]; [destruct (effect b s); reflexivity| |apply IH].
  rewrite IH. destruct (effect a s) as [s' w]. destruct (effect b s'). reflexivity.
Qed.
Lemma effect_puts {S} ne w (s : S) : effect (map (Put ne) w) s = (s, w).
Proof. induction w as [|u w IH]; cbn; [reflexivity|now rewrite IH]. Qed.
Lemma tcase (b : bool) {A} (x y : A) : (if b then x else y) = (if b then x else y). Proof. reflexivity. Qed.

(* --- the basic transcoders --- *)
Ltac tests := repeat (match goal with |- context [if ?b then _ else _] => destruct b end; cbn [bind effect app fst snd]); try reflexivity.
Lemma steps_32_8 : steps x_32_8.
Proof.
  split; [|reflexivity]. intros s u. cbn [x_tc x_32_8 tc_op t32_8 x_op]. cbn [t32_8_call x32_8].
  destruct (u <? 0x80); [reflexivity|]. destruct (u <? 0x800); [reflexivity|]. destruct (is_surrogate u); [reflexivity|]. destruct (u <? 0x10000); [reflexivity|].
  destruct (u <=? max_code_point); [reflexivity|]. reflexivity.
Qed.
Lemma steps_32_16 : steps x_32_16.
Proof.
  split; [|reflexivity]. intros s u. cbn [x_tc x_32_16 tc_op t32_16 x_op]. cbn [t32_16_call x32_16].
  destruct (is_surrogate u || (max_code_point <? u)); [reflexivity|]. destruct (u <=? 0xFFFF); reflexivity.
Qed.
Lemma steps_32_32 : steps x_32_32.
Proof. split; [|reflexivity]. intros s u. cbn [x_tc x_32_32 tc_op t32_32 x_op]. unfold t32_32_call, x32_32. tests. Qed.
Lemma steps_8_32 : steps x_8_32.
Proof.
  split.
  - intros s u. cbn [x_tc x_8_32 tc_op t8_32 x_op]. unfold t8_32_call, x8_32. destruct (nth_error utf8d (N.to_nat u)) as [ty|]; [|reflexivity].
    cbv zeta. destruct (nth_error utf8d (N.to_nat (256 + s8_state s + ty))) as [st|]; [|reflexivity].
    cbn [bind effect]. destruct (st =? accept); [reflexivity|]. destruct (st =? reject); reflexivity.
  - intros s. cbn [x_tc x_8_32 tc_end t8_32 x_end]. unfold t8_32_end, x8_32_end. destruct (negb (s8_state s =? accept)); reflexivity.
Qed.
Lemma steps_16_32 : steps x_16_32.
Proof.
  split.
  - intros [h has wf] u. cbn [x_tc x_16_32 tc_op t16_32 x_op]. unfold t16_32_call, x16_32. cbn [s16_has s16_wf s16_high].
    destruct has; cbn [negb]; destruct (is_low_surrogate u); destruct (is_high_surrogate u); try reflexivity; destruct (adjusted_high u) as [x| |]; reflexivity.
  - intros [h has wf]. destruct has; reflexivity.
Qed.
(* --- triangulators --- *)
Section Tri.
Variables (cap : nat) (I O : xtcdr).
Hypothesis HI : steps I.
Hypothesis HO : steps O.
Lemma effect_lift i l o : effect (lift I O i l) (i, o) = ((i, fst (effect l o)), snd (effect l o)).
Proof. revert o. induction l as [|[ne u|o'] l IH]; intros o; cbn [lift map effect]; [reflexivity| |apply IH]. fold (lift I O i l). rewrite IH. destruct (effect l o). reflexivity. Qed.
Lemma tri_copy_feed i us : forall o, match tri_copy I O i o us with
  | Ok (r, o') => feed (x_tc O) o us = Ok (o', snd (effect r (i, o))) /\ fst (effect r (i, o)) = (i, o')
  | Fault f => feed (x_tc O) o us = Fault f | Diverge => feed (x_tc O) o us = Diverge end.
Proof.
  induction us as [|u us IH]; intros o; cbn [tri_copy feed]; [cbn; auto|]. rewrite (steps_op O HO o u).
  destruct (x_op O o u) as [l| |]; cbn [bind]; try reflexivity. specialize (IH (fst (effect l o))). destruct (effect l o) as [o1 w1] eqn:El. cbn [fst bind] in *.
  destruct (tri_copy I O i o1 us) as [[r o']| |]; cbn [bind] in *; [|rewrite IH; reflexivity..]. destruct IH as [-> E2]. cbn [bind].
  rewrite effect_app, effect_lift, El. cbn [fst snd]. destruct (effect r (i, o1)) as [s'' w'']. cbn [fst snd] in *. subst. auto.
Qed.
Lemma steps_tri : steps (x_triangulator cap I O).
Proof.
  split.
  - intros [i o] u. cbn [x_tc x_triangulator tc_op triangulator x_op]. unfold tri_op, x_tri_op. cbn [fst snd]. rewrite (steps_op I HI i u).
    destruct (x_op I i u) as [l| |]; cbn [bind]; try reflexivity. destruct (effect l i) as [i' w]. destruct (Nat.ltb cap (length w)); [reflexivity|].
    pose proof (tri_copy_feed i' w o) as F. destruct (tri_copy I O i' o w) as [[r o']| |]; cbn [bind]; [|rewrite F; reflexivity..]. destruct F as [-> F]. cbn [bind effect].
    assert (Q : effect r (i', o) = ((i', o'), snd (effect r (i', o)))) by (rewrite <- F; apply surjective_pairing). exact (f_equal Ok (eq_sym Q)).
  - intros [i o]. cbn [x_tc x_triangulator tc_end triangulator x_end]. unfold tri_end, x_tri_end. cbn [fst snd]. rewrite (steps_end I HI i).
    destruct (x_end I i) as [l| |]; cbn [bind]; try reflexivity. destruct (effect l i) as [i' w]. destruct (Nat.ltb cap (length w)); [reflexivity|].
    pose proof (tri_copy_feed i' w o) as F. destruct (tri_copy I O i' o w) as [[r o']| |]; cbn [bind]; [|rewrite F; reflexivity..]. destruct F as [-> F]. cbn [bind].
    rewrite (steps_end O HO o'). destruct (x_end O o') as [e| |]; cbn [bind]; try reflexivity. cbn [effect].
    assert (Q : effect (r ++ lift I O i' e) (i', o) = ((i', fst (effect e o')), snd (effect r (i', o)) ++ snd (effect e o'))).
    { rewrite effect_app. destruct (effect r (i', o)) as [so wo]. cbn [fst snd] in *. subst so. rewrite effect_lift. reflexivity. }
    destruct (effect e o') as [oo wo]. exact (f_equal Ok (eq_sym Q)).
Qed.
Hypothesis NO : forall s u l, x_op O s u = Ok l -> Forall noexcept_put l.
Hypothesis EO : forall s l, x_end O s = Ok l -> Forall noexcept_put l.
Lemma lift_ne i l : Forall noexcept_put l -> Forall noexcept_put (lift I O i l).
Proof. intros F. induction F as [|[ne u|o] l H F IH]; cbn; constructor; auto. Qed.
Lemma copy_ne i us : forall o r o', tri_copy I O i o us = Ok (r, o') -> Forall noexcept_put r.
Proof.
  induction us as [|u us IH]; intros o r o' E; cbn [tri_copy] in E; [injection E as <- <-; constructor|].
  destruct (x_op O o u) as [l| |] eqn:El; try discriminate. cbn [bind] in E. destruct (tri_copy I O i (fst (effect l o)) us) as [[r1 o1]| |] eqn:Ec; try discriminate.
  injection E as <- <-. apply Forall_app. split; [apply lift_ne; eauto|eauto].
Qed.
Lemma tri_op_ne s u l : x_op (x_triangulator cap I O) s u = Ok l -> Forall noexcept_put l.
Proof.
  cbn [x_op x_triangulator]. unfold x_tri_op. destruct (x_op I (fst s) u) as [k| |]; cbn [bind]; try discriminate. destruct (effect k (fst s)) as [i w]. destruct (Nat.ltb cap (length w)); [discriminate|].
  destruct (tri_copy I O i (snd s) w) as [[r o]| |] eqn:E; cbn [bind]; try discriminate. intros [= <-]. constructor; [exact Logic.I|]. eapply copy_ne; exact E.
Qed.
Lemma tri_end_ne s l : x_end (x_triangulator cap I O) s = Ok l -> Forall noexcept_put l.
Proof.
  cbn [x_end x_triangulator]. unfold x_tri_end. destruct (x_end I (fst s)) as [k| |]; cbn [bind]; try discriminate. destruct (effect k (fst s)) as [i w]. destruct (Nat.ltb cap (length w)); [discriminate|].
  destruct (tri_copy I O i (snd s) w) as [[r o]| |] eqn:E; cbn [bind]; try discriminate. destruct (x_end O o) as [e| |] eqn:Ee; cbn [bind]; try discriminate. intros [= <-].
  constructor; [exact Logic.I|]. apply Forall_app. split; [eapply copy_ne; exact E|]. apply lift_ne. eauto.
Qed.
End Tri.
Lemma puts_ne {S} w : Forall noexcept_put (map (@Put S true) w).
Proof. induction w; cbn; constructor; auto. reflexivity. Qed.
Lemma all_ne {S} (r : outcome (S * list N)) l : all_noexcept r = Ok l -> Forall noexcept_put l.
Proof. unfold all_noexcept. destruct r as [[s w]| |]; cbn; try discriminate. intros [= <-]. apply Forall_app. split; [apply puts_ne|repeat constructor]. Qed.
Lemma steps_byte T8 T16 T32 : steps (x_byte T8 T16 T32).
Proof.
  assert (G : forall (S : Type) (r : outcome (S * list N)) s, r = do l <- all_noexcept r; Ok (effect l s)).
  { intros S r s. unfold all_noexcept. destruct r as [[s' w]| |]; cbn [bind]; try reflexivity. rewrite effect_app, effect_puts. cbn. now rewrite app_nil_r. }
  split; intros; apply G.
Qed.
Lemma steps_all T : In T [x_8_8; x_8_16; x_8_32; x_16_8; x_16_16; x_16_32; x_32_8; x_32_16; x_32_32; x_b_8; x_b_16; x_b_32] -> steps T.
Proof.
  cbn [In]. intros H. repeat (destruct H as [<-|H]; [first [exact steps_8_32|exact steps_16_32|exact steps_32_8|exact steps_32_16|exact steps_32_32|apply steps_byte|
    apply steps_tri; first [exact steps_8_32|exact steps_16_32|exact steps_32_8|exact steps_32_16]]|]). destruct H.
Qed.
Lemma ne_put {S} u : @noexcept_put S (Put true u). Proof. reflexivity. Qed.
Lemma ne_members {S} s : @noexcept_put S (Members s). Proof. exact I. Qed.
Ltac nes := repeat (apply Forall_cons; [first [apply ne_put|apply ne_members]|]); apply Forall_nil.
Lemma ok_inj {A} (x y : A) : Ok x = Ok y -> x = y. Proof. congruence. Qed.
Lemma op_ne_32_8 s u l : x_op x_32_8 s u = Ok l -> Forall noexcept_put l.
Proof.
  change (x_op x_32_8 s u) with (x32_8 2 s u). generalize 2%nat. intros fuel. revert s u l. induction fuel as [|fuel IH]; intros s u l; [discriminate|]. cbn [x32_8].
  assert (F : (do r <- x32_8 fuel false replacement_char; Ok (Members false :: r)) = Ok l -> Forall noexcept_put l).
  { destruct (x32_8 fuel false replacement_char) as [r| |] eqn:E; cbn [bind]; try discriminate. intros H. apply ok_inj in H. subst l. constructor; [exact I|]. exact (IH _ _ _ E). }
  destruct (u <? 0x80); [intros H; apply ok_inj in H; subst l; nes|]. destruct (u <? 0x800); [intros H; apply ok_inj in H; subst l; apply puts_ne|].
  destruct (is_surrogate u); [exact F|]. destruct (u <? 0x10000); [intros H; apply ok_inj in H; subst l; apply puts_ne|]. destruct (u <=? max_code_point); [intros H; apply ok_inj in H; subst l; apply puts_ne|exact F].
Qed.
Lemma op_ne_32_16 s u l : x_op x_32_16 s u = Ok l -> Forall noexcept_put l.
Proof.
  change (x_op x_32_16 s u) with (x32_16 2 s u). generalize 2%nat. intros fuel. revert s u l. induction fuel as [|fuel IH]; intros s u l; [discriminate|]. cbn [x32_16].
  destruct (is_surrogate u || (max_code_point <? u)).
  - destruct (x32_16 fuel s replacement_char) as [r| |] eqn:E; cbn [bind]; try discriminate. intros H. apply ok_inj in H. subst l. apply Forall_app. split; [exact (IH _ _ _ E)|nes].
  - destruct (u <=? 0xFFFF); intros H; apply ok_inj in H; subst l; nes.
Qed.
Lemma op_ne_16_32 s u l : x_op x_16_32 s u = Ok l -> Forall noexcept_put l.
Proof.
  cbn [x_op x_16_32]. unfold x16_32. destruct s as [h has wf]. cbn [s16_has]. destruct has; cbn [negb]; destruct (is_low_surrogate u), (is_high_surrogate u); try destruct (adjusted_high u); cbn [bind]; intros E; try discriminate E; injection E as <-; repeat constructor.
Qed.
Lemma no_end_ne {S} (s : S) l : no_end s = Ok l -> Forall noexcept_put l.
Proof. intros [= <-]. constructor. Qed.
Definition quiet_ends (T : xtcdr) : Prop := (forall s u l, x_op T s u = Ok l -> Forall noexcept_put l) /\ (forall s l, x_end T s = Ok l -> Forall noexcept_put l).
Lemma ne_32_8 : quiet_ends x_32_8. Proof. split; [exact op_ne_32_8|exact no_end_ne]. Qed.
Lemma ne_32_16 : quiet_ends x_32_16. Proof. split; [exact op_ne_32_16|exact no_end_ne]. Qed.
Lemma ne_tri cap I O : quiet_ends O -> quiet_ends (x_triangulator cap I O).
Proof. intros [A B]. split; [exact (tri_op_ne cap I O A)|exact (tri_end_ne cap I O A B)]. Qed.
Lemma ne_byte A B C : quiet_ends (x_byte A B C).
Proof. split; [intros s u l; exact (all_ne _ l)|intros s l; exact (all_ne _ l)]. Qed.
Lemma ne_all T : In T [x_8_8; x_8_16; x_16_8; x_16_16; x_32_8; x_32_16; x_b_8; x_b_16; x_b_32] -> quiet_ends T.
Proof.
  cbn [In]. intros [<-|[<-|[<-|[<-|[<-|[<-|[<-|[<-|[<-|[]]]]]]]]]].
  - exact (ne_tri 1 x_8_32 x_32_8 ne_32_8).
  - exact (ne_tri 1 x_8_32 x_32_16 ne_32_16).
  - exact (ne_tri 2 x_16_32 x_32_8 ne_32_8).
  - exact (ne_tri 2 x_16_32 x_32_16 ne_32_16).
  - exact ne_32_8.
  - exact ne_32_16.
  - apply ne_byte.
  - apply ne_byte.
  - apply ne_byte.
Qed.

(* --- running --- *)
Lemma exec_quiet refuses {S} (l : list (stmt S)) : forall s d, (forall i, d_tried d <= i < d_tried d + length (snd (effect l s)) -> refuses i = false)%nat ->
  exec refuses l s d = (Returned, fst (effect l s), Dest (d_tried d + length (snd (effect l s))) (d_received d ++ snd (effect l s))).
Proof.
  induction l as [|[ne u|s'] l IH]; intros s d H; cbn [exec effect].
  - cbn. rewrite Nat.add_0_r, app_nil_r. now destruct d.
  - cbn [effect] in H. destruct (effect l s) as [s' w] eqn:E. cbn [fst snd length] in *. rewrite H by lia. rewrite IH; rewrite E; cbn [fst snd d_tried d_received]; [|intros i Hi; apply H; lia].
    rewrite <- app_assoc. cbn [app]. do 2 f_equal. lia.
  - apply IH. exact H.
Qed.
Lemma exec_terminates refuses {S} k (l : list (stmt S)) : Forall noexcept_put l -> forall s d, (d_tried d <= k < d_tried d + length (snd (effect l s)))%nat ->
  refuses k = true -> (forall i, d_tried d <= i < k -> refuses i = false)%nat ->
  exists s', exec refuses l s d = (Terminated, s', Dest (Datatypes.S k) (d_received d ++ firstn (k - d_tried d) (snd (effect l s)))).
Proof.
  intros F. induction F as [|[ne u|s'] l N F IH]; intros s d H Hk Hi; cbn [exec effect] in *; [cbn in H; lia| |apply IH; assumption].
  cbn in N. subst ne. destruct (effect l s) as [s' w] eqn:E. cbn [fst snd length] in *. destruct (Nat.eq_dec k (d_tried d)) as [->|D].
  - rewrite Hk, Nat.sub_diag. cbn [firstn]. rewrite app_nil_r. eexists. reflexivity.
  - rewrite Hi by lia. destruct (IH s (Dest (Datatypes.S (d_tried d)) (d_received d ++ [u]))) as [s'' E2]; cbn [d_tried d_received]; [rewrite E; cbn [snd]; lia|exact Hk|intros i Ii; apply Hi; lia|].
    exists s''. rewrite E2, E. cbn [snd d_tried d_received]. rewrite <- app_assoc. replace (k - d_tried d)%nat with (Datatypes.S (k - Datatypes.S (d_tried d)))%nat by lia. reflexivity.
Qed.

Section Calls.
Variable refuses : nat -> bool.
Variable T : xtcdr.
Hypothesis HT : steps T.
Lemma calls_app p q s d : calls refuses T (p ++ q) s d = do (es, s', d') <- calls refuses T p s d;
  if existsb (fun e => match e with Terminated => true | _ => false end) es then Ok (es, s', d')
  else do (fs, s'', d'') <- calls refuses T q s' d'; Ok (es ++ fs, s'', d'').
Proof.
  revert s d. induction p as [|c p IH]; intros s d; cbn [calls app bind existsb].
  - destruct (calls refuses T q s d) as [[[es s'] d']| |]; reflexivity.
  - destruct (match c with Some u => call refuses T s u d | None => call_end refuses T s d end) as [[[e s'] d']| |]; cbn [bind]; try reflexivity.
    destruct e; cbn [existsb bind].
    1-2: rewrite IH; destruct (calls refuses T p s' d') as [[[es s2] d2]| |]; cbn [bind existsb orb]; try reflexivity;
         destruct (existsb _ es); cbn [bind]; [reflexivity|]; destruct (calls refuses T q s2 d2) as [[[fs s3] d3]| |]; reflexivity.
    reflexivity.
Qed.
Lemma call_quiet s u s' w d : tc_op (x_tc T) s u = Ok (s', w) -> (forall i, d_tried d <= i < d_tried d + length w -> refuses i = false)%nat ->
  call refuses T s u d = Ok (Returned, s', Dest (d_tried d + length w) (d_received d ++ w)).
Proof.
  rewrite (steps_op T HT). unfold call. destruct (x_op T s u) as [l| |]; cbn [bind]; try discriminate. intros [= E] H.
  rewrite exec_quiet by (rewrite E; exact H). now rewrite E.
Qed.
Lemma end_quiet s s' w d : tc_end (x_tc T) s = Ok (s', w) -> (forall i, d_tried d <= i < d_tried d + length w -> refuses i = false)%nat ->
  call_end refuses T s d = Ok (Returned, s', Dest (d_tried d + length w) (d_received d ++ w)).
Proof.
  rewrite (steps_end T HT). unfold call_end. destruct (x_end T s) as [l| |]; cbn [bind]; try discriminate. intros [= E] H.
  rewrite exec_quiet by (rewrite E; exact H). now rewrite E.
Qed.
Lemma feed_quiet l : forall s s' w d, feed (x_tc T) s l = Ok (s', w) -> (forall i, d_tried d <= i < d_tried d + length w -> refuses i = false)%nat ->
  calls refuses T (map Some l) s d = Ok (repeat Returned (length l), s', Dest (d_tried d + length w) (d_received d ++ w)).
Proof.
  induction l as [|u l IH]; intros s s' w d E H; cbn [feed map calls length repeat] in *.
  - injection E as <- <-. cbn. rewrite Nat.add_0_r, app_nil_r. now destruct d.
  - destruct (tc_op (x_tc T) s u) as [[s1 w1]| |] eqn:E1; cbn [bind] in E; try discriminate. destruct (feed (x_tc T) s1 l) as [[s2 w2]| |] eqn:E2; try discriminate.
    injection E as <- <-. rewrite app_length in *. rewrite (call_quiet s u s1 w1 d E1) by (intros; apply H; lia). cbn [bind].
    rewrite (IH s1 s2 w2 _ E2) by (cbn [d_tried]; intros; apply H; lia). cbn [bind d_tried d_received]. rewrite app_assoc, Nat.add_assoc. reflexivity.
Qed.
Hypothesis NO : forall s u l, x_op T s u = Ok l -> Forall noexcept_put l.
Lemma feed_terminates k l : refuses k = true -> forall s s' w d, feed (x_tc T) s l = Ok (s', w) -> (d_tried d <= k < d_tried d + length w)%nat -> (forall i, d_tried d <= i < k -> refuses i = false)%nat ->
  exists n s2, calls refuses T (map Some l) s d = Ok (repeat Returned n ++ [Terminated], s2, Dest (Datatypes.S k) (d_received d ++ firstn (k - d_tried d) w)).
Proof.
  intros Hk. induction l as [|u l IH]; intros s s' w d E H Hi; cbn [feed map calls] in *; [injection E as <- <-; cbn in H; lia|].
  destruct (tc_op (x_tc T) s u) as [[s1 w1]| |] eqn:E1; cbn [bind] in E; try discriminate. destruct (feed (x_tc T) s1 l) as [[s2 w2]| |] eqn:E2; try discriminate.
  injection E as <- <-. rewrite app_length in H. destruct (Nat.lt_ge_cases k (d_tried d + length w1)) as [L|L].
  - pose proof E1 as E1'. rewrite (steps_op T HT) in E1'. unfold call. destruct (x_op T s u) as [x| |] eqn:Ex; cbn [bind] in *; try discriminate. injection E1' as E1'.
    destruct (exec_terminates refuses k x (NO _ _ _ Ex) s d) as [s3 E3]; [rewrite E1'; cbn [snd]; lia|exact Hk|exact Hi|]. rewrite E3, E1'. cbn [snd].
    exists 0%nat, s3. cbn [repeat app]. rewrite firstn_app. replace (k - d_tried d - length w1)%nat with 0%nat by lia. cbn [firstn]. now rewrite app_nil_r.
  - rewrite (call_quiet s u s1 w1 d E1) by (intros; apply Hi; lia). cbn [bind].
    destruct (IH s1 s2 w2 (Dest (d_tried d + length w1) (d_received d ++ w1)) E2) as (n & s3 & E3); cbn [d_tried]; [lia|intros; apply Hi; lia|].
    rewrite E3. cbn [bind d_tried d_received]. exists (Datatypes.S n), s3. cbn [repeat app].
    rewrite firstn_app. rewrite (firstn_all2 w1) by lia. rewrite <- app_assoc. replace (k - (d_tried d + length w1))%nat with (k - d_tried d - length w1)%nat by lia. reflexivity.
Qed.
Hypothesis NE : forall s l, x_end T s = Ok l -> Forall noexcept_put l.
Lemma run_terminates k l out ok : refuses k = true -> (forall i, i < k -> refuses i = false)%nat -> transcode (x_tc T) l = Ok (out, ok) -> (k < length out)%nat ->
  exists es s, calls refuses T (map Some l ++ [None]) (tc_init (x_tc T)) (Dest 0 []) = Ok (es ++ [Terminated], s, Dest (Datatypes.S k) (firstn k out)) /\ Forall (eq Returned) es.
Proof.
  intros Hk Hi E L. unfold transcode in E. destruct (feed (x_tc T) (tc_init (x_tc T)) l) as [[s w]| |] eqn:Ef; cbn [bind] in E; try discriminate.
  destruct (tc_end (x_tc T) s) as [[s' w']| |] eqn:Ee; cbn [bind] in E; try discriminate. injection E as <- <-. rewrite app_length in L.
  assert (RR : forall n, Forall (eq Returned) (repeat Returned n)) by (induction n; cbn; constructor; auto).
  assert (RX : forall n, existsb (fun e => match e with Terminated => true | _ => false end) (repeat Returned n) = false) by (induction n; cbn; auto).
  rewrite calls_app. destruct (Nat.lt_ge_cases k (length w)) as [C|C].
  - destruct (feed_terminates k l Hk (tc_init (x_tc T)) s w (Dest 0 []) Ef) as (n & s2 & E2); cbn [d_tried]; [lia|intros; apply Hi; lia|].
    rewrite E2. cbn [bind d_tried d_received app]. rewrite existsb_app. cbn [existsb]. rewrite orb_true_r. exists (repeat Returned n), s2. split; [|apply RR].
    rewrite Nat.sub_0_r, firstn_app. replace (k - length w)%nat with 0%nat by lia. cbn [firstn]. now rewrite app_nil_r.
  - rewrite (feed_quiet l (tc_init (x_tc T)) s w (Dest 0 []) Ef) by (cbn [d_tried]; intros; apply Hi; lia). cbn [bind]. rewrite RX. cbn [calls d_tried d_received app].
    pose proof Ee as Ee'. rewrite (steps_end T HT) in Ee'. unfold call_end. destruct (x_end T s) as [x| |] eqn:Ex; cbn [bind] in *; try discriminate. injection Ee' as Ee'.
    destruct (exec_terminates refuses k x (NE _ _ Ex) s (Dest (0 + length w) w)) as [s3 E3]; cbn [d_tried]; [rewrite Ee'; cbn [snd]; lia|exact Hk|intros; apply Hi; lia|].
    rewrite E3, Ee'. cbn [snd bind d_tried d_received]. exists (repeat Returned (length l)), s3. split; [|apply RR].
    do 3 f_equal. rewrite firstn_app, (firstn_all2 w) by lia. cbn [Nat.add]. reflexivity.
Qed.
End Calls.

Lemma same_run refuses T l out ok : steps T -> transcode (x_tc T) l = Ok (out, ok) -> (forall i, i < length out -> refuses i = false)%nat ->
  exists es s, calls refuses T (map Some l ++ [None]) (tc_init (x_tc T)) (Dest 0 []) = Ok (es, s, Dest (length out) out)
  /\ Forall (eq Returned) es /\ length es = S (length l) /\ tc_wf (x_tc T) s = ok.
Proof.
  intros HT E Q. unfold transcode in E. destruct (feed (x_tc T) (tc_init (x_tc T)) l) as [[s w]| |] eqn:Ef; cbn [bind] in E; try discriminate.
  destruct (tc_end (x_tc T) s) as [[s' w']| |] eqn:Ee; cbn [bind] in E; try discriminate. injection E as <- <-. rewrite app_length in Q.
  assert (RX : forall n, existsb (fun e => match e with Terminated => true | _ => false end) (repeat Returned n) = false) by (induction n; cbn; auto).
  rewrite calls_app by exact HT. rewrite (feed_quiet _ T HT l (tc_init (x_tc T)) s w (Dest 0 []) Ef) by (cbn [d_tried]; intros; apply Q; lia). cbn [bind]. rewrite RX. cbn [calls].
  rewrite (end_quiet _ T HT s s' w' _ Ee) by (cbn [d_tried]; intros; apply Q; lia). cbn [bind d_tried d_received app].
  exists (repeat Returned (length l) ++ [Returned]), s'. split; [rewrite app_length; reflexivity|]. split; [apply Forall_app; split; [clear; induction (length l); cbn; constructor; auto|repeat constructor]|].
  split; [rewrite app_length, repeat_length; cbn; lia|reflexivity].
Qed.
Lemma terminates refuses T l out ok k : In T [x_8_8; x_8_16; x_16_8; x_16_16; x_32_8; x_32_16; x_b_8; x_b_16; x_b_32] ->
  transcode (x_tc T) l = Ok (out, ok) -> first_refused refuses k -> (k < length out)%nat ->
  exists es s, calls refuses T (map Some l ++ [None]) (tc_init (x_tc T)) (Dest 0 []) = Ok (es ++ [Terminated], s, Dest (S k) (firstn k out))
  /\ Forall (eq Returned) es.
Proof.
  intros H E [Hk Hi] L. destruct (ne_all T H) as [A B]. apply (run_terminates refuses T) with (ok := ok); auto. apply steps_all. cbn [In] in *. intuition.
Qed.
Lemma terminates_16_32 refuses l s out k : feed t16_32 (tc_init t16_32) l = Ok (s, out) -> first_refused refuses k -> (k < length out)%nat ->
  exists es s', calls refuses x_16_32 (map Some l) (tc_init t16_32) (Dest 0 []) = Ok (es ++ [Terminated], s', Dest (S k) (firstn k out))
  /\ Forall (eq Returned) es.
Proof.
  intros E [Hk Hi] L. destruct (feed_terminates refuses x_16_32 steps_16_32 op_ne_16_32 k l Hk (tc_init t16_32) s out (Dest 0 []) E) as (n & s2 & E2); cbn [d_tried]; [lia|intros; apply Hi; lia|].
  rewrite E2. cbn [d_tried d_received app]. rewrite Nat.sub_0_r. exists (repeat Returned n), s2. split; [reflexivity|]. clear. induction n; cbn; constructor; auto.
Qed.

(* --- going on --- *)
(* at most one unit is written, and when all members have been assigned to *)
Lemma last_put T s u l : In T [x_8_32; x_32_32] -> x_op T s u = Ok l -> exists ms w, l = map Members ms ++ map (Put false) w /\ (length w <= 1)%nat.
Proof.
  intros [<-|[<-|[]]]; cbn [x_op x_8_32 x_32_32].
  - unfold x8_32. destruct (nth_error utf8d (N.to_nat u)) as [ty|]; [|discriminate]. cbv zeta. destruct (nth_error utf8d (N.to_nat (256 + s8_state s + ty))) as [st|]; [|discriminate].
    set (cp := _ mod 2 ^ code_point_bits). destruct (st =? accept); [intros [= <-]; exists [S8 cp (s8_wf s) (s8_state s); S8 cp (s8_wf s) st], [cp]; cbn; auto|].
    destruct (st =? reject); intros [= <-]; [|exists [S8 cp (s8_wf s) (s8_state s); S8 cp (s8_wf s) st], []; cbn; auto].
    exists [S8 cp (s8_wf s) (s8_state s); S8 cp (s8_wf s) st; S8 cp false st; S8 cp false accept], [replacement_char]. cbn. auto.
  - unfold x32_32. destruct (_ || _); intros [= <-]; [exists [false], [replacement_char]|exists [], [u]]; cbn; auto.
Qed.
Lemma exec_members refuses {S} (ms : list S) l s d : exec refuses (map Members ms ++ l) s d = exec refuses l (fst (effect (map Members ms) s)) d.
Proof. revert s. induction ms as [|m ms IH]; intros s; cbn; auto. Qed.
Lemma effect_members {S} (ms : list S) s : snd (effect (map Members ms) s) = [].
Proof. revert s. induction ms as [|m ms IH]; intros s; cbn; auto. Qed.
Lemma kept_app refuses a b : forall n, kept refuses n (a ++ b) = kept refuses n a ++ kept refuses (n + length a) b.
Proof. induction a as [|u a IH]; intros n; cbn [kept app length]; [now rewrite Nat.add_0_r|]. rewrite IH. replace (S n + length a)%nat with (n + S (length a))%nat by lia. destruct (refuses n); reflexivity. Qed.
Lemma refusals_app refuses a b : forall n, refusals refuses n (a + b) = (refusals refuses n a + refusals refuses (n + a) b)%nat.
Proof. induction a as [|a IH]; intros n; cbn [refusals Nat.add]; [now rewrite Nat.add_0_r|]. rewrite IH. replace (S n + a)%nat with (n + S a)%nat by lia. lia. Qed.
Lemma one_call refuses T s u s' w d : In T [x_8_32; x_32_32] -> tc_op (x_tc T) s u = Ok (s', w) ->
  exists e, call refuses T s u d = Ok (e, s', Dest (d_tried d + length w) (d_received d ++ kept refuses (d_tried d) w))
  /\ e <> Terminated /\ (match e with Threw => 1 | _ => 0 end = refusals refuses (d_tried d) (length w))%nat.
Proof.
  intros HT. assert (St : steps T) by (apply steps_all; cbn [In] in *; intuition). rewrite (steps_op T St). unfold call. destruct (x_op T s u) as [l| |] eqn:El; cbn [bind]; try discriminate.
  destruct (last_put T s u l HT El) as (ms & v & -> & L). rewrite effect_app. rewrite (surjective_pairing (effect (map Members ms) s)), effect_members, effect_puts. cbn [app]. intros [= <- <-].
  rewrite exec_members. destruct v as [|x [|y v]]; cbn [length] in L; [|..|lia]; cbn [map exec length kept refusals].
  - exists Returned. cbn. rewrite Nat.add_0_r, app_nil_r. destruct d. repeat split; auto. discriminate.
  - replace (d_tried d + 1)%nat with (S (d_tried d)) by lia. destruct (refuses (d_tried d)); [exists Threw; rewrite app_nil_r|exists Returned]; repeat split; auto; discriminate.
Qed.
Lemma go_on_from refuses T l : In T [x_8_32; x_32_32] -> forall s s' out d, feed (x_tc T) s l = Ok (s', out) ->
  exists es, calls refuses T (map Some l) s d = Ok (es, s', Dest (d_tried d + length out) (d_received d ++ kept refuses (d_tried d) out))
  /\ length es = length l /\ ~ In Terminated es /\ length (filter (fun e => match e with Threw => true | _ => false end) es) = refusals refuses (d_tried d) (length out).
Proof.
  intros HT. induction l as [|u l IH]; intros s s' out d E; cbn [feed map calls] in *.
  - injection E as <- <-. exists []. cbn. rewrite Nat.add_0_r, app_nil_r. destruct d. auto.
  - destruct (tc_op (x_tc T) s u) as [[s1 w1]| |] eqn:E1; cbn [bind] in E; try discriminate. destruct (feed (x_tc T) s1 l) as [[s2 w2]| |] eqn:E2; try discriminate. injection E as <- <-.
    destruct (one_call refuses T s u s1 w1 d HT E1) as (e & -> & Ne & Nr). cbn [bind].
    destruct (IH s1 s2 w2 (Dest (d_tried d + length w1) (d_received d ++ kept refuses (d_tried d) w1)) E2) as (es & Ec & El & Et & Er). cbn [d_tried d_received] in *.
    exists (e :: es). split.
    + rewrite Ec. rewrite kept_app, app_length, <- app_assoc, Nat.add_assoc. destruct e; [reflexivity..|contradiction].
    + cbn [length In filter]. rewrite El. split; [reflexivity|]. split; [intros [->|H]; contradiction|]. rewrite app_length, refusals_app, <- Er, <- Nr. destruct e; [reflexivity..|contradiction].
Qed.
Lemma go_on refuses T l s out : In T [x_8_32; x_32_32] -> feed (x_tc T) (tc_init (x_tc T)) l = Ok (s, out) ->
  exists es, calls refuses T (map Some l) (tc_init (x_tc T)) (Dest 0 []) = Ok (es, s, Dest (length out) (kept refuses 0 out))
  /\ length es = length l /\ ~ In Terminated es /\ length (filter (fun e => match e with Threw => true | _ => false end) es) = refusals refuses 0 (length out).
Proof. intros HT E. exact (go_on_from refuses T l HT (tc_init (x_tc T)) s out (Dest 0 []) E). Qed.

(* --- end_cp --- *)
Lemma exec_ne_threw refuses {S} (l : list (stmt S)) : Forall noexcept_put l -> forall s d s' d', exec refuses l s d <> (Threw, s', d').
Proof. intros F. induction F as [|[ne u|x] l N F IH]; intros s d s' d'; cbn [exec]; [discriminate| |apply IH]. cbn in N. subst ne. destruct (refuses (d_tried d)); [discriminate|apply IH]. Qed.
Lemma end_again refuses T s d s' d' : In T [x_8_8; x_8_16; x_8_32; x_16_8; x_16_16; x_16_32; x_32_8; x_32_16; x_32_32; x_b_8; x_b_16; x_b_32] -> call_end refuses T s d = Ok (Threw, s', d') ->
  d_received d' = d_received d /\ tc_end (x_tc T) s' = tc_end (x_tc T) s /\ tc_partial (x_tc T) s' = tc_partial (x_tc T) s.
Proof.
  intros H E. assert (C : In T [x_8_8; x_8_16; x_16_8; x_16_16; x_32_8; x_32_16; x_b_8; x_b_16; x_b_32] \/ T = x_8_32 \/ T = x_16_32 \/ T = x_32_32).
  { cbn [In] in *. repeat (destruct H as [<-|H]; [tauto|]). destruct H. }
  unfold call_end in E. destruct C as [C | [ -> | [ -> | -> ] ] ].
  - destruct (x_end T s) as [l| |] eqn:El; try discriminate. injection E as E. destruct (exec_ne_threw refuses l (proj2 (ne_all T C) s l El) _ _ _ _ E).
  - revert E. cbn [x_end x_8_32 x_tc tc_end t8_32 tc_partial]. unfold x8_32_end, t8_32_end. destruct s as [cp wf st]. cbn [s8_state s8_cp s8_wf]. destruct (negb (st =? accept)) eqn:N; cbn [bind exec].
    + destruct (refuses (d_tried d)); [|discriminate]. intros [= <- <-]. cbn [d_received s8_state s8_cp s8_wf]. change (negb (reject =? accept)) with true. auto.
    + discriminate.
  - revert E. cbn [x_end x_16_32 x_tc tc_end t16_32 tc_partial]. unfold x16_32_end, t16_32_end. destruct s as [h has wf]. cbn [s16_has s16_high s16_wf]. destruct has; cbn [bind exec].
    + destruct (refuses (d_tried d)); [|discriminate]. intros [= <- <-]. cbn. auto.
    + discriminate.
  - discriminate E.
Qed.
Lemma again_32 refuses s u d s' d' : call refuses x_32_32 s u d = Ok (Threw, s', d') ->
  d_received d' = d_received d /\ tc_op t32_32 s' u = tc_op t32_32 s u.
Proof.
  unfold call. cbn [x_op x_32_32 x_tc tc_op t32_32]. unfold x32_32, t32_32_call. destruct ((max_code_point <? u) || is_surrogate u); cbn [bind exec]; (destruct (refuses (d_tried d)); [|discriminate]); intros [= <- <-]; auto.
Qed.
