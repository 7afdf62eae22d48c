(* length and index (icubaby.hpp:435-490) on well-formed text. *)
From Verif Require Import Base ModelIcu SpecIcu IcuUtf8 IcuRead8 IcuEnc IcuViewAll.
Local Open Scope N_scope.
Local Open Scope list_scope.

(* [start] holds of the first unit of every form and of no other *)
Definition marks (start : N -> bool) (form : N -> list N -> Prop) : Prop :=
  forall c w, form c w -> exists u r, w = u :: r /\ start u = true /\ Forall (fun v => start v = false) r.

Lemma cont8 b : 0x80 <= b -> b < 0xC0 -> is_start_8 b = false.
Proof.
  intros H1 H2. unfold is_start_8. apply negb_false_iff, N.eqb_eq.
  replace b with (N.lor (b - 0x80) (N.shiftl 2 6)) by (rewrite lor_low by (change (2 ^ 6) with 64; lia); change (2 ^ 6) with 64; lia).
  assert (E : N.land (b - 128) 0xC0 = 0).
  { apply N.bits_inj_iff. intros n. rewrite N.land_spec, N.bits_0. destruct (N.lt_ge_cases n 6) as [L|L].
    - assert (n = 0 \/ n = 1 \/ n = 2 \/ n = 3 \/ n = 4 \/ n = 5) by lia.
      repeat match goal with H : _ \/ _ |- _ => destruct H end; subst; apply andb_false_r.
    - destruct (N.eq_dec (b - 128) 0) as [->|NZ]; [rewrite N.bits_0; reflexivity|].
      rewrite N.bits_above_log2; [reflexivity|]. assert (N.log2 (b - 128) < 6) by (apply N.log2_lt_pow2; [lia|change (2 ^ 6) with 64; lia]). lia. }
  rewrite N.land_lor_distr_l, E. reflexivity.
Qed.
Lemma lead8 b : b < 0x80 \/ 0xC0 <= b < 0x100 -> is_start_8 b = true.
Proof.
  intros H. unfold is_start_8. apply negb_true_iff, N.eqb_neq. intros E.
  assert (T7 := f_equal (fun x => N.testbit x 7) E). assert (T6 := f_equal (fun x => N.testbit x 6) E).
  cbv beta in T7, T6. rewrite N.land_spec in T7, T6. change (N.testbit 0xC0 7) with true in T7. change (N.testbit 0xC0 6) with true in T6.
  change (N.testbit 0x80 7) with true in T7. change (N.testbit 0x80 6) with false in T6. rewrite andb_true_r in T7, T6.
  rewrite N.testbit_eqb in T7, T6. apply N.eqb_eq in T7. apply N.eqb_neq in T6. change (2 ^ 7) with 128 in T7. change (2 ^ 6) with 64 in T6.
  nlia.
Qed.
Lemma marks_8 : marks is_start_8 utf8_of.
Proof.
  intros c w []; eexists; eexists; (split; [reflexivity|]).
  - split; [apply lead8; lia|apply Forall_nil].
  - split; [apply lead8; nlia|]. apply forall1. apply cont8; nlia.
  - split; [apply lead8; nlia|]. apply Forall_cons; [|apply forall1]; apply cont8; nlia.
  - split; [apply lead8; nlia|]. apply Forall_cons; [|apply Forall_cons; [|apply forall1]]; apply cont8; nlia.
Qed.
Lemma marks_16 : marks is_start_16 utf16_of.
Proof.
  intros c w []; eexists; eexists; (split; [reflexivity|]).
  - split; [|apply Forall_nil]. unfold is_start_16. apply negb_true_iff. apply (bool_false _ _ (low_spec _)). unfold low_surrogate, scalar in *. lia.
  - split.
    + unfold is_start_16. apply negb_true_iff. apply (bool_false _ _ (low_spec _)). unfold low_surrogate. nlia.
    + apply forall1. unfold is_start_16. apply negb_false_iff. apply low_spec. unfold low_surrogate. nlia.
Qed.
Lemma marks_32 : marks is_start_32 utf32_of.
Proof.
  intros c w [d S]; eexists; eexists; (split; [reflexivity|]). split; [|apply Forall_nil].
  unfold is_start_32. rewrite not_surrogate by (unfold scalar in S; lia). cbn. apply N.leb_le. unfold scalar in S; unfold max_code_point; lia.
Qed.

Section Count.
Variable start : N -> bool.
Variable form : N -> list N -> Prop.
Hypothesis M : marks start form.
Lemma filter_none r : Forall (fun v => start v = false) r -> filter start r = [].
Proof. induction 1 as [|v r H _ IH]; [reflexivity|]. cbn. rewrite H. exact IH. Qed.
Lemma length_text cs us : text form cs us -> icu_length start us = length cs.
Proof.
  unfold icu_length. induction 1 as [|c w cs us F T IH]; [reflexivity|].
  destruct (M _ _ F) as (u & r & -> & Hu & Hr). rewrite <- app_comm_cons. cbn [filter]. rewrite Hu, filter_app, filter_none by exact Hr. cbn. now rewrite IH.
Qed.
Lemma index_skip r pos l count off : Forall (fun v => start v = false) r ->
  icu_index_from start pos (r ++ l) count off = icu_index_from start pos l count (length r + off)%nat.
Proof.
  intros H; revert off; induction H as [|v r Hv _ IH]; intros off; [reflexivity|]. cbn [app icu_index_from length]. rewrite Hv, IH.
  f_equal. lia.
Qed.
Lemma index_from_text cs us : text form cs us -> forall pos count off, (count <= pos)%nat ->
  (forall a b x y, cs = a ++ b -> us = x ++ y -> text form a x -> text form b y -> length a = (pos - count)%nat ->
     icu_index_from start pos us count off = (off + length x)%nat)
  /\ ((length cs <= pos - count)%nat -> icu_index_from start pos us count off = (off + length us)%nat).
Proof.
  induction 1 as [|c w cs us F T IH]; intros pos count off L.
  - split.
    + intros a b x y E1 E2 _ _ _. symmetry in E2. apply app_eq_nil in E2. destruct E2 as [-> ->]. cbn. lia.
    + intros _. cbn. lia.
  - destruct (M _ _ F) as (u & r & -> & Hu & Hr). rewrite <- app_comm_cons. cbn [icu_index_from]. rewrite Hu.
    destruct (Nat.eqb_spec count pos) as [->|NE].
    + split.
      * intros a b x y E1 E2 Ta _ La. destruct a; [|cbn in La; lia]. apply text_empty in Ta. subst x. cbn. lia.
      * intros HL. cbn in HL. lia.
    + rewrite index_skip by exact Hr. destruct (IH pos (S count) (length r + S off)%nat ltac:(lia)) as [I1 I2]. split.
      * intros a b x y E1 E2 Ta Tb La. destruct a as [|d a]; [cbn in La; lia|]. injection E1 as <- E1.
        inversion Ta as [|? w1 ? us1 F1 T1]; subst.
        destruct (M _ _ F1) as (u1 & r1 & -> & Hu1 & Hr1).
        assert (E3 : r = r1 /\ us = us1 ++ y).
        { rewrite <- app_comm_cons in E2. cbn [app] in E2. injection E2 as E2' E2. subst u1. rewrite <- app_assoc in E2.
          clear - E2 Hr Hr1 Tb T1 T M.
          assert (Hd : forall cs us, text form cs us -> us = [] \/ exists u t, us = u :: t /\ start u = true).
          { intros cs0 x0 H0. destruct H0 as [|c0 w0 cs0 x0 F0 T0]; [auto|]. right. destruct (M _ _ F0) as (u0 & t & -> & Hu & _). exists u0, (t ++ x0). auto. }
          assert (HX : us1 ++ y = [] \/ exists u t, us1 ++ y = u :: t /\ start u = true).
          { destruct (Hd _ _ T1) as [->|(u & t & -> & Hu)]; [apply (Hd _ _ Tb)|]. right. exists u, (t ++ y). auto. }
          specialize (Hd _ _ T). revert E2 Hr Hr1 Hd HX. generalize (us1 ++ y). clear. intros z. revert r1 us z.
          induction r as [|v r IH]; intros [|v1 r1] us z E Hr Hr1 Hd HX; cbn in E.
          - auto.
          - subst us. inversion Hr1; subst. destruct Hd as [Hd|(u & t & Hd & Hu)]; [discriminate|]. injection Hd as <- _. congruence.
          - subst z. inversion Hr; subst. destruct HX as [Hd'|(u & t & Hd' & Hu)]; [discriminate|]. injection Hd' as <- _. congruence.
          - injection E as <- E. inversion Hr; inversion Hr1; subst. assert (r = r1 /\ us = z) as [-> ->]; [apply IH; assumption|auto]. }
        destruct E3 as [<- ->]. rewrite (I1 a b us1 y eq_refl eq_refl T1 Tb); [rewrite app_length; cbn [length]; lia|cbn in La; lia].
      * intros HL. cbn [length] in HL. rewrite I2 by lia. cbn [length]. rewrite app_length. lia.
Qed.
Lemma index_text a b x y : text form a x -> text form b y -> icu_index start (x ++ y) (length a) = length x.
Proof.
  intros Ta Tb. unfold icu_index. destruct (index_from_text (a ++ b) (x ++ y) (text_app form a b x y Ta Tb) (length a) 0 0 ltac:(lia)) as [I1 _].
  rewrite (I1 a b x y eq_refl eq_refl Ta Tb); [reflexivity|lia].
Qed.
Lemma index_end cs us pos : text form cs us -> (length cs <= pos)%nat -> icu_index start us pos = length us.
Proof.
  intros T L. unfold icu_index. destruct (index_from_text cs us T pos 0 0 ltac:(lia)) as [_ I2]. rewrite I2 by lia. reflexivity.
Qed.
End Count.
