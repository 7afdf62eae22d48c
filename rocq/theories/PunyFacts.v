(* Punycode: variable-length integers, bias adaptation. *)
From Verif Require Import Base ModelAlgo ModelPuny SpecPuny AlgoFacts.
From Verif Require PctFacts.
Local Open Scope N_scope.
Local Open Scope list_scope.

Lemma w64_small x : x < 2 ^ 64 -> w64 x = x.
Proof. apply N.mod_small. Qed.
Lemma w32_small x : x < 2 ^ 32 -> w32 x = x.
Proof. apply N.mod_small. Qed.

(* ---- digits ------------------------------------------------------------------------------------- *)
Definition digit_of (d : N) : ascii := nth (N.to_nat d) lower_digits " "%char.
Definition below36 : list N := map N.of_nat (seq 0 36).
Lemma below36_in d : d < 36 -> In d below36.
Proof. intros H. apply in_map_iff. exists (N.to_nat d). split; [apply N2Nat.id|]. apply in_seq. lia. Qed.

Lemma encode_digit_ok d : d < 36 -> encode_digit d = Ok (digit_of d).
Proof.
  intros H.
  assert (E : forallb (fun d => match encode_digit d with Ok c => Ascii.eqb c (digit_of d) | _ => false end) below36 = true)
    by (vm_compute; reflexivity).
  rewrite forallb_forall in E. specialize (E d (below36_in d H)). destruct (encode_digit d); try discriminate.
  apply Ascii.eqb_eq in E. congruence.
Qed.
Lemma digit_of_value d : d < 36 -> has_value (digit_of d) d.
Proof.
  intros H. left. unfold digit_of. apply nth_error_nth'. change (length lower_digits) with 36%nat. lia.
Qed.
Lemma has_value_lt c d : has_value c d -> d < 36.
Proof.
  intros [H|H]; assert (nth_error lower_digits (N.to_nat d) <> None \/ nth_error upper_digits (N.to_nat d) <> None) as K
    by (rewrite H; (left; discriminate) || (right; discriminate));
  destruct K as [K|K]; apply nth_error_Some in K;
  change (length lower_digits) with 36%nat in K; change (length upper_digits) with 36%nat in K; lia.
Qed.
Lemma decode_digit_value c d : has_value c d -> decode_digit (code c) = d.
Proof.
  intros H. pose proof (has_value_lt _ _ H) as Hd.
  assert (E : forallb (fun d => match nth_error lower_digits (N.to_nat d), nth_error upper_digits (N.to_nat d) with
     Some a, Some b => (decode_digit (code a) =? d) && (decode_digit (code b) =? d) | _, _ => false end) below36 = true)
    by (vm_compute; reflexivity).
  rewrite forallb_forall in E. specialize (E d (below36_in d Hd)).
  destruct (nth_error lower_digits (N.to_nat d)) as [a|] eqn:Ea; try discriminate.
  destruct (nth_error upper_digits (N.to_nat d)) as [b|] eqn:Eb; try discriminate.
  apply andb_prop in E as [E1 E2]. apply N.eqb_eq in E1, E2.
  destruct H as [H|H]; [rewrite Ea in H | rewrite Eb in H]; injection H as <-; assumption.
Qed.
Lemma decode_digit_le c : decode_digit (code c) <= 36.
Proof.
  revert c. apply (PctFacts.sweep (fun c => decode_digit (code c) <= 36) (fun c => decode_digit (code c) <=? 36)).
  - intros c; apply N.leb_le.
  - vm_compute; reflexivity.
Qed.
Lemma value_decode_digit c : decode_digit (code c) < 36 -> has_value c (decode_digit (code c)).
Proof.
  revert c.
  apply (PctFacts.sweep (fun c => decode_digit (code c) < 36 -> has_value c (decode_digit (code c)))
     (fun c => let d := decode_digit (code c) in negb (d <? 36) ||
        match nth_error lower_digits (N.to_nat d) with Some a => Ascii.eqb a c | None => false end ||
        match nth_error upper_digits (N.to_nat d) with Some a => Ascii.eqb a c | None => false end)).
  - intros c H Hd. cbv zeta in H. apply N.ltb_lt in Hd. rewrite Hd in H. cbn [negb orb] in H.
    apply orb_prop in H as [H|H]; [left|right];
    match type of H with match ?x with _ => _ end = _ => destruct x; [|discriminate] end;
    apply Ascii.eqb_eq in H; congruence.
  - vm_compute; reflexivity.
Qed.
Lemma has_value_fun c d d' : has_value c d -> has_value c d' -> d = d'.
Proof. intros H H'. apply decode_digit_value in H, H'. congruence. Qed.

(* ---- thresholds ----------------------------------------------------------------------------------- *)
Lemma threshold_bounds k bias : 1 <= threshold k bias <= 26.
Proof.
  unfold threshold, rfc_tmin, rfc_tmax. destruct (N.leb_spec k bias); [lia|]. destruct (N.leb_spec (bias + 26) k); lia.
Qed.
Lemma clamp_threshold k bias : bias <= 450 -> clamp k bias = threshold k bias.
Proof.
  intros H. unfold clamp, threshold, tmin, tmax, rfc_tmin, rfc_tmax. rewrite w64_small; [reflexivity|].
  apply N.le_lt_trans with 500; [lia|reflexivity].
Qed.

(* ---- bias adaptation ------------------------------------------------------------------------------- *)
Lemma adapt_while_fun delta k r : adapt_while delta k r -> forall r', adapt_while delta k r' -> r = r'.
Proof. induction 1; intros r' H'; inversion H'; subst; auto; lia. Qed.
Lemma adapted_fun delta np ft r r' : adapted delta np ft r -> adapted delta np ft r' -> r = r'.
Proof. intros H H'. eapply adapt_while_fun; eauto. Qed.

Lemma adapt_stop_bound delta : delta <= 455 -> 36 * delta / (delta + 38) <= 35.
Proof. intros H. assert (36 * delta / (delta + 38) < 36); [|lia]. apply N.div_lt_upper_bound; lia. Qed.

Lemma adapt_loop_ok j fuel : forall delta k, delta < 456 * 35 ^ N.of_nat j -> (j < fuel)%nat -> k + 36 * N.of_nat j < 2000 ->
  exists r, adapt_loop fuel delta k = Ok r /\ adapt_while delta k r /\ r <= k + 36 * N.of_nat j + 35.
Proof.
  revert fuel; induction j as [|j IH]; intros [|fuel] delta k Hd Hf Hk; try lia; cbn [adapt_loop];
  change ((base - tmin) * tmax / 2) with 455.
  - change (456 * 35 ^ N.of_nat 0) with 456 in Hd. destruct (N.ltb_spec 455 delta); [lia|].
    pose proof (adapt_stop_bound delta). change (base - tmin + 1) with 36. unfold skew.
    assert (B : 36 * delta / (delta + 38) <= 35) by auto.
    rewrite !w64_small; try (apply N.le_lt_trans with 100000; [lia|reflexivity]).
    2: { rewrite !w64_small; apply N.le_lt_trans with 100000; try lia; reflexivity. }
    eexists; split; [reflexivity|]. split; [|lia]. apply aw_stop. change ((rfc_base - rfc_tmin) * rfc_tmax / 2) with 455; lia.
  - destruct (N.ltb_spec 455 delta).
    + change (base - tmin) with 35. unfold base.
      destruct (IH fuel (delta / 35) (k + 36)) as (r & E & Hw & Hr); try lia.
      { apply N.div_lt_upper_bound; [lia|]. rewrite Nat2N.inj_succ, N.pow_succ_r' in Hd. lia. }
      exists r. rewrite w32_small by (apply N.le_lt_trans with 2000; [lia|reflexivity]).
      split; [exact E|]. split; [|lia].
      apply aw_step; [change ((rfc_base - rfc_tmin) * rfc_tmax / 2) with 455; lia|]. exact Hw.
    + pose proof (adapt_stop_bound delta). change (base - tmin + 1) with 36. unfold skew.
      assert (B : 36 * delta / (delta + 38) <= 35) by auto.
      rewrite !w64_small; try (apply N.le_lt_trans with 100000; [lia|reflexivity]).
      2: { rewrite !w64_small; apply N.le_lt_trans with 100000; try lia; reflexivity. }
      eexists; split; [reflexivity|]. split; [|lia]. apply aw_stop. change ((rfc_base - rfc_tmin) * rfc_tmax / 2) with 455; lia.
Qed.

Lemma adapt_ok delta np ft : delta < 2 ^ 64 -> 0 < np ->
  exists r, adapt delta np ft = Ok r /\ adapted delta np ft r /\ r <= 450.
Proof.
  intros Hd Hn. unfold adapt. destruct (N.eqb_spec np 0); [lia|].
  rewrite N.shiftr_div_pow2. change (2 ^ 1) with 2. change damp with rfc_damp.
  set (d := if ft then delta / rfc_damp else delta / 2).
  assert (Hd2 : d <= 2 ^ 63 - 1).
  { subst d. change (2 ^ 63) with 9223372036854775808. change (2 ^ 64) with 18446744073709551616 in Hd. unfold rfc_damp. destruct ft.
    - assert (delta / 700 < 9223372036854775808); [|lia]. apply N.div_lt_upper_bound; lia.
    - assert (delta / 2 < 9223372036854775808); [|lia]. apply N.div_lt_upper_bound; lia. }
  assert (Hq : d / np <= d). { apply N.div_le_upper_bound; [lia|]. nia. }
  rewrite w64_small by (change (2 ^ 64) with 18446744073709551616; change (2 ^ 63) with 9223372036854775808 in Hd2; lia).
  destruct (adapt_loop_ok 11 fuel64 (d + d / np) 0) as (r & E & Hw & Hr).
  - apply N.lt_trans with (2 ^ 64); [change (2 ^ 64) with 18446744073709551616; change (2 ^ 63) with 9223372036854775808 in Hd2; lia|].
    vm_compute. reflexivity.
  - unfold fuel64; lia.
  - cbn; lia.
  - exists r. split; [exact E|]. split; [exact Hw|]. cbn in Hr. lia.
Qed.

(* ---- writing a variable-length integer -------------------------------------------------------------- *)
Lemma encode_vli_loop_ok f : forall fuel k q bias out, q < 10 ^ N.of_nat f -> (f < fuel)%nat -> q < 2 ^ 64 -> bias <= 450 ->
  k + 36 * N.of_nat f < 100000 ->
  exists word, encode_vli_loop fuel k q bias out = Ok (out ++ word) /\ vli bias k q word /\ (forall c, In c word -> In c lower_digits).
Proof.
  induction f as [|f IH]; intros [|fuel] k q bias out Hq Hf H64 Hb Hk; try lia; cbn [encode_vli_loop];
  rewrite (clamp_threshold k bias Hb); pose proof (threshold_bounds k bias) as Ht; set (t := threshold k bias) in *.
  - change (10 ^ N.of_nat 0) with 1 in Hq. assert (q = 0) as -> by lia. destruct (N.ltb_spec 0 t); [|lia].
    rewrite w32_small by reflexivity. rewrite encode_digit_ok by lia. cbn [bind].
    exists [digit_of 0]. split; [reflexivity|]. split; [apply vli_last; [apply digit_of_value; lia|exact H]|].
    intros c [<-|[]]. apply nth_In. cbn; lia.
  - destruct (N.ltb_spec q t).
    + rewrite w32_small by (apply N.lt_trans with 36; [lia|reflexivity]). rewrite encode_digit_ok by lia. cbn [bind].
      exists [digit_of q]. split; [reflexivity|]. split; [apply vli_last; [apply digit_of_value; lia|exact H]|].
      intros c [<-|[]]. apply nth_In. change (length lower_digits) with 36%nat. lia.
    + change base with 36. destruct (N.ltb_spec 36 t); [lia|]. destruct (N.eqb_spec (36 - t) 0); [lia|].
      assert (Hm : (q - t) mod (36 - t) < 36 - t) by (apply N.mod_lt; lia).
      rewrite (w64_small (t + _)) by (apply N.lt_trans with 36; [lia|reflexivity]).
      rewrite (w32_small (t + _)) by (apply N.lt_trans with 36; [lia|reflexivity]).
      rewrite (encode_digit_ok (t + _)) by lia. cbn [bind].
      assert (Hdm : q - t = (36 - t) * ((q - t) / (36 - t)) + (q - t) mod (36 - t)) by (apply N.div_mod'; lia).
      set (q' := (q - t) / (36 - t)) in *. set (r := (q - t) mod (36 - t)) in *.
      assert (Hq' : 10 * q' <= q) by nia.
      rewrite w32_small by (apply N.lt_trans with 200000; [lia|reflexivity]).
      destruct (IH fuel (k + 36) q' bias (out ++ [digit_of (t + r)])) as (word & E & Hv & Hl); try lia.
      { rewrite Nat2N.inj_succ, N.pow_succ_r' in Hq. lia. }
      exists (digit_of (t + r) :: word). split; [rewrite E, <- app_assoc; reflexivity|]. split.
      * apply vli_more with (t + r) q'; fold t; [apply digit_of_value; lia|lia| |exact Hv]. unfold rfc_base. nia.
      * intros c [<-|Hc]; [|auto]. apply nth_In. change (length lower_digits) with 36%nat. lia.
Qed.
Lemma encode_vli_ok q bias out : q < 2 ^ 64 -> bias <= 450 ->
  exists word, encode_vli q bias out = Ok (out ++ word) /\ vli bias rfc_base q word /\ (forall c, In c word -> In c lower_digits).
Proof.
  intros Hq Hb. apply (encode_vli_loop_ok 20); auto.
  - apply N.lt_trans with (2 ^ 64); [exact Hq|vm_compute; reflexivity].
  - unfold fuel64; lia.
  - vm_compute; reflexivity.
Qed.

(* ---- reading one -------------------------------------------------------------------------------------- *)
Lemma vli_fun bias k q word : vli bias k q word -> forall q' rest word' rest', vli bias k q' word' ->
  word ++ rest = word' ++ rest' -> q = q' /\ word = word'.
Proof.
  induction 1 as [k q c Hc Hq|k q d q1 c s Hc Hd Eq Hv IH]; intros q' rest word' rest' H' E; inversion H'; subst;
  cbn [app] in E; injection E as <- E.
  - split; [eapply has_value_fun; eauto|reflexivity].
  - assert (q = d) by (eapply has_value_fun; eauto). lia.
  - assert (d = q') by (eapply has_value_fun; eauto). lia.
  - assert (d = d0) as <- by (eapply has_value_fun; eauto). edestruct IH as [-> ->]; eauto.
Qed.
Lemma vli_nonempty bias k q word : vli bias k q word -> word <> [].
Proof. destruct 1; discriminate. Qed.
Lemma vli_digits bias k q word : vli bias k q word -> forall c, In c word -> exists d, has_value c d.
Proof. induction 1; intros x [<-|Hx]; eauto. destruct Hx. Qed.

(* sound: a result is the value of a prefix; total: no fault *)
Lemma decode_vli_loop_sound s : forall j w v bias, bias <= 450 -> v <= size_max -> 10 ^ N.of_nat j <= w <= size_max ->
  match decode_vli_loop s (36 * (N.of_nat j + 1)) w v bias with
  | Ok (inl (v', rest)) => exists word q, s = word ++ rest /\ vli bias (36 * (N.of_nat j + 1)) q word /\ v' = v + w * q /\ v' <= size_max
  | Ok (inr _) => True
  | _ => False
  end.
Proof.
  induction s as [|c s IH]; intros j w v bias Hb Hv Hw; cbn [decode_vli_loop]; [exact I|].
  pose proof (decode_digit_le c) as Hle. change base with 36. set (d := decode_digit (code c)) in *.
  destruct (N.ltb_spec 36 d); [lia|]. destruct (N.leb_spec 36 d); [exact I|].
  assert (Hval : has_value c d) by (apply value_decode_digit; lia).
  assert (0 < w). { apply N.lt_le_trans with (10 ^ N.of_nat j); [|lia]. apply N.neq_0_lt_0, N.pow_nonzero. lia. }
  destruct (N.eqb_spec w 0); [lia|]. destruct (N.ltb_spec ((size_max - v) / w) d) as [|Hover]; [exact I|].
  assert (Hsum : v + d * w <= size_max).
  { pose proof (N.mul_div_le (size_max - v) w). nia. }
  assert (Hsm : size_max + 1 = 2 ^ 64) by reflexivity.
  rewrite (w64_small (d * w)) by lia. rewrite (w64_small (v + d * w)) by lia.
  rewrite (clamp_threshold _ bias Hb). set (k := 36 * (N.of_nat j + 1)) in *.
  pose proof (threshold_bounds k bias) as Ht. destruct (N.ltb_spec d (threshold k bias)) as [Hlast|Hmore].
  - exists [c], d. split; [reflexivity|]. split; [apply vli_last; auto|]. split; [lia|exact Hsum].
  - destruct (N.eqb_spec (36 - threshold k bias) 0); [lia|].
    destruct (N.ltb_spec (size_max / (36 - threshold k bias)) w) as [|Hw2]; [exact I|].
    assert (Hww : w * (36 - threshold k bias) <= size_max).
    { pose proof (N.mul_div_le size_max (36 - threshold k bias)). nia. }
    rewrite (w64_small (w * _)) by lia.
    assert (Hj : N.of_nat j < 20).
    { destruct (N.lt_ge_cases (N.of_nat j) 20) as [|Hj]; [assumption|]. exfalso.
      assert (10 ^ 20 <= 10 ^ N.of_nat j) by (apply N.pow_le_mono_r; lia).
      assert (size_max < 10 ^ 20) by (vm_compute; reflexivity). lia. }
    rewrite w32_small by (subst k; apply N.lt_trans with 10000; [lia|reflexivity]).
    specialize (IH (S j) (w * (36 - threshold k bias)) (v + d * w) bias Hb Hsum).
    replace (36 * (N.of_nat (S j) + 1)) with (k + 36) in IH by (subst k; lia).
    assert (Hpow : 10 ^ N.of_nat (S j) <= w * (36 - threshold k bias) <= size_max).
    { rewrite Nat2N.inj_succ, N.pow_succ_r'. nia. }
    specialize (IH Hpow). destruct (decode_vli_loop s (k + 36) _ _ bias) as [[[v' rest]|e]|f|]; auto.
    destruct IH as (word & q & -> & Hvl & -> & Hmax).
    exists (c :: word), (d + (36 - threshold k bias) * q). split; [reflexivity|].
    split; [apply vli_more with d q; auto|]. split; [nia|exact Hmax].
Qed.

(* complete: a word whose value fits is read *)
Lemma decode_vli_loop_complete bias k q word : vli bias k q word -> forall rest j w v, k = 36 * (N.of_nat j + 1) -> bias <= 450 ->
  0 < w <= 35 ^ N.of_nat j -> 10 ^ N.of_nat j <= w -> w <= size_max -> v + w * q <= size_max ->
  decode_vli_loop (word ++ rest) k w v bias = Ok (inl (v + w * q, rest)).
Proof.
  induction 1 as [k q c Hc Hq|k q d q1 c s Hc Hd Eq Hv IH]; intros rest j w v -> Hb Hw Hw10 Hwm Hmax; cbn [app decode_vli_loop];
  pose proof (has_value_lt _ _ Hc) as Hlt; rewrite (decode_digit_value _ _ Hc); change base with 36;
  set (k := 36 * (N.of_nat j + 1)) in *;
  pose proof (threshold_bounds k bias) as Ht; rewrite (clamp_threshold _ bias Hb);
  assert (Hsm : size_max + 1 = 2 ^ 64) by reflexivity.
  - destruct (N.ltb_spec 36 q); [lia|]. destruct (N.leb_spec 36 q); [lia|]. destruct (N.eqb_spec w 0); [lia|].
    destruct (N.ltb_spec ((size_max - v) / w) q) as [Hov|_].
    { exfalso. assert (q <= (size_max - v) / w); [|lia]. apply N.div_le_lower_bound; nia. }
    rewrite (w64_small (q * w)) by nia. rewrite (w64_small (v + q * w)) by nia.
    destruct (N.ltb_spec q (threshold k bias)); [|lia]. do 3 f_equal. nia.
  - assert (Hdq : d <= q) by lia.
    assert (Hdw : d * w <= w * q) by nia.
    destruct (N.ltb_spec 36 d); [lia|]. destruct (N.leb_spec 36 d); [lia|]. destruct (N.eqb_spec w 0); [lia|].
    destruct (N.ltb_spec ((size_max - v) / w) d) as [Hov|_].
    { exfalso. assert (d <= (size_max - v) / w); [|lia]. apply N.div_le_lower_bound; nia. }
    rewrite (w64_small (d * w)) by nia. rewrite (w64_small (v + d * w)) by nia.
    destruct (N.ltb_spec d (threshold k bias)); [lia|]. destruct (N.eqb_spec (36 - threshold k bias) 0); [lia|].
    assert (Hww : w * (36 - threshold k bias) <= size_max).
    { destruct (N.le_gt_cases 18 (threshold k bias)) as [H18|H18].
      - apply N.le_trans with (d * w); [|lia]. nia.
      - assert (Hj : N.of_nat j < 12).
        { unfold threshold in H18. destruct (N.leb_spec k bias); [unfold k in *; lia|].
          destruct (N.leb_spec (bias + rfc_tmax) k); unfold rfc_tmax in *; [lia|]. unfold k in *; lia. }
        apply N.le_trans with (35 ^ N.of_nat j * 35); [nia|].
        rewrite N.mul_comm, <- N.pow_succ_r'. apply N.le_trans with (35 ^ 12); [|vm_compute; discriminate].
        apply N.pow_le_mono_r; lia. }
    destruct (N.ltb_spec (size_max / (36 - threshold k bias)) w) as [Hov|_].
    { exfalso. assert (w <= size_max / (36 - threshold k bias)); [|lia]. apply N.div_le_lower_bound; nia. }
    rewrite (w64_small (w * _)) by lia.
    assert (Hj : N.of_nat j < 20).
    { destruct (N.lt_ge_cases (N.of_nat j) 20) as [|Hj]; [assumption|]. exfalso.
      assert (10 ^ 20 <= 10 ^ N.of_nat j) by (apply N.pow_le_mono_r; lia).
      assert (size_max < 10 ^ 20) by (vm_compute; reflexivity). lia. }
    rewrite w32_small by (subst k; apply N.lt_trans with 10000; [lia|reflexivity]).
    rewrite (IH rest (S j)); clear IH; auto.
    + do 3 f_equal. rewrite Eq. change rfc_base with 36. nia.
    + unfold k, rfc_base. lia.
    + rewrite Nat2N.inj_succ, N.pow_succ_r'. nia.
    + rewrite Nat2N.inj_succ, N.pow_succ_r'. nia.
    + rewrite Eq in Hmax. change rfc_base with 36 in Hmax. nia.
Qed.

Lemma decode_vli_complete bias q word rest v : vli bias rfc_base q word -> bias <= 450 -> v + q <= size_max ->
  decode_vli (word ++ rest) v bias = Ok (inl (v + q, rest)).
Proof.
  intros H Hb Hm. unfold decode_vli. rewrite (decode_vli_loop_complete bias base q word H rest 0); auto; try (cbn; lia).
  - do 3 f_equal. lia.
  - lia.
Qed.
Lemma decode_vli_sound s v bias : bias <= 450 -> v <= size_max ->
  match decode_vli s v bias with
  | Ok (inl (v', rest)) => exists word q, s = word ++ rest /\ vli bias rfc_base q word /\ v' = v + q /\ v' <= size_max
  | Ok (inr _) => True
  | _ => False
  end.
Proof.
  intros Hb Hv. pose proof (decode_vli_loop_sound s 0 1 v bias Hb Hv) as H. unfold decode_vli.
  change (36 * (N.of_nat 0 + 1)) with base in H.
  assert (Hw : 10 ^ N.of_nat 0 <= 1 <= size_max) by (split; [cbn; lia|vm_compute; discriminate]). specialize (H Hw).
  destruct (decode_vli_loop s base 1 v bias) as [[[v' rest]|e]|f|]; auto.
  destruct H as (word & q & -> & Hvl & -> & Hm). exists word, q. repeat split; auto. lia. 
Qed.
