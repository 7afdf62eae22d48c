(* Facts about ModelWork.v: forgetting the counters gives ModelPuny.v, and bounds of the counters. *)
From Verif Require Import Base ModelAlgo ModelPuny ModelWork SpecPuny PunyFacts PunyEnc PunyLoop.
From Verif Require AlgoFacts ModelParts PartsDec PunyProps.
From Coq Require Import Sorting.Sorted FinFun.
Local Open Scope N_scope.

Definition erase {A} (x : outcome (A * work)) : outcome A := do (a, _) <- x; Ok a.
Lemma erase_inv {A} (x : outcome (A * work)) a : erase x = Ok a -> exists w, x = Ok (a, w).
Proof. destruct x as [[a' w]| |]; cbn; intros H; inversion H; eauto. Qed.

(* ---- erasure -------------------------------------------------------------------------------------------- *)
Lemma vli_erase fuel : forall k q bias out w, erase (encode_vli_loop_w fuel k q bias out w) = encode_vli_loop fuel k q bias out.
Proof.
  induction fuel as [|fuel IH]; intros; [reflexivity|]. cbn [encode_vli_loop_w encode_vli_loop].
  destruct (q <? clamp k bias). { destruct (encode_digit (w32 q)); reflexivity. }
  destruct (base <? clamp k bias); [reflexivity|]. destruct (base - clamp k bias =? 0); [reflexivity|].
  destruct (encode_digit _); cbn [bind]; [apply IH|reflexivity|reflexivity].
Qed.
Lemma adapt_erase fuel : forall d k w, erase (adapt_loop_w fuel d k w) = adapt_loop fuel d k.
Proof.
  induction fuel as [|fuel IH]; intros; [reflexivity|]. cbn [adapt_loop_w adapt_loop].
  destruct ((base - tmin) * tmax / 2 <? d); [apply IH|reflexivity].
Qed.
Lemma adapt_w_erase d n f w : erase (adapt_w d n f w) = adapt d n f.
Proof. unfold adapt_w, adapt. destruct (n =? 0); [reflexivity|apply adapt_erase]. Qed.
Lemma bind_erase {A B} (x : outcome (A * work)) (y : outcome A) (f : A * work -> outcome (B * work)) g :
  erase x = y -> (forall a w, erase (f (a, w)) = g a) -> erase (do r <- x; f r) = (do a <- y; g a).
Proof. intros <- H. destruct x as [[a w]| |]; cbn; auto. Qed.
Lemma pass_erase range : forall n nb s w, erase (encode_pass_w range n nb s w) = encode_pass range n nb s.
Proof.
  induction range as [|c range IH]; intros; [reflexivity|]. cbn [encode_pass_w encode_pass].
  destruct (c <? n); [apply IH|]. destruct (c =? n); [|apply IH].
  apply bind_erase; [apply vli_erase|]. intros out w1. apply bind_erase; [apply adapt_w_erase|]. intros bias w2. apply IH.
Qed.
Lemma loop_erase ms range : forall n nb s w, erase (encode_loop_w ms range n nb s w) = encode_loop ms range n nb s.
Proof.
  induction ms as [|m ms IH]; intros; [reflexivity|]. cbn [encode_loop_w encode_loop].
  destruct (m <? n); [reflexivity|]. apply bind_erase; [apply pass_erase|]. intros s' w'. apply IH.
Qed.
Lemma encode_erase u plain : erase (encode_w u plain) = encode u plain.
Proof.
  unfold encode_w, encode. destruct (plain && _); [reflexivity|].
  apply bind_erase; [apply loop_erase|]. reflexivity.
Qed.
Lemma dvli_erase s : forall k w v b u, erase (decode_vli_loop_w s k w v b u) = decode_vli_loop s k w v b.
Proof.
  induction s as [|c s IH]; intros; [reflexivity|]. cbn [decode_vli_loop_w decode_vli_loop].
  repeat match goal with |- erase (if ?x then _ else _) = _ => destruct x end; try reflexivity. apply IH.
Qed.
Lemma copy_basic_erase s : forall out u, fst (copy_basic_w s out u) = copy_basic s out.
Proof. induction s as [|c s IH]; intros; cbn; [reflexivity|]. destruct (is_basic_code_point (code c)); [apply IH|reflexivity]. Qed.
Lemma plain_erase s u : erase (copy_plain_ascii_part_w s u) = copy_plain_ascii_part s.
Proof.
  unfold copy_plain_ascii_part_w, copy_plain_ascii_part. destruct (find_last_bidi _ s) as [[b e]| |]; cbn [bind]; try reflexivity.
  destruct (Nat.eqb b e); [reflexivity|]. rewrite <- (copy_basic_erase (firstn b s) [] (read (N.of_nat (length s - b)) u)).
  destruct (copy_basic_w _ _ _) as [[out|err] u']; reflexivity.
Qed.
Lemma dloop_erase fuel : forall inp n i b out u, erase (decode_loop_w fuel inp n i b out u) = decode_loop fuel inp n i b out.
Proof.
  induction fuel as [|fuel IH]; intros; destruct inp as [|c inp]; try reflexivity. cbn [decode_loop_w decode_loop].
  apply bind_erase; [apply dvli_erase|]. intros [[i' inp']|err] u1; [|reflexivity].
  destruct (i' <? i); [reflexivity|]. apply bind_erase; [apply adapt_w_erase|]. intros bias u2.
  destruct (2 ^ 32 - 1 <? n); [reflexivity|]. destruct (2 ^ 32 - 1 - n <? _); [reflexivity|].
  destruct (string_insert _ _ _); cbn [bind]; [apply IH|reflexivity|reflexivity].
Qed.
Lemma decode_erase s : erase (decode_w s) = decode s.
Proof.
  unfold decode_w, decode. apply bind_erase; [apply plain_erase|]. intros [[out inp]|err] u; [apply dloop_erase|reflexivity].
Qed.

(* ---- encode ------------------------------------------------------------------------------------------------ *)
Lemma vli_count f : forall fuel k q bias out w r w', q < 10 ^ N.of_nat f -> bias <= 450 ->
  encode_vli_loop_w fuel k q bias out w = Ok (r, w') ->
  exists c, w' = write c w /\ N.of_nat (length r) = N.of_nat (length out) + c /\ c <= N.of_nat f + 1.
Proof.
  induction f as [|f IH]; intros [|fuel] k q bias out w r w' Hq Hb; cbn [encode_vli_loop_w]; try discriminate;
  rewrite (clamp_threshold k bias Hb); pose proof (threshold_bounds k bias) as Ht; set (t := threshold k bias) in *;
  (destruct (N.ltb_spec q t) as [L|L];
   [destruct (encode_digit (w32 q)); cbn [bind]; intros E; inversion E; subst; exists 1; rewrite app_length; cbn [length]; repeat split; lia|]).
  { change (10 ^ N.of_nat 0) with 1 in Hq. lia. }
  change base with 36. destruct (36 <? t); [discriminate|]. destruct (36 - t =? 0); [discriminate|].
  destruct (encode_digit _) as [d| |]; cbn [bind]; try discriminate. intros E. apply IH in E; auto.
  - destruct E as (c & -> & H1 & H2). exists (1 + c). rewrite app_length in H1. cbn [length] in H1. split; [|lia].
    unfold write; cbn [reads writes moves loops]. f_equal. lia.
  - rewrite Nat2N.inj_succ, N.pow_succ_r' in Hq. apply N.div_lt_upper_bound; [lia|].
    apply N.lt_le_trans with (10 * 10 ^ N.of_nat f); [lia|]. apply N.mul_le_mono_r. lia.
Qed.
Lemma adapt_count j : forall fuel d k w r w', d < 456 * 35 ^ N.of_nat j -> adapt_loop_w fuel d k w = Ok (r, w') ->
  exists c, w' = loop c w /\ c <= N.of_nat j.
Proof.
  induction j as [|j IH]; intros [|fuel] d k w r w' Hd; cbn [adapt_loop_w]; try discriminate;
  change ((base - tmin) * tmax / 2) with 455; destruct (N.ltb_spec 455 d) as [L|L];
  try (intros E; inversion E; subst; exists 0; unfold loop; rewrite N.add_0_r; destruct w'; split; [reflexivity|lia]).
  { change (456 * 35 ^ N.of_nat 0) with 456 in Hd. lia. }
  intros E. apply IH in E.
  - destruct E as (c & -> & H). exists (1 + c). split; [|lia]. unfold loop; cbn [reads writes moves loops]. f_equal. lia.
  - change (base - tmin) with 35. apply N.div_lt_upper_bound; [lia|]. rewrite Nat2N.inj_succ, N.pow_succ_r' in Hd. lia.
Qed.
Lemma w64_lt x : w64 x < 2 ^ 64. Proof. apply N.mod_lt. discriminate. Qed.
Lemma adapt_w_count d n f w r w' : d < 2 ^ 64 -> adapt_w d n f w = Ok (r, w') ->
  r <= 450 /\ exists c, w' = loop c w /\ c <= 11.
Proof.
  intros Hd E. split.
  - assert (E' : adapt d n f = Ok r) by (rewrite <- (adapt_w_erase d n f w), E; reflexivity).
    destruct (N.eq_dec n 0) as [->|Hn]; [unfold adapt in E'; discriminate|].
    destruct (adapt_ok d n f Hd) as (r' & E2 & _ & Hr); [lia|]. rewrite E' in E2. injection E2 as <-. exact Hr.
  - unfold adapt_w in E. destruct (n =? 0); [discriminate|]. apply (adapt_count 11) in E; [exact E|].
    apply N.lt_trans with (2 ^ 64); [apply w64_lt|reflexivity].
Qed.

Lemma work_eq w a b c d : reads w = a -> writes w = b -> moves w = c -> loops w = d -> w = Work a b c d.
Proof. destruct w; cbn; intros; subst; reflexivity. Qed.

Definition occurrences (n : N) (l : list N) : N := N.of_nat (length (filter (N.eqb n) l)).
Lemma pass_count range : forall n nb s w s' w', e_delta s < 2 ^ 64 -> e_bias s <= 450 ->
  encode_pass_w range n nb s w = Ok (s', w') ->
  e_delta s' < 2 ^ 64 /\ e_bias s' <= 450
  /\ reads w' = reads w + N.of_nat (length range)
  /\ writes w' + N.of_nat (length (e_out s)) = writes w + N.of_nat (length (e_out s'))
  /\ N.of_nat (length (e_out s')) <= N.of_nat (length (e_out s)) + 21 * occurrences n range
  /\ moves w' = moves w /\ loops w' <= loops w + 11 * occurrences n range.
Proof.
  induction range as [|c range IH]; intros n nb s w s' w' Hd Hb; cbn [encode_pass_w].
  { intros E; inversion E; subst. cbn. repeat split; auto; try lia; try (unfold occurrences; cbn; lia). }
  destruct (N.ltb_spec c n) as [L|L].
  { intros E. apply IH in E; cbn [e_out e_i e_delta e_bias] in *; auto; [|apply w64_lt].
    destruct E as (A1 & A2 & A3 & A4 & A5 & A6 & A7). unfold occurrences in *. cbn [filter].
    destruct (N.eqb_spec n c); [lia|]. cbn [reads writes moves loops read length] in *. rewrite Nat2N.inj_succ. repeat split; auto; lia. }
  destruct (N.eqb_spec c n) as [->|Ne].
  2: { intros E. apply IH in E; auto.
    destruct E as (A1 & A2 & A3 & A4 & A5 & A6 & A7). unfold occurrences in *. cbn [filter].
    destruct (N.eqb_spec n c); [congruence|]. cbn [reads writes moves loops read length] in *. rewrite Nat2N.inj_succ. repeat split; auto; lia. }
  destruct (encode_vli_w _ _ _ _) as [[out w1]| |] eqn:E1; cbn [bind]; try discriminate.
  destruct (adapt_w _ _ _ _) as [[bias w2]| |] eqn:E2; cbn [bind]; try discriminate.
  intros E. apply (vli_count 20) in E1; auto.
  2: { apply N.lt_trans with (2 ^ 64); [exact Hd|reflexivity]. }
  destruct E1 as (c1 & -> & B1 & B2). apply adapt_w_count in E2; auto. destruct E2 as (C1 & c2 & -> & C2).
  apply IH in E; cbn [e_out e_i e_delta e_bias] in *; auto; [|reflexivity].
  destruct E as (A1 & A2 & A3 & A4 & A5 & A6 & A7). unfold occurrences in *. cbn [filter]. rewrite N.eqb_refl.
  cbn [reads writes moves loops read write loop length] in *. rewrite !Nat2N.inj_succ. repeat split; auto; lia.
Qed.

Definition occurrences_of (ms l : list N) : N := fold_right (fun m a => occurrences m l + a) 0 ms.
Lemma loop_count ms range : forall n nb s w out w', e_delta s < 2 ^ 64 -> e_bias s <= 450 ->
  encode_loop_w ms range n nb s w = Ok (out, w') ->
  reads w' = reads w + N.of_nat (length range) * N.of_nat (length ms)
  /\ writes w' + N.of_nat (length (e_out s)) = writes w + N.of_nat (length out)
  /\ N.of_nat (length out) <= N.of_nat (length (e_out s)) + 21 * occurrences_of ms range
  /\ moves w' = moves w /\ loops w' <= loops w + 11 * occurrences_of ms range.
Proof.
  induction ms as [|m ms IH]; intros n nb s w out w' Hd Hb; cbn [encode_loop_w].
  { intros E; inversion E; subst. cbn. repeat split; lia. }
  destruct (m <? n); [discriminate|]. destruct (encode_pass_w _ _ _ _ _) as [[s1 w1]| |] eqn:E1; cbn [bind]; try discriminate.
  intros E. apply pass_count in E1; cbn [e_out e_i e_delta e_bias] in *; auto; [|apply w64_lt].
  destruct E1 as (A1 & A2 & A3 & A4 & A5 & A6 & A7). apply IH in E; cbn [e_out e_i e_delta e_bias] in *; auto; [|apply w64_lt].
  destruct E as (B1 & B2 & B3 & B4 & B5). cbn [occurrences_of fold_right length]. fold (occurrences_of ms range).
  rewrite Nat2N.inj_succ. repeat split; nia.
Qed.
Lemma occurrences_le ms l (P : N -> bool) : NoDup ms -> (forall m, In m ms -> P m = true) -> occurrences_of ms l <= N.of_nat (length (filter P l)).
Proof.
  intros ND H. induction l as [|c l IH].
  - clear. induction ms as [|m ms IH]; [cbn; lia|]. exact IH.
  - assert (E : occurrences_of ms (c :: l) <= occurrences_of ms l + (if in_dec N.eq_dec c ms then 1 else 0)).
    { clear IH H. induction ms as [|m ms IH]; [cbn; lia|]. inversion ND; subst. specialize (IH H2).
      cbn [occurrences_of fold_right]. fold (occurrences_of ms (c :: l)). fold (occurrences_of ms l).
      unfold occurrences at 1. cbn [filter]. destruct (N.eqb_spec m c) as [->|Ne].
      - cbn [length]. rewrite Nat2N.inj_succ. fold (occurrences c l).
        destruct (in_dec N.eq_dec c ms); [contradiction|]. destruct (in_dec N.eq_dec c (c :: ms)) as [_|N0]; [lia|]. destruct N0; left; reflexivity.
      - fold (occurrences m l). destruct (in_dec N.eq_dec c ms) as [I|I]; destruct (in_dec N.eq_dec c (m :: ms)) as [J|J]; try lia.
        destruct J; right; exact I. }
    destruct (in_dec N.eq_dec c ms) as [I|I]; cbn [filter].
    + rewrite (H c I). cbn [length]. lia.
    + destruct (P c); cbn [length]; lia.
Qed.
Lemma sorted_nodup l : StronglySorted N.lt l -> NoDup l.
Proof.
  induction 1 as [|a l S IH F]; constructor; auto. intros I. rewrite Forall_forall in F. specialize (F a I). lia.
Qed.
Lemma same_length (a b : list N) : NoDup a -> NoDup b -> (forall x, In x a <-> In x b) -> length a = length b.
Proof.
  intros A B H. apply Nat.le_antisymm; apply NoDup_incl_length; auto; intros x; apply H.
Qed.

Lemma encode_count u plain e b w ds : encode_w u plain = Ok (e, b, w) -> NoDup ds -> (forall c, In c ds <-> In c u /\ 0x80 <= c) ->
  let basic := N.of_nat (length (filter (fun c => c <? 0x80) u)) in
  let others := N.of_nat (length (filter (fun c => 0x80 <=? c) u)) in
  reads w = N.of_nat (length u) * (1 + N.of_nat (length ds))
  /\ writes w = N.of_nat (length e) /\ N.of_nat (length e) <= basic + 1 + 21 * others /\ moves w = 0 /\ loops w <= 11 * others.
Proof.
  intros E ND Hds basic others. unfold encode_w in E.
  assert (F : filter (fun cp => negb (is_basic_code_point cp)) u = filter (fun c => 0x80 <=? c) u).
  { apply filter_ext. intros c. unfold is_basic_code_point. rewrite N.leb_antisym. reflexivity. }
  rewrite F in E.
  assert (Hm : length ds = length (sort_and_remove_duplicates (filter (fun c => 0x80 <=? c) u))).
  { apply same_length; auto.
    - apply sorted_nodup, unique_strict, sort_sorted.
    - intros x. unfold sort_and_remove_duplicates. rewrite unique_in, sort_in, filter_In, Hds, N.leb_le. tauto. }
  assert (Ho : occurrences_of (sort_and_remove_duplicates (filter (fun c => 0x80 <=? c) u)) u <= others).
  { apply occurrences_le; [apply sorted_nodup, unique_strict, sort_sorted|].
    intros m. unfold sort_and_remove_duplicates. rewrite unique_in, sort_in, filter_In. tauto. }
  destruct (plain && _) eqn:EP.
  - apply andb_prop in EP as [_ EP]. inversion E; subst. cbn [reads writes moves loops write read no_work].
    rewrite !map_length. unfold is_basic_code_point. fold basic.
    destruct (filter (fun c => 0x80 <=? c) u) eqn:E0; [|discriminate]. cbn in Hm. rewrite Hm. repeat split; try lia.
  - destruct (encode_loop_w _ _ _ _ _ _) as [[out w1]| |] eqn:E1; cbn [bind] in E; try discriminate.
    injection E as <- <- <-. apply loop_count in E1; cbn [e_delta e_bias] in *; [|reflexivity|discriminate].
    destruct E1 as (B1 & B2 & B3 & B4 & B5). cbn [e_out] in *. rewrite <- Hm in B1.
    unfold is_basic_code_point in *. fold basic in B1, B2, B3, B4, B5.
    rewrite ?map_length in *.
    destruct (0 <? w64 basic); cbn [reads writes moves loops write read no_work] in *; rewrite ?app_length, ?map_length in *;
    cbn [length] in *; fold basic in B2, B3; repeat split; try nia; try lia.
Qed.

(* ---- decode ------------------------------------------------------------------------------------------------ *)
Lemma dvli_count s : forall k w v b u r u', decode_vli_loop_w s k w v b u = Ok (r, u') ->
  exists c, u' = read c u /\ c <= N.of_nat (length s)
  /\ (forall v' s', r = inl (v', s') -> v' < 2 ^ 64 /\ N.of_nat (length s) = N.of_nat (length s') + c /\ 1 <= c).
Proof.
  induction s as [|c s IH]; intros k w v b u r u'; cbn [decode_vli_loop_w].
  { intros E; inversion E; subst. exists 0. split; [|split; [cbn; lia|discriminate]]. destruct u' as [q1 q2 q3 q4]; unfold read; cbn [reads writes moves loops]. f_equal; lia. }
  cbn [length]. rewrite Nat2N.inj_succ.
  repeat match goal with |- (if ?x then _ else _) = _ -> _ => destruct x end; try discriminate;
  try (intros E; inversion E; subst; exists 1; split; [reflexivity|split; [lia|intros v' s' X; inversion X; subst; repeat split; try apply w64_lt; lia]]).
  intros E. apply IH in E. destruct E as (m & -> & A & B). exists (1 + m). split; [|split; [lia|]].
  - unfold read; cbn [reads writes moves loops]. f_equal. lia.
  - intros v' s' X. destruct (B v' s' X) as (B1 & B2 & B3). repeat split; auto; lia.
Qed.
Lemma insert_length l p c l' : string_insert l p c = Ok l' -> length l' = S (length l).
Proof.
  unfold string_insert. destruct (N.ltb_spec (N.of_nat (length l)) p) as [L|L]; [discriminate|]. intros E. inversion E.
  rewrite app_length. cbn [length]. rewrite firstn_length, skipn_length. lia.
Qed.
Lemma dloop_count fuel : forall inp n i b out u r u', decode_loop_w fuel inp n i b out u = Ok (r, u') ->
  exists x, x <= N.of_nat (length inp) /\ reads u' <= reads u + N.of_nat (length inp)
  /\ writes u' = writes u + x /\ moves u' <= moves u + x * (N.of_nat (length out) + N.of_nat (length inp))
  /\ loops u' <= loops u + 11 * N.of_nat (length inp)
  /\ (forall final, r = inl final -> N.of_nat (length final) = N.of_nat (length out) + x /\ reads u' = reads u + N.of_nat (length inp)).
Proof.
  induction fuel as [|fuel IH]; intros inp n i b out u r u'; destruct inp as [|c0 inp0].
  1,3: cbn; intros E; inversion E; subst; exists 0; repeat split; try lia; injection H as <-; lia.
  { discriminate. }
  cbn [decode_loop_w]. set (inp := c0 :: inp0).
  destruct (decode_vli_w inp i b u) as [[r1 u1]| |] eqn:E1; cbn [bind]; try discriminate.
  apply dvli_count in E1. destruct E1 as (c & -> & A1 & A2).
  destruct r1 as [[i' inp']|err].
  2: { intros E; inversion E; subst. exists 0. cbn [reads writes moves loops read]. repeat split; try lia; discriminate. }
  destruct (A2 _ _ eq_refl) as (A3 & A4 & A5). clear A2.
  destruct (i' <? i); [discriminate|].
  destruct (adapt_w _ _ _ _) as [[bias u2]| |] eqn:E2; cbn [bind]; try discriminate.
  apply adapt_w_count in E2; [|apply N.le_lt_trans with i'; [lia|exact A3]]. destruct E2 as (_ & c2 & -> & B2).
  destruct (2 ^ 32 - 1 <? n); [discriminate|]. destruct (2 ^ 32 - 1 - n <? _).
  { intros E; inversion E; subst. exists 0. cbn [reads writes moves loops read loop]. repeat split; try lia; discriminate. }
  set (idx := i' mod _). destruct (string_insert _ _ _) as [out'| |] eqn:E3; cbn [bind]; try discriminate.
  apply insert_length in E3. intros E. apply IH in E.
  destruct E as (x & D1 & D2 & D3 & D4 & D5 & D6). cbn [reads writes moves loops read loop write move] in *.
  exists (1 + x). rewrite E3, Nat2N.inj_succ in *.
  assert (M : moves u + (N.of_nat (length out) - idx) + x * (N.succ (N.of_nat (length out)) + N.of_nat (length inp')) <=
    moves u + (1 + x) * (N.of_nat (length out) + N.of_nat (length inp))).
  { assert (x * (N.succ (N.of_nat (length out)) + N.of_nat (length inp')) <= x * (N.of_nat (length out) + N.of_nat (length inp))) by (apply N.mul_le_mono_l; lia).
    lia. }
  repeat split; try lia; destruct (D6 _ H); lia.
Qed.
Lemma copy_count s : forall out u r u', copy_basic_w s out u = (r, u') ->
  exists c d, u' = write d (read c u) /\ c <= N.of_nat (length s) /\ d <= c
  /\ (forall o, r = inl o -> d = N.of_nat (length s) /\ length o = (length out + length s)%nat).
Proof.
  induction s as [|a s IH]; intros out u r u'; cbn [copy_basic_w].
  { intros E; inversion E; subst. exists 0, 0. repeat split; try (cbn; lia).
    - destruct u' as [q1 q2 q3 q4]; unfold read, write; cbn [reads writes moves loops]. f_equal; lia.
    - injection H as <-. cbn; lia. }
  cbn [length]. rewrite Nat2N.inj_succ. destruct (is_basic_code_point (code a)).
  - intros E. apply IH in E. destruct E as (c & d & -> & A & B & C). exists (1 + c), (1 + d). repeat split; try lia.
    + unfold read, write; cbn [reads writes moves loops]. f_equal; lia.
    + destruct (C _ H). lia.
    + destruct (C _ H) as [_ C']. rewrite C', app_length. cbn [length]. lia.
  - intros E; inversion E; subst. exists 1, 0. repeat split; try lia; try discriminate. unfold read, write; cbn [reads writes moves loops]. f_equal; lia.
Qed.
Lemma decode_count s r w : decode_w s = Ok (r, w) ->
  let n := N.of_nat (length s) in
  reads w <= 2 * n /\ writes w <= n /\ moves w <= n * n /\ loops w <= 11 * n
  /\ (forall u, r = inl u -> writes w = N.of_nat (length u)).
Proof.
  intros E n. unfold decode_w, copy_plain_ascii_part_w in E.
  destruct (find_last_bidi _ s) as [[b e]| |] eqn:E1; cbn [bind] in E; try discriminate.
  destruct (Nat.eqb_spec b e) as [Q|Q].
  - cbn [bind] in E. apply dloop_count in E. destruct E as (x & A1 & A2 & A3 & A4 & A5 & A6).
    cbn [reads writes moves loops read no_work length] in *. fold n in A1, A2, A4, A5.
    change (N.of_nat 0) with 0 in *. rewrite !N.add_0_l in *. repeat split; try lia.
    + apply N.le_trans with (1 := A4). apply N.mul_le_mono; lia.
    + intros u H. destruct (A6 u H). lia.
  - assert (Hb : (b < length s)%nat /\ e = length s).
    { rewrite AlgoFacts.find_last_bidi_forward in E1. injection E1 as E1. apply AlgoFacts.find_last_spec in E1.
      destruct E1 as (-> & _ & _ & L). split; [lia|reflexivity]. }
    destruct Hb as [Hb ->].
    destruct (copy_basic_w _ _ _) as [[out|err] u1] eqn:E2; cbn [bind] in E; apply copy_count in E2;
    destruct E2 as (c & d & -> & A1 & A2 & A3); rewrite firstn_length, Nat.min_l in A1, A3 by lia.
    + destruct (A3 _ eq_refl) as [Ed Eo]. cbn [length] in Eo. apply dloop_count in E.
      destruct E as (x & B1 & B2 & B3 & B4 & B5 & B6).
      assert (Hk : length (skipn (S b) s) = (length s - S b)%nat) by apply skipn_length.
      rewrite Hk in *.
      cbn [reads writes moves loops read write no_work] in *. rewrite Eo in *. rewrite ?Nat.add_0_l in *. subst n. repeat split; try lia.
      * apply N.le_trans with (1 := B4). rewrite N.add_0_l. apply N.mul_le_mono; lia.
      * intros u H. destruct (B6 u H). lia.
    + inversion E; subst. cbn [reads writes moves loops read write no_work]. subst n. repeat split; try lia. discriminate.
Qed.

(* ---- the quadratic bounds are reached -------------------------------------------------------------------------- *)
Lemma digit_a v b u s : v < 2 ^ 64 -> b = 0 \/ b = 72 -> decode_vli_w ("a"%char :: s) v b u = Ok (inl (v, s), read 1 u).
Proof.
  intros Hv Hb. unfold decode_vli_w. cbn [decode_vli_loop_w]. change (decode_digit (code "a")) with 0.
  change (base <? 0) with false. change (base <=? 0) with false. change (1 =? 0) with false. cbv iota.
  rewrite N.div_1_r. destruct (N.ltb_spec (size_max - v) 0); [lia|]. change (w64 (0 * 1)) with 0. rewrite N.add_0_r, w64_small by exact Hv.
  assert (C : 0 <? clamp base b = true) by (destruct Hb as [-> | ->]; reflexivity). rewrite C. reflexivity.
Qed.
Lemma adapt_zero np ft u : np <> 0 -> adapt_w 0 np ft u = Ok (0, u).
Proof.
  intros H. unfold adapt_w. destruct (N.eqb_spec np 0); [contradiction|].
  assert (Z : (if ft then 0 / damp else N.shiftr 0 1) = 0) by (destruct ft; reflexivity). rewrite Z.
  rewrite N.div_0_l by exact H. reflexivity.
Qed.
Lemma all_a k : forall fuel i b pre post u, (k <= fuel)%nat -> b = 0 \/ b = 72 -> i = N.of_nat (length pre) ->
  N.of_nat (length pre) + N.of_nat (length post) + N.of_nat k < 2 ^ 32 ->
  exists w, decode_loop_w fuel (repeat "a"%char k) 128 i b (pre ++ post) u = Ok (inl (pre ++ repeat 128 k ++ post), w)
  /\ moves w = moves u + N.of_nat k * N.of_nat (length post).
Proof.
  induction k as [|k IH]; intros fuel i b pre post u Hf Hb Hi Hl.
  { destruct fuel; cbn; exists u; split; reflexivity || lia. }
  destruct fuel as [|fuel]; [lia|]. change (2 ^ 32) with 4294967296 in Hl.
  cbn [repeat decode_loop_w]. rewrite digit_a; auto.
  2: { apply N.lt_trans with (2 ^ 32); [change (2 ^ 32) with 4294967296; lia|reflexivity]. }
  cbn [bind]. rewrite N.ltb_irrefl, N.sub_diag.
  rewrite adapt_zero.
  2: { rewrite w64_small; [lia|]. rewrite app_length. apply N.lt_trans with (2 ^ 32); [change (2 ^ 32) with 4294967296; lia|reflexivity]. }
  cbn [bind]. change (2 ^ 32 - 1 <? 128) with false. cbv iota.
  rewrite (w64_small (N.of_nat (length (pre ++ post)) + 1)).
  2: { rewrite app_length. apply N.lt_trans with (2 ^ 32); [change (2 ^ 32) with 4294967296; lia|reflexivity]. }
  rewrite (N.div_small i) by (rewrite app_length; lia). rewrite (N.mod_small i) by (rewrite app_length; lia).
  change (2 ^ 32 - 1 - 128 <? 0) with false. cbv iota. rewrite N.add_0_r. change (w64 128) with 128. change (w32 128) with 128.
  assert (IN : string_insert (pre ++ post) i 128 = Ok ((pre ++ [128]) ++ post)).
  { unfold string_insert. destruct (N.ltb_spec (N.of_nat (length (pre ++ post))) i) as [L|L]; [rewrite app_length in L; lia|].
    subst i. rewrite Nat2N.id, firstn_app, firstn_all, Nat.sub_diag, skipn_app, skipn_all, Nat.sub_diag. cbn [firstn skipn app].
    rewrite app_nil_r, <- app_assoc. reflexivity. }
  rewrite IN. cbn [bind].
  rewrite (w64_small (i + 1)).
  2: { apply N.lt_trans with (2 ^ 32); [change (2 ^ 32) with 4294967296; lia|reflexivity]. }
  destruct (IH fuel (i + 1) 0 (pre ++ [128]) post
    (write 1 (move (N.of_nat (length (pre ++ post)) - i) (read 1 u)))) as (w & E & M).
  - lia.
  - left; reflexivity.
  - rewrite app_length. cbn [length]. lia.
  - rewrite app_length. cbn [length]. change (2 ^ 32) with 4294967296. lia.
  - exists w. split.
    + rewrite E. rewrite <- app_assoc. reflexivity.
    + rewrite M. cbn [reads writes moves loops read write move]. rewrite app_length, Nat2N.inj_add, Nat2N.inj_succ. lia.
Qed.
Lemma copy_all s : (forall c, In c s -> code c < 0x80) -> forall out u, exists w, copy_basic_w s out u = (inl (out ++ map code s), w) /\ moves w = moves u.
Proof.
  induction s as [|c s IH]; intros H out u; cbn [copy_basic_w map]; [rewrite app_nil_r; eauto|].
  unfold is_basic_code_point. destruct (N.ltb_spec (code c) 0x80) as [L|L]; [|specialize (H c (or_introl eq_refl)); lia].
  destruct (IH (fun x X => H x (or_intror X)) (out ++ [code c]) (write 1 (read 1 u))) as (w & E & M).
  exists w. rewrite E, <- app_assoc. split; [reflexivity|exact M].
Qed.
Lemma decode_quadratic k : N.of_nat k < 2 ^ 31 -> exists s u w, length s = (2 * k + 1)%nat /\ decode_w s = Ok (inl u, w)
  /\ length u = (2 * k)%nat /\ moves w = N.of_nat k * N.of_nat k.
Proof.
  intros Hk. exists (repeat "b"%char k ++ "-"%char :: repeat "a"%char k), (repeat 128 k ++ repeat 98 k).
  assert (NI : ~ In "-"%char (repeat "a"%char k)) by (intros I; apply repeat_spec in I; discriminate).
  assert (FL : find_last_bidi (fun c => Ascii.eqb c delimiter) (repeat "b"%char k ++ "-"%char :: repeat "a"%char k)
    = Ok (k, length (repeat "b"%char k ++ "-"%char :: repeat "a"%char k))).
  { rewrite AlgoFacts.find_last_bidi_forward. f_equal. destruct (find_last_forward _ _) as [p e] eqn:E. pose proof (AlgoFacts.find_last_spec _ _ _ _ E) as (-> & A & B & C).
    f_equal. destruct (Nat.eq_dec p (length (repeat "b"%char k ++ "-"%char :: repeat "a"%char k))) as [Q|Q].
    - exfalso. assert (F : Ascii.eqb "-"%char delimiter = false) by (apply (proj1 B Q); apply in_or_app; right; left; reflexivity). discriminate.
    - eapply AlgoFacts.last_at_unique; [apply A; lia|].
      exists (repeat "b"%char k), "-"%char, (repeat "a"%char k). repeat split.
      + rewrite repeat_length. reflexivity.
      + intros x I. apply repeat_spec in I. subst x. discriminate. }
  assert (LN : length (repeat "b"%char k ++ "-"%char :: repeat "a"%char k) = (2 * k + 1)%nat).
  { rewrite app_length. cbn [length]. rewrite !repeat_length. lia. }
  unfold decode_w, copy_plain_ascii_part_w. rewrite FL. cbn [bind]. rewrite LN.
  destruct (Nat.eqb_spec k (2 * k + 1)) as [Q|_]; [lia|].
  rewrite firstn_app, repeat_length, Nat.sub_diag, firstn_O, app_nil_r.
  rewrite firstn_all2 by (rewrite repeat_length; lia).
  destruct (copy_all (repeat "b"%char k)) with (out := @nil N) (u := read (N.of_nat (2 * k + 1 - k)) no_work) as (w1 & E1 & M1).
  { intros c I. apply repeat_spec in I. subst c. reflexivity. }
  rewrite E1. cbn [bind].
  assert (SK : skipn (S k) (repeat "b"%char k ++ "-"%char :: repeat "a"%char k) = repeat "a"%char k).
  { rewrite skipn_app, repeat_length. replace (S k - k)%nat with 1%nat by lia.
    rewrite skipn_all2 by (rewrite repeat_length; lia). reflexivity. }
  rewrite SK. cbn [app].
  assert (MC : map code (repeat "b"%char k) = repeat 98 k) by (clear; induction k; cbn [repeat map]; [reflexivity|f_equal; assumption]).
  rewrite MC. change (2 ^ 31) with 2147483648 in Hk.
  destruct (all_a k (S (length (repeat "a"%char k))) 0 72 [] (repeat 98 k) w1) as (w & E & M).
  - rewrite repeat_length. lia.
  - right; reflexivity.
  - reflexivity.
  - cbn [length]. rewrite repeat_length. change (2 ^ 32) with 4294967296. lia.
  - exists w. split; [reflexivity|]. split; [exact E|]. split; [rewrite app_length, !repeat_length; lia|].
    rewrite M, M1, repeat_length. cbn [moves read no_work]. lia.
Qed.
Lemma encode_quadratic k : N.of_nat k < 2 ^ 31 -> exists u e b w, length u = k /\ (forall c, In c u -> 0x80 <= c < 2 ^ 32)
  /\ encode_w u true = Ok (e, b, w) /\ reads w = N.of_nat k * (1 + N.of_nat k).
Proof.
  intros Hk. set (u := map (fun i => 128 + N.of_nat i) (seq 0 k)). change (2 ^ 31) with 2147483648 in Hk.
  assert (Hu : forall c, In c u -> 0x80 <= c < 2 ^ 32).
  { intros c I. apply in_map_iff in I. destruct I as (i & <- & I). apply in_seq in I. change (2 ^ 32) with 4294967296. lia. }
  assert (Lu : length u = k) by (subst u; rewrite map_length, seq_length; reflexivity).
  assert (ND : NoDup u).
  { apply FinFun.Injective_map_NoDup; [intros a b; lia|apply seq_NoDup]. }
  assert (X : exists e b, encode u true = Ok (e, b)).
  { destruct (encode_ok u true) as [(_ & _ & E)|(d & E & _)]; eauto.
    - rewrite Lu. change p32 with 4294967296. lia.
    - intros c I. apply Hu in I. exact (proj2 I). }
  destruct X as (e & b & E). rewrite <- encode_erase in E. apply erase_inv in E. destruct E as [w E].
  exists u, e, b, w. repeat split; auto; try (apply Hu; assumption).
  destruct (encode_count u true e b w u E ND) as (R & _); [|rewrite R, Lu; reflexivity].
  intros c. split; [|tauto]. intros I. split; [exact I|apply Hu; exact I].
Qed.
Lemma encode_both u plain e b : (exists w, encode_w u plain = Ok (e, b, w)) <-> encode u plain = Ok (e, b).
Proof.
  split.
  - intros [w E]. rewrite <- encode_erase, E. reflexivity.
  - intros E. rewrite <- encode_erase in E. apply erase_inv in E. exact E.
Qed.
Lemma decode_both s r : (exists w, decode_w s = Ok (r, w)) <-> decode s = Ok r.
Proof.
  split.
  - intros [w E]. rewrite <- decode_erase, E. reflexivity.
  - intros E. rewrite <- decode_erase in E. apply erase_inv in E. exact E.
Qed.
Lemma distinct_exists u : exists ds, NoDup ds /\ (forall c, In c ds <-> In c u /\ 0x80 <= c) /\ (length ds <= length u)%nat.
Proof.
  exists (nodup N.eq_dec (filter (fun c => 0x80 <=? c) u)). split; [apply NoDup_nodup|]. split.
  - intros c. rewrite nodup_In, filter_In, N.leb_le. tauto.
  - apply Nat.le_trans with (length (filter (fun c => 0x80 <=? c) u)); [|apply filter_len_le].
    apply NoDup_incl_length; [apply NoDup_nodup|]. intros x. rewrite nodup_In. auto.
Qed.
Lemma partition_length u : (length (filter (fun c => (c <? 0x80)%N) u) + length (filter (fun c => (0x80 <=? c)%N) u) = length u)%nat.
Proof.
  induction u as [|c u IH]; [reflexivity|]. cbn [filter]. rewrite (N.leb_antisym c 128).
  destruct (c <? 128); cbn [negb length]; lia.
Qed.
Lemma encode_total_work u plain e b w : encode_w u plain = Ok (e, b, w) ->
  let n := N.of_nat (length u) in reads w + writes w + moves w + loops w <= n * n + 33 * n + 1.
Proof.
  intros E n. destruct (distinct_exists u) as (ds & ND & Hd & Hl). destruct (encode_count _ _ _ _ _ ds E ND Hd) as (A & B & C & D & F).
  pose proof (partition_length u) as P. fold n in A.
  assert (n * (1 + N.of_nat (length ds)) <= n * (1 + n)) by (apply N.mul_le_mono_l; lia).
  assert (N.of_nat (length (filter (fun c => c <? 0x80) u)) + N.of_nat (length (filter (fun c => 0x80 <=? c) u)) = n) by lia.
  lia.
Qed.
Lemma decode_total_work s r w : decode_w s = Ok (r, w) ->
  let n := N.of_nat (length s) in reads w + writes w + moves w + loops w <= n * n + 14 * n.
Proof. intros E n. apply decode_count in E. fold n in E. lia. Qed.

(* ---- hosts ------------------------------------------------------------------------------------------------------- *)
Definition total (w : work) : N := reads w + writes w + moves w + loops w.
Lemma total_plus a b : total (plus a b) = total a + total b.
Proof. unfold total, plus; cbn [reads writes moves loops]. lia. Qed.
Lemma total_write k w : total (write k w) = total w + k.
Proof. unfold total, write; cbn [reads writes moves loops]. lia. Qed.
Lemma total_read k w : total (read k w) = total w + k.
Proof. unfold total, read; cbn [reads writes moves loops]. lia. Qed.
Lemma penc_erase fuel : forall range out any w, erase (puny_encoded_loop_w fuel range out any w) = ModelParts.puny_encoded_loop fuel range out any.
Proof.
  induction fuel as [|fuel IH]; intros; [reflexivity|]. cbn [puny_encoded_loop_w ModelParts.puny_encoded_loop].
  destruct (ModelParts.take_while _ range) as [label inp]. rewrite <- (encode_erase label true).
  destruct (encode_w label true) as [[[seg b] w1]| |]; cbn [bind erase]; try reflexivity.
  destruct inp; [reflexivity|apply IH].
Qed.
Lemma pdec_erase fuel : forall s out any w, erase (puny_decoded_loop_w fuel s out any w) = ModelParts.puny_decoded_loop fuel s out any.
Proof.
  induction fuel as [|fuel IH]; intros; [reflexivity|]. cbn [puny_decoded_loop_w ModelParts.puny_decoded_loop].
  destruct (ModelParts.take_while _ s) as [label rest]. destruct (starts_with _ label _).
  - rewrite <- (decode_erase (skipn (length ModelParts.idna_prefix) label)).
    destruct (decode_w _) as [[[u|err] w1]| |]; cbn [bind erase]; try reflexivity.
    destruct (ModelParts.to_utf8 u) as [t| |]; cbn [bind]; try reflexivity. destruct rest; [reflexivity|apply IH].
  - destruct rest; [reflexivity|apply IH].
Qed.
Lemma host_encode_both u e b : (exists w, puny_encoded_w u = Ok (e, b, w)) <-> ModelParts.puny_encoded u = Ok (e, b).
Proof.
  unfold ModelParts.puny_encoded. rewrite <- (penc_erase _ _ _ _ no_work). split.
  - intros [w E]. unfold puny_encoded_w in E. rewrite E. reflexivity.
  - intros E. apply erase_inv in E. exact E.
Qed.
Lemma host_decode_both s t r : (exists w, puny_decoded_w s = Ok (t, r, w)) <-> ModelParts.puny_decoded s = Ok (t, r).
Proof.
  unfold ModelParts.puny_decoded. rewrite <- (pdec_erase _ _ _ _ no_work). split.
  - intros [w E]. unfold puny_decoded_w in E. rewrite E. reflexivity.
  - intros E. apply erase_inv in E. exact E.
Qed.
Lemma take_while_length {A} (f : A -> bool) l a b : ModelParts.take_while f l = (a, b) -> length l = (length a + length b)%nat.
Proof.
  revert a b; induction l as [|x l IH]; intros a b; cbn; [intros E; inversion E; reflexivity|].
  destruct (f x); [|intros E; inversion E; subst; reflexivity].
  destruct (ModelParts.take_while f l) as [a' b']. intros E; inversion E; subst. cbn. rewrite (IH _ _ eq_refl). reflexivity.
Qed.
Lemma penc_count fuel : forall range out any w e b w', puny_encoded_loop_w fuel range out any w = Ok (e, b, w') ->
  let n := N.of_nat (length range) in
  total w' <= total w + n * n + 61 * n + 7 /\ N.of_nat (length e) <= N.of_nat (length out) + 26 * n + 5.
Proof.
  induction fuel as [|fuel IH]; intros range out any w e b w'; [discriminate|]. cbn [puny_encoded_loop_w].
  destruct (ModelParts.take_while _ range) as [label inp] eqn:ET. apply take_while_length in ET.
  destruct (encode_w label true) as [[[seg x] w1]| |] eqn:EE; cbn [bind]; try discriminate.
  pose proof (encode_total_work _ _ _ _ _ EE) as T1. cbv zeta in T1. fold (total w1) in T1.
  assert (LS : N.of_nat (length seg) <= 21 * N.of_nat (length label) + 1).
  { destruct (distinct_exists label) as (ds & ND & Hd & _). destruct (encode_count _ _ _ _ _ ds EE ND Hd) as (_ & _ & C & _).
    pose proof (partition_length label) as P. lia. }
  set (w2 := if x then write (len ModelParts.idna_prefix) (plus w w1) else plus w w1).
  assert (T2 : total w2 <= total w + total w1 + 4).
  { subst w2. destruct x; rewrite ?total_write, total_plus; [change (len ModelParts.idna_prefix) with 4|]; lia. }
  set (o2 := if x then out ++ ModelParts.idna_prefix else out).
  assert (L2 : N.of_nat (length o2) <= N.of_nat (length out) + 4).
  { subst o2. destruct x; [rewrite app_length; change (length ModelParts.idna_prefix) with 4%nat|]; lia. }
  set (m := N.of_nat (length label)) in *.
  destruct inp as [|d inp].
  - intros E. inversion E; subst e w'. rewrite total_write. cbn [length] in ET. rewrite Nat.add_0_r in ET. rewrite ET, app_length. fold m. split; [nia|lia].
  - intros E. apply IH in E. cbv zeta in E. destruct E as [E1 E2]. rewrite !total_write in E1. rewrite !app_length in E2. cbn [length] in E2, ET.
    assert (Hn : N.of_nat (length range) = m + 1 + N.of_nat (length inp)) by lia. cbv zeta. rewrite Hn. split; [nia|lia].
Qed.
Lemma pdec_count fuel : forall s out any w e b w', N.of_nat (length s) < 2 ^ 32 -> puny_decoded_loop_w fuel s out any w = Ok (e, b, w') ->
  let n := N.of_nat (length s) in
  total w' <= total w + n * n + 23 * n + 5 /\ N.of_nat (length e) <= N.of_nat (length out) + 4 * n.
Proof.
  induction fuel as [|fuel IH]; intros s out any w e b w' Hs; [discriminate|]. cbn [puny_decoded_loop_w].
  destruct (ModelParts.take_while _ s) as [label rest] eqn:ET. apply take_while_length in ET.
  set (m := N.of_nat (length label)) in *.
  assert (X : forall t any' w2, total w2 <= total w + m * m + 18 * m + 4 -> N.of_nat (length t) <= 4 * m ->
    match rest with [] => Ok (out ++ t, inl any', w2) | _ :: next => puny_decoded_loop_w fuel next ((out ++ t) ++ ["."%char]) any' (write 1 w2) end = Ok (e, b, w') ->
    total w' <= total w + len s * len s + 23 * len s + 5 /\ N.of_nat (length e) <= N.of_nat (length out) + 4 * len s).
  { intros t any' w2 T2 L2 E. destruct rest as [|d rest].
    - inversion E; subst e w'. cbn [length] in ET. rewrite Nat.add_0_r in ET. rewrite ET, app_length. fold m. split; [nia|lia].
    - apply IH in E; [|cbn [length] in ET; lia]. cbv zeta in E. destruct E as [E1 E2]. rewrite !total_write in E1. rewrite !app_length in E2. cbn [length] in E2, ET.
      assert (Hn : N.of_nat (length s) = m + 1 + N.of_nat (length rest)) by lia. rewrite Hn. split; [nia|lia]. }
  assert (Hn : N.of_nat (length s) = m + N.of_nat (length rest)) by lia.
  destruct (starts_with _ label _).
  - destruct (decode_w _) as [[[u|err] w1]| |] eqn:ED; cbn [bind]; try discriminate;
    pose proof (decode_total_work _ _ _ ED) as T1; cbv zeta in T1; fold (total w1) in T1; rewrite skipn_length in T1;
    (assert (Hk : N.of_nat (length label - length ModelParts.idna_prefix) <= m) by lia);
    set (k := N.of_nat (length label - length ModelParts.idna_prefix)) in *.
    + assert (EU : decode (skipn (length ModelParts.idna_prefix) label) = Ok (inl u)) by (apply decode_both; eauto).
      destruct (PartsDec.to_utf8_ok u) as (t & cs & ok & E1 & R & T).
      { intros c I. refine (proj1 (PunyProps.c21_codes _ _ c EU _ I)). rewrite skipn_length. lia. }
      rewrite E1. cbn [bind]. apply PartsDec.text8_length in T. apply PartsDec.reads32_length in R. rewrite map_length in T.
      assert (Lu : N.of_nat (length u) <= k).
      { pose proof (decode_count _ _ _ ED) as (_ & W & _ & _ & Z). rewrite (Z _ eq_refl), skipn_length in W. exact W. }
      apply X; [|lia]. rewrite total_write, total_plus, total_read. nia.
    + intros E; inversion E; subst. rewrite total_plus, total_read. cbv zeta. rewrite Hn. split; [nia|lia].
  - apply X; [|fold m; lia]. rewrite total_write, !total_read. fold m. nia.
Qed.
Lemma host_encode_count u e b w : puny_encoded_w u = Ok (e, b, w) ->
  let n := N.of_nat (length u) in total w <= n * n + 61 * n + 7 /\ N.of_nat (length e) <= 26 * n + 5.
Proof. intros E. apply penc_count in E. cbv zeta in *. change (total no_work) with 0 in E. cbn [length] in E. lia. Qed.
Lemma host_decode_count s e b w : N.of_nat (length s) < 2 ^ 32 -> puny_decoded_w s = Ok (e, b, w) ->
  let n := N.of_nat (length s) in total w <= n * n + 23 * n + 5 /\ N.of_nat (length e) <= 4 * n.
Proof. intros Hs E. apply pdec_count in E; [exact E|exact Hs]. Qed.
