(* The encoders from UTF-32, the UTF-16 decoder, and the transcoders between them *)
From Verif Require Import Base ModelIcu SpecIcu IcuUtf8 IcuRead8.
Local Open Scope N_scope.
Local Open Scope list_scope.

Lemma scalar_cases c : scalar c \/ ~ scalar c.
Proof. unfold scalar. lia. Qed.
Lemma surrogate_spec c : is_surrogate c = true <-> 0xD800 <= c /\ c < 0xE000.
Proof.
  unfold is_surrogate, is_high_surrogate, is_low_surrogate, first_high_surrogate, last_high_surrogate, first_low_surrogate, last_low_surrogate.
  rewrite orb_true_iff, !andb_true_iff, !N.leb_le. lia.
Qed.
Lemma high_spec c : is_high_surrogate c = true <-> high_surrogate c.
Proof.
  unfold is_high_surrogate, first_high_surrogate, last_high_surrogate, high_surrogate.
  rewrite !andb_true_iff, !N.leb_le. lia.
Qed.
Lemma low_spec c : is_low_surrogate c = true <-> low_surrogate c.
Proof.
  unfold is_low_surrogate, first_low_surrogate, last_low_surrogate, low_surrogate.
  rewrite !andb_true_iff, !N.leb_le. lia.
Qed.
Lemma bool_false b (P : Prop) : (b = true <-> P) -> ~ P -> b = false.
Proof. destruct b; [intros H N; exfalso; apply N, H; reflexivity|reflexivity]. Qed.
Lemma not_surrogate c : c < 0xD800 \/ 0xE000 <= c -> is_surrogate c = false.
Proof. intros H. apply (bool_false _ _ (surrogate_spec c)). lia. Qed.

Lemma lor_tag a k t : a < 2 ^ k -> N.lor a (N.shiftl t k) = t * 2 ^ k + a.
Proof. apply lor_low. Qed.
Lemma tag_80 a : a < 64 -> u8 (N.lor a 0x80) = 0x80 + a.
Proof. intros H. change 0x80 with (N.shiftl 2 6) at 1. rewrite lor_low by exact H. unfold u8. change (2 ^ 8) with 256. nlia. Qed.
Lemma tag_c0 a : a < 32 -> u8 (N.lor a 0xc0) = 0xC0 + a.
Proof. intros H. change 0xc0 with (N.shiftl 6 5) at 1. rewrite lor_low by exact H. unfold u8. change (2 ^ 8) with 256. change (2 ^ 5) with 32. nlia. Qed.
Lemma tag_e0 a : a < 16 -> u8 (N.lor a 0xe0) = 0xE0 + a.
Proof. intros H. change 0xe0 with (N.shiftl 14 4) at 1. rewrite lor_low by exact H. unfold u8. change (2 ^ 8) with 256. change (2 ^ 4) with 16. nlia. Qed.
Lemma tag_f0 a : a < 8 -> u8 (N.lor a 0xf0) = 0xF0 + a.
Proof. intros H. change 0xf0 with (N.shiftl 30 3) at 1. rewrite lor_low by exact H. unfold u8. change (2 ^ 8) with 256. change (2 ^ 3) with 8. nlia. Qed.
Lemma mod64 a : a mod 64 < 64. Proof. apply N.mod_lt. discriminate. Qed.

Lemma write2_form c : 0x80 <= c -> c < 0x800 -> utf8_of c (write2 c).
Proof.
  intros. unfold write2. rewrite N.shiftr_div_pow2, land_3f.
  rewrite tag_c0 by nlia. rewrite tag_80 by apply mod64. now apply utf8_2.
Qed.
Lemma write3_form c : 0x800 <= c -> c < 0x10000 -> scalar c -> utf8_of c (write3 c).
Proof.
  intros. unfold write3. rewrite !N.shiftr_div_pow2, !land_3f.
  rewrite tag_e0 by nlia. rewrite !tag_80 by apply mod64. now apply utf8_3.
Qed.
Lemma write4_form c : 0x10000 <= c -> c < 0x110000 -> utf8_of c (write4 c).
Proof.
  intros. unfold write4. rewrite !N.shiftr_div_pow2, !land_3f.
  rewrite tag_f0 by nlia. rewrite !tag_80 by apply mod64. now apply utf8_4.
Qed.

(* what every encoder from UTF-32 does *)
Record encoder (O : tcdr) (form : N -> list N -> Prop) : Prop := {
  enc_good : forall o c, scalar c -> exists o' w, tc_op O o c = Ok (o', w) /\ form c w /\ tc_wf O o' = tc_wf O o;
  enc_bad : forall o c, ~ scalar c -> exists o' w, tc_op O o c = Ok (o', w) /\ form fffd w /\ tc_wf O o' = false;
  enc_end : forall o, tc_end O o = Ok (o, []);
  enc_init : tc_wf O (tc_init O) = true }.

Lemma ltb_t a b : a < b -> (a <? b) = true. Proof. apply N.ltb_lt. Qed.
Lemma ltb_f a b : b <= a -> (a <? b) = false. Proof. apply N.ltb_ge. Qed.
Lemma t32_8_good fuel wf c : scalar c -> exists w, t32_8_call (S fuel) wf c = Ok (wf, w) /\ utf8_of c w.
Proof.
  intros S. cbn [t32_8_call].
  destruct (N.ltb_spec c 0x80).
  { exists [u8 c]. split; [reflexivity|]. replace (u8 c) with c by (unfold u8; change (2 ^ 8) with 256; nlia). now apply utf8_1. }
  destruct (N.ltb_spec c 0x800). { exists (write2 c). split; [reflexivity|now apply write2_form]. }
  rewrite not_surrogate by (unfold scalar in S; lia).
  destruct (N.ltb_spec c 0x10000). { exists (write3 c). split; [reflexivity|now apply write3_form]. }
  assert (H2 : c < 0x110000) by (unfold scalar in S; lia).
  assert (E : (c <=? max_code_point) = true) by (apply N.leb_le; unfold max_code_point; lia). rewrite E.
  exists (write4 c). split; [reflexivity|now apply write4_form].
Qed.
Lemma encoder_8 : encoder t32_8 utf8_of.
Proof.
  split.
  - intros o c S. destruct (t32_8_good 1 o c S) as (w & E & U). exists o, w. repeat split; assumption.
  - intros o c S. destruct (t32_8_good 0 false fffd fffd_scalar) as (w & E & U).
    assert (B : t32_8_call 2 o c = t32_8_call 1 false replacement_char).
    { change (t32_8_call 2 o c) with (if c <? 0x80 then Ok (o, [u8 c]) else if c <? 0x800 then Ok (o, write2 c)
        else if is_surrogate c then t32_8_call 1 false replacement_char else if c <? 0x10000 then Ok (o, write3 c)
        else if c <=? max_code_point then Ok (o, write4 c) else t32_8_call 1 false replacement_char).
      unfold scalar in S. rewrite !ltb_f by lia. destruct (is_surrogate c) eqn:Z; [reflexivity|].
      assert (~ (0xD800 <= c /\ c < 0xE000)) by (rewrite <- surrogate_spec; congruence).
      rewrite ltb_f by lia. assert (L : (c <=? max_code_point) = false) by (apply N.leb_gt; unfold max_code_point; lia).
      rewrite L. reflexivity. }
    exists false, w. cbn [tc_op t32_8]. rewrite B. repeat split; assumption.
  - reflexivity.
  - reflexivity.
Qed.

Lemma t32_16_good fuel wf c : scalar c -> exists w, t32_16_call (S fuel) wf c = Ok (wf, w) /\ utf16_of c w.
Proof.
  intros S. cbn [t32_16_call]. rewrite not_surrogate by (unfold scalar in S; lia).
  assert (E : (max_code_point <? c) = false) by (apply N.ltb_ge; unfold scalar in S; unfold max_code_point; lia). rewrite E. cbn [orb].
  destruct (N.leb_spec c 0xFFFF).
  - exists [u16 c]. split; [reflexivity|]. replace (u16 c) with c by (unfold u16; change (2 ^ 16) with 65536; nlia). apply utf16_1; [lia|exact S].
  - eexists. split; [reflexivity|]. assert (c < 0x110000) by (unfold scalar in S; lia).
    replace (u16 (0xD7C0 + N.shiftr c 10)) with (0xD800 + (c - 0x10000) / 2 ^ 10)
      by (rewrite N.shiftr_div_pow2; unfold u16; change (2 ^ 16) with 65536; nlia).
    replace (u16 (first_low_surrogate + N.land c 0x3FF)) with (0xDC00 + (c - 0x10000) mod 2 ^ 10)
      by (change 0x3FF with (N.ones 10); rewrite N.land_ones; unfold u16, first_low_surrogate; change (2 ^ 16) with 65536; nlia).
    apply utf16_2; lia.
Qed.
Lemma encoder_16 : encoder t32_16 utf16_of.
Proof.
  split.
  - intros o c S. destruct (t32_16_good 1 o c S) as (w & E & U). exists o, w. repeat split; assumption.
  - intros o c S. destruct (t32_16_good 0 o fffd fffd_scalar) as (w & E & U).
    assert (B : is_surrogate c || (max_code_point <? c) = true).
    { unfold scalar in S. unfold max_code_point. destruct (N.ltb_spec 0x10FFFF c); [apply orb_true_r|].
      rewrite orb_false_r. apply surrogate_spec. lia. }
    exists false, w. cbn [tc_op t32_16]. change (t32_16_call 2 o c) with
      (if is_surrogate c || (max_code_point <? c) then
         do (_, w) <- t32_16_call 1 o replacement_char; Ok (false, w)
       else if c <=? 0xFFFF then Ok (o, [u16 c])
       else Ok (o, [u16 (0xD7C0 + N.shiftr c 10); u16 (first_low_surrogate + N.land c 0x3FF)])).
    rewrite B. change replacement_char with fffd. rewrite E. cbn [bind]. repeat split; assumption.
  - reflexivity.
  - reflexivity.
Qed.
Lemma encoder_32 : encoder t32_32 utf32_of.
Proof.
  split.
  - intros o c S. exists o, [c]. cbn [tc_op t32_32]. unfold t32_32_call.
    rewrite not_surrogate by (unfold scalar in S; lia).
    assert (E : (max_code_point <? c) = false) by (apply N.ltb_ge; unfold scalar in S; unfold max_code_point; lia). rewrite E.
    repeat split. exact S.
  - intros o c S. exists false, [fffd]. cbn [tc_op t32_32]. unfold t32_32_call.
    assert (B : (max_code_point <? c) || is_surrogate c = true).
    { unfold scalar in S. unfold max_code_point. destruct (N.ltb_spec 0x10FFFF c); [reflexivity|].
      cbn [orb]. apply surrogate_spec. lia. }
    rewrite B. repeat split. apply fffd_scalar.
  - reflexivity.
  - reflexivity.
Qed.

(* --- the UTF-16 decoder -------------------------------------------------------------------------------------- *)
Inductive inv16 : list N -> s16 -> Prop :=
| i16_none h wf : inv16 [] (S16 h false wf)
| i16_high u wf : high_surrogate u -> inv16 [u] (S16 (u - 0xD800) true wf).
Lemma adjusted_ok u : high_surrogate u -> adjusted_high u = Ok (u - 0xD800).
Proof.
  unfold high_surrogate, adjusted_high, first_high_surrogate. intros H.
  rewrite ltb_f by lia. cbv zeta. change (2 ^ 16 - 1) with 65535. change (2 ^ high_bits) with 1024.
  rewrite !ltb_t by lia. reflexivity.
Qed.
Definition step_result16 (p : list N) (u : N) (s s' : s16) (w : list N) : Prop :=
  (p = [] /\ high_surrogate u /\ s' = S16 (u - 0xD800) true (s16_wf s) /\ w = [])
  \/ (exists h, s' = S16 h false (s16_wf s) /\ exists c, utf16_of c (p ++ [u]) /\ w = [c])
  \/ (exists h, p = [] /\ low_surrogate u /\ s' = S16 h false false /\ w = [fffd])
  \/ (exists h, p <> [] /\ ~ low_surrogate u /\ high_surrogate u /\ h = u - 0xD800 /\ s' = S16 h true false /\ w = [fffd])
  \/ (exists h, p <> [] /\ ~ low_surrogate u /\ s' = S16 h false false /\ utf16_of u [u] /\ w = [fffd; u]).
Lemma pair_value u v : high_surrogate u -> low_surrogate v ->
  utf16_of (N.shiftl (u - 0xD800) high_bits + (v - first_low_surrogate) + 0x10000) [u; v].
Proof.
  unfold high_surrogate, low_surrogate, first_low_surrogate, high_bits. intros H L.
  rewrite N.shiftl_mul_pow2. change (2 ^ 10) with 1024. set (c := (u - 0xD800) * 1024 + (v - 0xDC00) + 0x10000).
  assert (E : [u; v] = [0xD800 + (c - 0x10000) / 2 ^ 10; 0xDC00 + (c - 0x10000) mod 2 ^ 10]) by (repeat f_equal; unfold c; nlia).
  rewrite E. apply utf16_2; unfold c; lia.
Qed.
Lemma step16 p s u : inv16 p s -> u < 2 ^ 16 -> exists s' w, t16_32_call s u = Ok (s', w) /\ step_result16 p u s s' w.
Proof.
  change (2 ^ 16) with 65536. intros I H. unfold t16_32_call. destruct I as [h wf|x wf Hx]; cbn [s16_has s16_wf s16_high negb].
  - destruct (is_high_surrogate u) eqn:Hh.
    { apply high_spec in Hh. rewrite (adjusted_ok _ Hh). cbn [bind]. do 2 eexists. split; [reflexivity|]. left. auto. }
    assert (~ high_surrogate u) by (rewrite <- high_spec; congruence).
    destruct (is_low_surrogate u) eqn:Hl.
    { apply low_spec in Hl. do 2 eexists. split; [reflexivity|]. right; right; left. eexists. repeat split; try reflexivity; apply Hl. }
    assert (~ low_surrogate u) by (rewrite <- low_spec; congruence).
    do 2 eexists. split; [reflexivity|]. right; left. exists h. split; [reflexivity|]. exists u. split; [|reflexivity].
    apply utf16_1; [lia|]. unfold high_surrogate, low_surrogate, scalar in *. lia.
  - destruct (is_low_surrogate u) eqn:Hl.
    { apply low_spec in Hl. do 2 eexists. split; [reflexivity|]. right; left. exists 0. split; [reflexivity|]. eexists. split; [|reflexivity].
      cbn [app]. apply pair_value; assumption. }
    assert (NL : ~ low_surrogate u) by (rewrite <- low_spec; congruence).
    destruct (is_high_surrogate u) eqn:Hh.
    { apply high_spec in Hh. rewrite (adjusted_ok _ Hh). cbn [bind]. do 2 eexists. split; [reflexivity|]. right; right; right; left.
      exists (u - 0xD800). repeat (split; [first [discriminate|reflexivity|assumption]|]). reflexivity. }
    assert (~ high_surrogate u) by (rewrite <- high_spec; congruence).
    do 2 eexists. split; [reflexivity|]. right; right; right; right. exists 0.
    split; [discriminate|]. split; [exact NL|]. split; [reflexivity|]. split; [|reflexivity].
    apply utf16_1; [lia|]. unfold high_surrogate, low_surrogate, scalar in *. lia.
Qed.

Definition finish16 (s : s16) (l : list N) : outcome (list N * bool) :=
  do (s1, w) <- feed t16_32 s l; do (s2, w') <- tc_end t16_32 s1; Ok (w ++ w', tc_wf t16_32 s2).
Lemma finish16_cons s u l : finish16 s (u :: l) =
  do (s1, w) <- t16_32_call s u; do (r, ok) <- finish16 s1 l; Ok (w ++ r, ok).
Proof.
  unfold finish16. cbn [feed tc_op t16_32]. destruct (t16_32_call s u) as [[s1 w]| |]; cbn [bind]; try reflexivity.
  change (tc_st t16_32) with s16. destruct (feed t16_32 s1 l) as [[s2 w2]| |]; cbn [bind]; try reflexivity.
  destruct (tc_end t16_32 s2) as [[s3 w3]| |]; cbn [bind]; try reflexivity. now rewrite app_assoc.
Qed.
Lemma finish16_sound l : Forall (fun u => u < 2 ^ 16) l -> forall p s, inv16 p s ->
  exists out ok, finish16 s l = Ok (out, s16_wf s && ok) /\ reads16 (p ++ l) out ok.
Proof.
  induction 1 as [|u l Hu Hl IH]; intros p s I.
  - rewrite app_nil_r. destruct I as [h wf|x wf Hx].
    + exists [], true. cbn. rewrite andb_true_r. split; [reflexivity|constructor].
    + exists [fffd], false. cbn. rewrite andb_f. split; [reflexivity|].
      eapply r16_high; [exact Hx| |constructor]. intros (? & ? & E & _). discriminate.
  - rewrite finish16_cons. destruct (step16 p s u I Hu) as (s' & w & E & R). rewrite E. cbn [bind].
    destruct R as [(-> & Hh & -> & ->)|[(h & -> & c & U & ->)|[(h & -> & L & -> & ->)|[(h & Hp & NL & Hh & -> & -> & ->)|(h & Hp & NL & -> & U & ->)]]]].
    + destruct (IH _ _ (i16_high u (s16_wf s) Hh)) as (out & ok & E' & R'). rewrite E'. cbn [bind s16_wf app].
      exists out, ok. auto.
    + destruct (IH _ _ (i16_none h (s16_wf s))) as (out & ok & E' & R'). rewrite E'. cbn [bind s16_wf].
      exists (c :: out), ok. split; [reflexivity|]. replace (p ++ u :: l) with ((p ++ [u]) ++ l) by (rewrite <- app_assoc; reflexivity).
      now constructor.
    + destruct (IH _ _ (i16_none h false)) as (out & ok & E' & R'). rewrite E'. cbn [bind s16_wf app].
      exists (fffd :: out), false. rewrite andb_f. split; [reflexivity|]. eapply r16_low; eassumption.
    + destruct (IH _ _ (i16_high u false Hh)) as (out & ok & E' & R'). rewrite E'. cbn [bind s16_wf app].
      exists (fffd :: out), false. rewrite andb_f. split; [reflexivity|].
      destruct I as [|x wf Hx]; [contradiction|]. cbn [app]. eapply r16_high; [exact Hx| |exact R'].
      intros (v & r & E1 & Lv). injection E1 as <- <-. contradiction.
    + destruct (IH _ _ (i16_none h false)) as (out & ok & E' & R'). rewrite E'. cbn [bind s16_wf app].
      exists (fffd :: u :: out), false. rewrite andb_f. split; [reflexivity|].
      destruct I as [|x wf Hx]; [contradiction|]. cbn [app]. eapply r16_high; [exact Hx| |].
      * intros (v & r & E1 & Lv). injection E1 as <- <-. contradiction.
      * change (u :: l) with ([u] ++ l). constructor; [exact U|exact R'].
Qed.
(* reads16 determines its result *)
Lemma utf16_shape c w : utf16_of c w ->
  (w = [c] /\ c < 0x10000 /\ ~ high_surrogate c /\ ~ low_surrogate c)
  \/ (exists u v, w = [u; v] /\ high_surrogate u /\ low_surrogate v /\ c = (u - 0xD800) * 1024 + (v - 0xDC00) + 0x10000).
Proof.
  intros [x H S|x H H'].
  - left. unfold scalar, high_surrogate, low_surrogate in *. split; [reflexivity|]. lia.
  - right. do 2 eexists. split; [reflexivity|]. unfold high_surrogate, low_surrogate. nlia.
Qed.
Lemma reads16_fun l out ok : reads16 l out ok -> forall out' ok', reads16 l out' ok' -> out = out' /\ ok = ok'.
Proof.
  induction 1 as [|c w us cs ok U R IH|u us cs ok L R IH|u us cs ok Hh NS R IH]; intros out' ok' R'.
  - inversion R' as [|c' w' us' cs' ok1 U' R1 E| |]; subst; [auto|].
    destruct (utf16_shape _ _ U') as [(-> & _)|(a & b & -> & _)]; discriminate.
  - destruct (utf16_shape _ _ U) as [(-> & Hc & NH & NL)|(a & b & -> & Ha & Hb & Ec)]; cbn [app] in R'.
    + inversion R' as [|c' w' us' cs' ok1 U' R1 E|u' us' cs' ok1 L' R1 E|u' us' cs' ok1 H' NS' R1 E]; subst; try contradiction.
      destruct (utf16_shape _ _ U') as [(-> & _)|(a & b & -> & Ha & _)]; cbn [app] in E; injection E as E1 E2; subst; [|contradiction].
      destruct (IH _ _ R1); split; congruence.
    + inversion R' as [|c' w' us' cs' ok1 U' R1 E|u' us' cs' ok1 L' R1 E|u' us' cs' ok1 H' NS' R1 E]; subst.
      * destruct (utf16_shape _ _ U') as [(-> & _ & NH & _)|(a' & b' & -> & _ & _ & Ec')]; cbn [app] in E.
        { injection E as E1 E2. subst. contradiction. }
        injection E as E1 E2 E3. subst. destruct (IH _ _ R1); split; congruence.
      * unfold high_surrogate, low_surrogate in *. lia.
      * exfalso. apply NS'. exists b, us. auto.
  - inversion R' as [|c' w' us' cs' ok1 U' R1 E|u' us' cs' ok1 L' R1 E|u' us' cs' ok1 H' NS' R1 E]; subst.
    + destruct (utf16_shape _ _ U') as [(-> & _ & _ & NL)|(a' & b' & -> & Ha & _ & _)]; cbn [app] in E; injection E as E1 E2; subst;
        [contradiction|unfold high_surrogate, low_surrogate in *; lia].
    + destruct (IH _ _ R1); split; congruence.
    + unfold high_surrogate, low_surrogate in *; lia.
  - inversion R' as [|c' w' us' cs' ok1 U' R1 E|u' us' cs' ok1 L' R1 E|u' us' cs' ok1 H' NS' R1 E]; subst.
    + destruct (utf16_shape _ _ U') as [(-> & _ & NH & _)|(a' & b' & -> & Ha & Hb & _)]; cbn [app] in E; injection E as E1 E2; subst; [contradiction|].
      exfalso. apply NS. eexists b', _. split; [reflexivity|exact Hb].
    + unfold high_surrogate, low_surrogate in *; lia.
    + destruct (IH _ _ R1); split; congruence.
Qed.
Lemma transcode_16_32_total l : Forall (fun u => u < 2 ^ 16) l -> exists out ok, transcode t16_32 l = Ok (out, ok) /\ reads16 l out ok.
Proof.
  intros B. destruct (finish16_sound l B [] _ (i16_none 0 true)) as (out & ok & E & R). exists out, ok. split; [exact E|exact R].
Qed.
Lemma transcode_16_32 l out ok : Forall (fun u => u < 2 ^ 16) l ->
  (transcode t16_32 l = Ok (out, ok) <-> reads16 l out ok).
Proof.
  intros B. destruct (transcode_16_32_total l B) as (out' & ok' & E & R). rewrite E. split.
  - intros H. injection H as <- <-. exact R.
  - intros R'. destruct (reads16_fun _ _ _ R _ _ R') as [-> ->]. reflexivity.
Qed.
Lemma reads16_true l out : reads16 l out true <-> text utf16_of out l.
Proof.
  split.
  - intros H. remember true as ok eqn:E. revert E. induction H; intros E; try discriminate; constructor; auto.
  - induction 1; constructor; auto.
Qed.
Lemma utf16_scalar c w : utf16_of c w -> scalar c.
Proof. intros []; [assumption|]. unfold scalar. lia. Qed.
Lemma reads16_scalar l out ok : reads16 l out ok -> Forall scalar out.
Proof. induction 1; repeat first [apply Forall_cons|apply Forall_nil]; auto using fffd_scalar. eapply utf16_scalar; eassumption. Qed.
Lemma reads16_flag l out ok : reads16 l out ok -> ok = false -> In fffd out.
Proof. induction 1; intros E; try discriminate; cbn; auto. Qed.

(* --- UTF-32 to anything ---------------------------------------------------------------------------------------- *)
Definition functional (form : N -> list N -> Prop) : Prop := forall c w w', form c w -> form c w' -> w = w'.
Lemma utf8_fun : functional utf8_of.
Proof. intros c w w' [] H'; inversion H'; subst; try reflexivity; lia. Qed.
Lemma utf16_fun : functional utf16_of.
Proof. intros c w w' [] H'; inversion H'; subst; try reflexivity; lia. Qed.
Lemma utf32_fun : functional utf32_of.
Proof. intros c w w' [] H'; inversion H'; subst; reflexivity. Qed.
Lemma text_fun form : functional form -> forall cs w w', text form cs w -> text form cs w' -> w = w'.
Proof.
  intros F cs w w' H; revert w'. induction H as [|c w cs us Hf Ht IH]; intros w' H'; inversion H'; subst; [reflexivity|].
  f_equal; [eapply F; eassumption|auto].
Qed.
Lemma reads32_fun l out ok : reads32 l out ok -> forall out' ok', reads32 l out' ok' -> out = out' /\ ok = ok'.
Proof.
  induction 1 as [|c us cs ok S R IH|c us cs ok S R IH]; intros out' ok' R'; inversion R'; subst; try contradiction; auto;
    match goal with H : reads32 _ _ _ |- _ => destruct (IH _ _ H) end; split; congruence.
Qed.
Lemma reads32_scalar l out ok : reads32 l out ok -> Forall scalar out.
Proof. induction 1; repeat first [apply Forall_cons|apply Forall_nil]; auto using fffd_scalar. Qed.
Lemma reads32_true l out : reads32 l out true <-> l = out /\ Forall scalar l.
Proof.
  split.
  - intros H. remember true as ok eqn:E. revert E. induction H; intros E; try discriminate; [auto|].
    destruct (IHreads32 E) as [-> ?]. auto.
  - intros [<- H]. induction H; constructor; auto.
Qed.
Lemma reads32_total l : exists out ok, reads32 l out ok.
Proof.
  induction l as [|c l (out & ok & IH)]; [do 2 eexists; constructor|].
  destruct (scalar_cases c); do 2 eexists; [eapply r32_good|eapply r32_bad]; eassumption.
Qed.

Section Enc.
Variable O : tcdr.
Variable form : N -> list N -> Prop.
Hypothesis HO : encoder O form.
Lemma enc_feed l out ok : reads32 l out ok -> forall o, exists o' w, feed O o l = Ok (o', w) /\ text form out w /\ tc_wf O o' = tc_wf O o && ok.
Proof.
  induction 1 as [|c us cs ok S R IH|c us cs ok S R IH]; intros o; cbn [feed].
  - exists o, []. rewrite andb_true_r. repeat split. constructor.
  - destruct (enc_good _ _ HO o c S) as (o1 & w1 & E1 & F1 & W1). rewrite E1. cbn [bind].
    destruct (IH o1) as (o2 & w2 & E2 & F2 & W2). rewrite E2. cbn [bind]. do 2 eexists. split; [reflexivity|].
    split; [constructor; assumption|]. rewrite W2, W1. reflexivity.
  - destruct (enc_bad _ _ HO o c S) as (o1 & w1 & E1 & F1 & W1). rewrite E1. cbn [bind].
    destruct (IH o1) as (o2 & w2 & E2 & F2 & W2). rewrite E2. cbn [bind]. do 2 eexists. split; [reflexivity|].
    split; [constructor; assumption|]. rewrite W2, W1. now rewrite andb_f.
Qed.
Lemma enc_transcode l : exists cs ok w, reads32 l cs ok /\ transcode O l = Ok (w, ok) /\ text form cs w.
Proof.
  destruct (reads32_total l) as (cs & ok & R). destruct (enc_feed _ _ _ R (tc_init O)) as (o & w & E & T & W).
  exists cs, ok, w. split; [exact R|]. split; [|exact T]. unfold transcode. rewrite E. cbn [bind].
  rewrite (enc_end _ _ HO). cbn [bind]. rewrite app_nil_r, W, (enc_init _ _ HO). reflexivity.
Qed.
Lemma transcode_32 l out ok : functional form ->
  (transcode O l = Ok (out, ok) <-> exists cs, reads32 l cs ok /\ text form cs out).
Proof.
  intros F. destruct (enc_transcode l) as (cs & ok' & w & R & E & T). rewrite E. split.
  - intros H. injection H as <- <-. eauto.
  - intros (cs' & R' & T'). destruct (reads32_fun _ _ _ R _ _ R') as [<- <-].
    rewrite (text_fun _ F _ _ _ T T'). reflexivity.
Qed.
End Enc.

(* --- the triangulators ------------------------------------------------------------------------------------------- *)
Record decoder (I : tcdr) (cap : nat) (valid : N -> Prop) (Inv : tc_st I -> Prop) : Prop := {
  dec_init : Inv (tc_init I);
  dec_op : forall s u, Inv s -> valid u -> exists s' w, tc_op I s u = Ok (s', w) /\ Inv s' /\ Forall scalar w /\ (length w <= cap)%nat;
  dec_end : forall s, Inv s -> exists s' w, tc_end I s = Ok (s', w) /\ Forall scalar w /\ (length w <= cap)%nat }.
Definition okstate8 (s : s8) : Prop := exists p, inv8 p s.
Definition okstate16 (s : s16) : Prop := exists p, inv16 p s.
Lemma forall1 (P : N -> Prop) x : P x -> Forall P [x].
Proof. intros H. apply Forall_cons; [exact H|apply Forall_nil]. Qed.
Lemma decoder_8 : decoder t8_32 1 (fun u => u < 256) okstate8.
Proof.
  split.
  - exists []. constructor.
  - intros s u (p & I) H. destruct (step8 p s u I H) as (s' & w & E & R). exists s', w. split; [exact E|].
    split; [exists (next_pending p u w); eapply step8_inv; exact R|].
    destruct R as [(c & U & _ & ->)|[(st & cp & _ & _ & ->)|(_ & _ & ->)]]; cbn [length]; split; try lia.
    + apply forall1. eapply utf8_scalar; exact U.
    + apply Forall_nil.
    + apply forall1. apply fffd_scalar.
  - intros s _. cbn [tc_end t8_32]. unfold t8_32_end. destruct (negb _); do 2 eexists; (split; [reflexivity|]); cbn [length]; (split; [|lia]).
    + apply forall1. apply fffd_scalar.
    + apply Forall_nil.
Qed.
Lemma decoder_16 : decoder t16_32 2 (fun u => u < 2 ^ 16) okstate16.
Proof.
  split.
  - exists []. constructor.
  - intros s u (p & I) H. destruct (step16 p s u I H) as (s' & w & E & R). exists s', w. split; [exact E|].
    destruct R as [(-> & Hh & -> & ->)|[(h & -> & c & U & ->)|[(h & -> & L & -> & ->)|[(h & Hp & NL & Hh & -> & -> & ->)|(h & Hp & NL & -> & U & ->)]]]].
    + split; [eexists; constructor; exact Hh|]. split; [apply Forall_nil|cbn; lia].
    + split; [eexists; constructor|]. split; [apply forall1; eapply utf16_scalar; exact U|cbn; lia].
    + split; [eexists; constructor|]. split; [apply forall1, fffd_scalar|cbn; lia].
    + split; [eexists; constructor; exact Hh|]. split; [apply forall1, fffd_scalar|cbn; lia].
    + split; [eexists; constructor|]. split; [apply Forall_cons; [apply fffd_scalar|apply forall1; eapply utf16_scalar; exact U]|cbn; lia].
  - intros s _. cbn [tc_end t16_32]. unfold t16_32_end. destruct (s16_has s); do 2 eexists; (split; [reflexivity|]); cbn [length]; (split; [|lia]).
    + apply forall1. apply fffd_scalar.
    + apply Forall_nil.
Qed.

Section Tri.
Variables (I O : tcdr) (cap : nat) (valid : N -> Prop) (Inv : tc_st I -> Prop) (form : N -> list N -> Prop).
Hypothesis HI : decoder I cap valid Inv.
Hypothesis HO : encoder O form.
Hypothesis HF : functional form.
Lemma reads32_scalars w : Forall scalar w -> reads32 w w true.
Proof. intros H. apply reads32_true. auto. Qed.
Lemma text_app a b x y : text form a x -> text form b y -> text form (a ++ b) (x ++ y).
Proof. induction 1; intros T; [exact T|]. cbn [app]. rewrite <- app_assoc. constructor; auto. Qed.
Lemma tri_step i o u : Inv i -> valid u -> exists i' o' w w', tc_op I i u = Ok (i', w) /\ Inv i' /\
  tri_op cap I O (i, o) u = Ok ((i', o'), w') /\ text form w w' /\ tc_wf O o' = tc_wf O o.
Proof.
  intros Hi Hu. destruct (dec_op _ _ _ _ HI i u Hi Hu) as (i' & w & E & Hi' & S & L).
  destruct (enc_feed _ _ HO _ _ _ (reads32_scalars w S) o) as (o' & w' & E' & T & W).
  exists i', o', w, w'. split; [exact E|]. split; [exact Hi'|]. split; [|split; [exact T|rewrite W; apply andb_true_r]].
  unfold tri_op. cbn [fst snd]. rewrite E. cbn [bind]. destruct (Nat.ltb_spec cap (length w)); [lia|]. rewrite E'. reflexivity.
Qed.
Lemma tri_feed l : Forall valid l -> forall i o, Inv i -> exists i' o' w w', feed I i l = Ok (i', w) /\ Inv i' /\
  feed (triangulator cap I O) (i, o) l = Ok ((i', o'), w') /\ text form w w' /\ tc_wf O o' = tc_wf O o.
Proof.
  induction 1 as [|u l Hu Hl IH]; intros i o Hi; cbn [feed].
  - exists i, o, [], []. repeat split; auto. constructor.
  - destruct (tri_step i o u Hi Hu) as (i1 & o1 & w1 & w1' & E1 & Hi1 & F1 & T1 & W1). cbn [tc_op triangulator].
    rewrite E1, F1. cbn [bind]. destruct (IH i1 o1 Hi1) as (i2 & o2 & w2 & w2' & E2 & Hi2 & F2 & T2 & W2).
    rewrite E2. cbn [tc_st triangulator] in F2 |- *. rewrite F2. cbn [bind]. do 4 eexists. split; [reflexivity|]. split; [exact Hi2|]. split; [reflexivity|].
    split; [apply text_app; assumption|congruence].
Qed.
Lemma tri_end_spec i o : Inv i -> exists i' o' w w', tc_end I i = Ok (i', w) /\ tri_end cap I O (i, o) = Ok ((i', o'), w')
  /\ text form w w' /\ tc_wf O o' = tc_wf O o.
Proof.
  intros Hi. destruct (dec_end _ _ _ _ HI i Hi) as (i' & w & E & S & L).
  destruct (enc_feed _ _ HO _ _ _ (reads32_scalars w S) o) as (o' & w' & E' & T & W).
  exists i', o', w, (w' ++ []). split; [exact E|]. split; [|split; [rewrite app_nil_r; exact T|rewrite W; apply andb_true_r]].
  unfold tri_end. cbn [fst snd]. rewrite E. cbn [bind]. destruct (Nat.ltb_spec cap (length w)); [lia|]. rewrite E'. cbn [bind].
  rewrite (enc_end _ _ HO). reflexivity.
Qed.
Lemma tri_transcode l : Forall valid l -> exists cs ok w, transcode I l = Ok (cs, ok) /\ transcode (triangulator cap I O) l = Ok (w, ok) /\ text form cs w.
Proof.
  intros V. destruct (tri_feed l V (tc_init I) (tc_init O) (dec_init _ _ _ _ HI)) as (i & o & w & w' & E & Hi & F & T & W).
  destruct (tri_end_spec i o Hi) as (i' & o' & x & x' & E' & F' & T' & W').
  unfold transcode. rewrite E. cbn [bind]. rewrite E'. cbn [bind]. cbn [tc_init tc_end tc_wf triangulator tc_st] in *. rewrite F. cbn [bind]. rewrite F'. cbn [bind fst snd].
  do 3 eexists. split; [reflexivity|]. rewrite W', W, (enc_init _ _ HO), andb_true_r. split; [reflexivity|]. apply text_app; assumption.
Qed.
Lemma transcode_tri l out ok : Forall valid l ->
  (transcode (triangulator cap I O) l = Ok (out, ok) <-> exists cs, transcode I l = Ok (cs, ok) /\ text form cs out).
Proof.
  intros V. destruct (tri_transcode l V) as (cs & ok' & w & E & F & T). rewrite E, F. split.
  - intros H. injection H as <- <-. eauto.
  - intros (cs' & H & T'). injection H as <- <-. rewrite (text_fun _ HF _ _ _ T T'). reflexivity.
Qed.
End Tri.
