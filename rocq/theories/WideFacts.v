(* Proofs about percent-encoding of wider characters (C75). *)
From Verif Require Import Base ModelPct ModelWide SpecPct SpecWide Rfc3986 PctFacts.
From Coq Require Import Lia.
Local Open Scope N_scope.

Lemma to_byte_lt u : to_byte u < 256. Proof. apply N.mod_lt. discriminate. Qed.
Definition needs_w (es u : N) : bool := needs (chr (to_byte u)) es.
Lemma needs_w_ok es u : es < 256 -> needs_byte (to_byte u) es = Ok (needs_w es u).
Proof. intros H. unfold needs_w. rewrite <- (needs_ok _ es H), code_chr; [reflexivity|apply to_byte_lt]. Qed.
Lemma low_nibbles u : N.land (N.shiftr u 4) 15 = code (chr (to_byte u)) / 16 /\ N.land u 15 = code (chr (to_byte u)) mod 16.
Proof.
  rewrite code_chr by apply to_byte_lt. unfold to_byte. change 15 with (N.ones 4). rewrite !N.land_ones, N.shiftr_div_pow2. change (2 ^ 8) with 256. change (2 ^ 4) with 16.
  change 256 with (16 * 16). rewrite N.mod_mul_r by discriminate. split.
  - rewrite N.mul_comm, N.div_add by discriminate. rewrite (N.div_small (u mod 16)); [reflexivity|]. apply N.mod_lt. discriminate.
  - rewrite N.mul_comm, N.mod_add by discriminate. symmetry. apply N.mod_mod. discriminate.
Qed.
Definition piece (bits es u : N) : list N := if needs_w es u then map cp (escape (chr (to_byte u))) else [u mod 2 ^ bits].
Lemma hex_small n : cp (upper_hex n) < 256. Proof. apply code_lt. Qed.
Lemma out_small bits n : 8 <= bits -> n < 256 -> to_out bits n = n.
Proof. intros H L. unfold to_out. apply N.mod_small. assert (2 ^ 8 <= 2 ^ bits) by (apply N.pow_le_mono_r; [discriminate|exact H]). change (2 ^ 8) with 256 in *. lia. Qed.
Lemma encode_loop_is bits es s : 8 <= bits -> es < 256 -> forall out, pctencode_wide_loop bits s es out = Ok (out ++ flat_map (piece bits es) s).
Proof.
  intros Hb He. induction s as [|u s IH]; intros out; cbn [pctencode_wide_loop flat_map]; [now rewrite app_nil_r|].
  rewrite (needs_w_ok es u He). cbn [bind]. unfold piece at 1. destruct (needs_w es u).
  - destruct (low_nibbles u) as [E1 E2]. rewrite E1, E2. destruct (nibbles (chr (to_byte u))) as (_ & _ & L1 & L2).
    rewrite (dec2hex_ok _ L1), (dec2hex_ok _ L2). cbn [bind]. rewrite IH, !out_small by (apply code_lt || assumption).
    rewrite <- !app_assoc. reflexivity.
  - rewrite IH, <- app_assoc. reflexivity.
Qed.
Lemma encode_is bits es s : 8 <= bits -> es < 256 -> pctencode_wide bits s es = Ok (flat_map (piece bits es) s).
Proof. intros Hb He. unfold pctencode_wide. now rewrite encode_loop_is. Qed.
Lemma needs_wide_is es s : es < 256 -> needs_pctencode_wide s es = Ok (existsb (needs_w es) s).
Proof. intros He. induction s as [|u s IH]; cbn; [reflexivity|]. rewrite (needs_w_ok es u He). cbn. destruct (needs_w es u); auto. Qed.

(* --- decoding --- *)
Lemma hex_wide_small c : hex2dec_wide (cp c) = hex2dec c. Proof. reflexivity. Qed.
Lemma hex_wide_big u : 256 <= u -> hex2dec_wide u = 16.
Proof. intros H. unfold hex2dec_wide. replace (u <=? 102) with false by lia. replace (u <=? 70) with false by lia. replace (u <=? 57) with false by lia. now rewrite !andb_false_r. Qed.
Lemma digit_dec u : (exists v, digit_value u v /\ hex2dec_wide u = v /\ v < 16) \/ (hex2dec_wide u = 16 /\ forall v, ~ digit_value u v).
Proof.
  destruct (N.lt_ge_cases u 256) as [L|L].
  - rewrite <- (code_chr u L). destruct (hex2dec_spec (chr u)) as [E H]. change (hex2dec_wide (code (chr u))) with (hex2dec (chr u)).
    destruct (hexval (chr u)) as [v|] eqn:X; [left|right].
    + exists v. split; [now exists (chr u)|]. split; [exact E|now apply H].
    + split; [exact E|]. intros v (c & C1 & C2). unfold cp in C1. assert (chr u = c) by (rewrite <- (chr_code (chr u)), C1; apply chr_code). congruence.
  - right. split; [now apply hex_wide_big|]. intros v (c & C1 & _). pose proof (code_lt c). unfold cp in C1. lia.
Qed.
Lemma digit_fun u v v' : digit_value u v -> digit_value u v' -> v = v'.
Proof. intros (c & C1 & C2) (c' & C1' & C2'). assert (c = c') by (rewrite <- (chr_code c), <- (chr_code c'); unfold cp in *; congruence). congruence. Qed.
Lemma step_wide s : s <> [] -> (exists b rest, escaped_wide s b rest /\ deref_wide s = Ok b /\ increment_wide s = Ok rest)
  \/ (exists c t, s = c :: t /\ (forall b rest, ~ escaped_wide s b rest) /\ deref_wide s = Ok c /\ increment_wide s = Ok t).
Proof.
  destruct s as [|c s]; [congruence|]. intros _. destruct (N.eqb_spec c (code "%")) as [->|Nc].
  2: { right. exists c, s. split; [reflexivity|]. split; [intros b r (h & l & x & y & E & _); injection E as E _; apply Nc; exact E|].
       unfold deref_wide, increment_wide. apply N.eqb_neq in Nc. rewrite Nc, andb_false_r. split; reflexivity. }
  destruct s as [|h [|l r]].
  1,2: right; eexists _, _; split; [reflexivity|]; split; [intros b r0 (? & ? & ? & ? & E & _); discriminate|split; reflexivity].
  assert (Br : negb (either_bad (hex2dec_wide h) (hex2dec_wide l)) = true -> (exists b rest, escaped_wide (code "%" :: h :: l :: r) b rest /\ N.lor (N.land (N.shiftl (hex2dec_wide h) 4) 255) (hex2dec_wide l) = b /\ r = rest)).
  { destruct (digit_dec h) as [(x & D1 & -> & L1)|[-> D1]], (digit_dec l) as [(y & D2 & -> & L2)|[-> D2]]; rewrite either_bad_spec by lia; intros X.
    2-4: exfalso; rewrite N.eqb_refl, ?orb_true_r in X; discriminate.
    eexists _, r. split; [exists h, l, x, y; repeat split; assumption|]. split; [now apply combine|reflexivity]. }
  assert (Bn : negb (either_bad (hex2dec_wide h) (hex2dec_wide l)) = false -> forall b rest, ~ escaped_wide (code "%" :: h :: l :: r) b rest).
  { intros X b rest (h' & l' & x & y & E & D1 & D2 & _). injection E as <- <- <-.
    destruct (digit_dec h) as [(x' & D1' & Ex & L1)|[Ex Dn]]; [|exact (Dn _ D1)]. destruct (digit_dec l) as [(y' & D2' & Ey & L2)|[Ey Dn]]; [|exact (Dn _ D2)].
    rewrite Ex, Ey, either_bad_spec in X by lia. lia. }
  unfold deref_wide, increment_wide. rewrite N.eqb_refl. cbn [negb orb nth length skipn].
  replace (3 <=? N.of_nat (S (S (S (length r))))) with true by lia. replace (N.of_nat (S (S (S (length r)))) <? 3) with false by lia. cbn [andb].
  destruct (negb (either_bad (hex2dec_wide h) (hex2dec_wide l))) eqn:X.
  - left. destruct (Br eq_refl) as (b & rest & E & <- & <-). apply negb_true_iff in X. rewrite X. eexists _, r. split; [exact E|]. split; reflexivity.
  - right. apply negb_false_iff in X. rewrite X. eexists _, _. split; [reflexivity|]. split; [apply Bn; reflexivity|split; reflexivity].
Qed.
Lemma decode_loop_wide fuel : forall s out, (length s <= fuel)%nat -> exists t, decode_wide_loop fuel s out = Ok (out ++ t) /\ decodes_wide s t.
Proof.
  induction fuel as [|fuel IH]; intros s out Hl.
  - destruct s; [|cbn in Hl; lia]. exists []. cbn. rewrite app_nil_r. split; [auto|constructor].
  - destruct s as [|c s]; [exists []; cbn; rewrite app_nil_r; split; [auto|constructor]|].
    destruct (step_wide (c :: s)) as [(b & rest & E & D & I)|(c' & t & E & Ne & D & I)]; [discriminate| |].
    + assert (Hr : (length rest <= fuel)%nat) by (destruct E as (? & ? & ? & ? & E & _); rewrite E in Hl; cbn in Hl; lia).
      destruct (IH rest (out ++ [b]) Hr) as (t & T & Dt). exists (b :: t). split; [|exact (dw_escape _ _ _ _ E Dt)].
      cbn [decode_wide_loop]. rewrite D, I. cbn [bind]. rewrite T, <- app_assoc. reflexivity.
    + injection E as <- <-. destruct (IH s (out ++ [c])) as (t & T & Dt); [cbn in Hl; lia|]. exists (c :: t). split; [|exact (dw_copy _ _ _ Ne Dt)].
      cbn [decode_wide_loop]. rewrite D, I. cbn [bind]. rewrite T, <- app_assoc. reflexivity.
Qed.
Lemma escaped_wide_fun s b r b' r' : escaped_wide s b r -> escaped_wide s b' r' -> b = b' /\ r = r'.
Proof. intros (h & l & x & y & -> & D1 & D2 & ->) (h' & l' & x' & y' & E & D3 & D4 & ->). injection E as <- <- <-. rewrite (digit_fun _ _ _ D1 D3), (digit_fun _ _ _ D2 D4). auto. Qed.
Lemma decodes_wide_fun s t : decodes_wide s t -> forall t', decodes_wide s t' -> t = t'.
Proof.
  assert (NE : forall b r, ~ escaped_wide [] b r) by (intros b r (? & ? & ? & ? & E & _); discriminate).
  induction 1 as [|s b rest t He H IH|c s t Hn H IH]; intros t' H'.
  - inversion H'; subst; [reflexivity|]. exfalso. eapply NE; eassumption.
  - inversion H' as [|s' b' rest' t2 He' Ht'|c' s' t2 Hn' Ht']; subst.
    + exfalso. eapply NE; eassumption.
    + destruct (escaped_wide_fun _ _ _ _ _ He He') as [-> ->]. f_equal. auto.
    + exfalso. exact (Hn' _ _ He).
  - inversion H' as [|s' b' rest' t2 He' Ht'|c' s' t2 Hn' Ht']; subst; [exfalso; exact (Hn _ _ He')|]. f_equal. auto.
Qed.
Lemma pctdecode_wide_iff s t : pctdecode_wide s = Ok t <-> decodes_wide s t.
Proof.
  unfold pctdecode_wide. destruct (decode_loop_wide (length s) s [] (le_n _)) as (t' & E & H). split; intros G.
  - cbn [app] in E. congruence.
  - rewrite E. cbn [app]. f_equal. exact (decodes_wide_fun _ _ H _ G).
Qed.

(* --- both --- *)
Definition kept (bits es u : N) : N := if needs_w es u then to_byte u else u mod 2 ^ bits.
Lemma hexval_upper n : n < 16 -> hexval (upper_hex n) = Some n.
Proof.
  intros H. assert (G : forallb (fun n => match hexval (upper_hex n) with Some m => m =? n | None => false end) (map N.of_nat (seq 0 16)) = true) by (vm_compute; reflexivity).
  rewrite forallb_forall in G. specialize (G n). destruct (hexval (upper_hex n)); [f_equal; apply N.eqb_eq|exfalso; enough (false = true) by discriminate]; apply G; rewrite <- (N2Nat.id n); apply in_map, in_seq; lia.
Qed.
Lemma escape_escaped u rest : escaped_wide (map cp (escape (chr (to_byte u))) ++ rest) (to_byte u) rest.
Proof.
  destruct (nibbles (chr (to_byte u))) as (_ & _ & L1 & L2). rewrite code_chr in L1, L2 by apply to_byte_lt. exists (cp (upper_hex (to_byte u / 16))), (cp (upper_hex (to_byte u mod 16))), (to_byte u / 16), (to_byte u mod 16).
  unfold escape. rewrite code_chr by apply to_byte_lt. split; [reflexivity|]. split; [exists (upper_hex (to_byte u / 16)); split; [reflexivity|now apply hexval_upper]|].
  split; [exists (upper_hex (to_byte u mod 16)); split; [reflexivity|now apply hexval_upper]|]. apply N.div_mod. discriminate.
Qed.
Lemma mod_low bits u : 8 <= bits -> to_byte (u mod 2 ^ bits) = to_byte u.
Proof. intros H. unfold to_byte. replace bits with (8 + (bits - 8)) by lia. rewrite N.pow_add_r, (N.mod_mul_r u (2 ^ 8) (2 ^ (bits - 8))).
  - rewrite N.mul_comm, N.mod_add by discriminate. apply N.mod_mod. discriminate.
  - discriminate.
  - apply N.pow_nonzero. discriminate. Qed.
Lemma decode_encoded bits es s t d : 8 <= bits -> 0 < es < 256 -> decodes_wide t d -> decodes_wide (flat_map (piece bits es) s ++ t) (map (kept bits es) s ++ d).
Proof.
  intros Hb He D. induction s as [|u s IH]; [exact D|]. cbn [flat_map map app]. unfold piece at 1, kept at 1. destruct (needs_w es u) eqn:X.
  - rewrite <- app_assoc. eapply dw_escape; [apply escape_escaped|exact IH].
  - cbn [app]. apply dw_copy; [|exact IH]. intros b r (h & l & x & y & E & _). injection E as E _.
    assert (P : to_byte u = code "%"). { rewrite <- (mod_low bits u Hb), E. reflexivity. }
    unfold needs_w in X. rewrite P in X. change (chr (code "%")) with percent in X. rewrite (percent_needed es He) in X. discriminate.
Qed.
Lemma kept_iff bits es s : 8 <= bits -> Forall (fun u => u < 2 ^ bits) s -> (map (kept bits es) s = s <-> Forall (fun u => 256 <= u -> needs_w es u = false) s).
Proof.
  intros Hb F. induction F as [|u s Hu F IH]; [split; constructor|]. cbn [map]. split.
  - intros E. injection E as E1 E2. constructor; [|now apply IH]. intros L. destruct (needs_w es u) eqn:X; [|reflexivity]. unfold kept in E1. rewrite X in E1. pose proof (to_byte_lt u). lia.
  - intros G. inversion G as [|? ? G1 G2]; subst. f_equal; [|now apply IH]. unfold kept. destruct (needs_w es u) eqn:X; [|now apply N.mod_small].
    destruct (N.lt_ge_cases u 256) as [L|L]; [now apply N.mod_small|]. discriminate (G1 L).
Qed.
Lemma bytes_same es s bits : 8 <= bits -> es < 256 -> pctencode_wide bits (map cp s) es = do e <- pctencode s es; Ok (map cp e).
Proof.
  intros Hb He. rewrite encode_is, (pctencode_enc es s He) by assumption. cbn [bind]. f_equal. induction s as [|c s IH]; [reflexivity|]. cbn [map flat_map enc]. rewrite IH, map_app. f_equal.
  assert (B : to_byte (cp c) = code c) by (apply N.mod_small; apply code_lt). unfold piece, needs_w. rewrite B, chr_code. destruct (needs c es); [reflexivity|].
  cbn [map]. f_equal. apply (out_small bits (cp c) Hb). apply code_lt.
Qed.
Lemma narrow es s : es < 256 -> pctencode_wide 8 s es = pctencode_wide 8 (map to_byte s) es.
Proof.
  intros He. rewrite !encode_is by (discriminate || assumption). f_equal. induction s as [|u s IH]; [reflexivity|]. cbn [map flat_map]. rewrite IH. f_equal.
  assert (B : to_byte (to_byte u) = to_byte u) by (apply N.mod_mod; discriminate). unfold piece, needs_w. change (to_byte u mod 2 ^ 8) with (to_byte (to_byte u)). rewrite B. reflexivity.
Qed.
Lemma narrow_kept es s : map (kept 8 es) s = map to_byte s.
Proof. apply map_ext. intros u. unfold kept. destruct (needs_w es u); reflexivity. Qed.
