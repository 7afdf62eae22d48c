(* C67: which error the Punycode decoder reports. *)
From Verif Require Import Base ModelAlgo ModelPuny SpecPuny AlgoFacts PunyFacts PunyLoop.
From Coq Require Import Lia.
Local Open Scope N_scope.
Local Open Scope list_scope.

Lemma value_a : has_value "a"%char 0.
Proof. left. reflexivity. Qed.
Lemma zero_last bias k : vli bias k 0 ["a"%char].
Proof. pose proof (threshold_bounds k bias). apply vli_last; [exact value_a|lia]. Qed.
Lemma vli_inv bias k q s : vli bias k q s -> exists c s', s = c :: s' /\ ((s' = [] /\ has_value c q /\ q < threshold k bias)
  \/ exists d q', has_value c d /\ threshold k bias <= d /\ q = d + (rfc_base - threshold k bias) * q' /\ vli bias (k + rfc_base) q' s').
Proof. destruct 1 as [k q c H L|k q d q' c s H T E V]; exists c; eexists; (split; [reflexivity|]); [left; auto|right; eauto 10]. Qed.

Lemma vli_error s : forall j w v bias, bias <= 450 -> v <= size_max -> 10 ^ N.of_nat j <= w <= size_max -> w <= 35 ^ N.of_nat j ->
  match decode_vli_loop s (36 * (N.of_nat j + 1)) w v bias with
  | Ok (inr bad_input) => forall word rest q, s = word ++ rest -> ~ vli bias (36 * (N.of_nat j + 1)) q word
  | Ok (inr overflow) => exists p rest t q, s = p ++ rest /\ (t = [] \/ t = ["a"%char]) /\ vli bias (36 * (N.of_nat j + 1)) q (p ++ t) /\ size_max < v + w * q
  | _ => True
  end.
Proof.
  induction s as [|c s IH]; intros j w v bias Hb Hv Hw H35; cbn [decode_vli_loop].
  { intros word rest q E V. symmetry in E. apply app_eq_nil in E. destruct E as [-> _]. destruct (vli_nonempty _ _ _ _ V); reflexivity. }
  pose proof (decode_digit_le c) as Hle. change base with 36.
  assert (Dv : forall d', has_value c d' -> d' = decode_digit (code c)) by (intros d' H; symmetry; apply decode_digit_value; exact H).
  set (d := decode_digit (code c)) in *.
  destruct (N.ltb_spec 36 d); [lia|]. destruct (N.leb_spec 36 d).
  { intros word rest q E V. destruct (vli_inv _ _ _ _ V) as (c' & s' & -> & G). injection E as <- _.
    assert (X : exists d', has_value c d') by (destruct G as [(_ & G & _)|(d' & _ & G & _)]; eauto). destruct X as (d' & X). pose proof (has_value_lt _ _ X). rewrite (Dv _ X) in *. lia. }
  assert (Hval : has_value c d) by (apply value_decode_digit; lia).
  assert (0 < w). { apply N.lt_le_trans with (10 ^ N.of_nat j); [|lia]. apply N.neq_0_lt_0, N.pow_nonzero. lia. }
  set (k := 36 * (N.of_nat j + 1)) in *. pose proof (threshold_bounds k bias) as Ht.
  destruct (N.eqb_spec w 0); [lia|]. destruct (N.ltb_spec ((size_max - v) / w) d) as [Hov|Hover].
  { assert (X : size_max < v + w * d). { pose proof (N.mul_succ_div_gt (size_max - v) w). nia. }
    destruct (N.lt_ge_cases d (threshold k bias)) as [L|L].
    - exists [c], s, [], d. split; [reflexivity|]. split; [left; reflexivity|]. split; [apply vli_last; assumption|exact X].
    - exists [c], s, ["a"%char], (d + (rfc_base - threshold k bias) * 0). split; [reflexivity|]. split; [right; reflexivity|]. split; [apply vli_more with d 0; auto using zero_last|]. rewrite N.mul_0_r, N.add_0_r. exact X. }
  assert (Hsum : v + d * w <= size_max). { pose proof (N.mul_div_le (size_max - v) w). nia. }
  assert (Hsm : size_max + 1 = 2 ^ 64) by reflexivity.
  rewrite (w64_small (d * w)) by lia. rewrite (w64_small (v + d * w)) by lia.
  rewrite (clamp_threshold _ bias Hb). destruct (N.ltb_spec d (threshold k bias)) as [Hlast|Hmore]; [exact I|].
  destruct (N.eqb_spec (36 - threshold k bias) 0); [lia|].
  destruct (N.ltb_spec (size_max / (36 - threshold k bias)) w) as [Hov|Hw2].
  { assert (X : size_max < w * (36 - threshold k bias)). { pose proof (N.mul_succ_div_gt size_max (36 - threshold k bias)). nia. }
    exfalso. destruct (N.le_gt_cases 18 (threshold k bias)) as [H18|H18]; [nia|].
    assert (Hj : N.of_nat j < 12).
    { unfold threshold in H18. destruct (N.leb_spec k bias); [unfold k in *; lia|].
      destruct (N.leb_spec (bias + rfc_tmax) k); unfold rfc_tmax in *; [lia|]. unfold k in *; lia. }
    assert (w * 35 <= size_max); [|nia]. apply N.le_trans with (35 ^ N.of_nat j * 35); [nia|].
    rewrite N.mul_comm, <- N.pow_succ_r'. apply N.le_trans with (35 ^ 12); [|vm_compute; discriminate]. apply N.pow_le_mono_r; lia. }
  assert (Hww : w * (36 - threshold k bias) <= size_max). { pose proof (N.mul_div_le size_max (36 - threshold k bias)). nia. }
  rewrite (w64_small (w * _)) by lia.
  assert (Hj : N.of_nat j < 20).
  { destruct (N.lt_ge_cases (N.of_nat j) 20) as [|Hj]; [assumption|]. exfalso.
    assert (10 ^ 20 <= 10 ^ N.of_nat j) by (apply N.pow_le_mono_r; lia).
    assert (size_max < 10 ^ 20) by (vm_compute; reflexivity). lia. }
  rewrite w32_small by (subst k; apply N.lt_trans with 10000; [lia|reflexivity]).
  specialize (IH (S j) (w * (36 - threshold k bias)) (v + d * w) bias Hb Hsum).
  replace (36 * (N.of_nat (S j) + 1)) with (k + 36) in IH by (subst k; lia).
  assert (Hpow : 10 ^ N.of_nat (S j) <= w * (36 - threshold k bias) <= size_max). { rewrite Nat2N.inj_succ, N.pow_succ_r'. nia. }
  assert (H35' : w * (36 - threshold k bias) <= 35 ^ N.of_nat (S j)). { rewrite Nat2N.inj_succ, N.pow_succ_r'. nia. }
  specialize (IH Hpow H35'). destruct (decode_vli_loop s (k + 36) _ _ bias) as [[[v' rest]|[]]|f|]; auto.
  - intros word rest q E V. destruct (vli_inv _ _ _ _ V) as (c' & s' & -> & G). injection E as <- E.
    destruct G as [(_ & G & L)|(d' & q' & G & L & _ & V')]; [pose proof (Dv _ G); lia|]. exact (IH s' rest q' E V').
  - destruct IH as (p & rest & t & q & -> & Et & V & L). exists (c :: p), rest, t, (d + (rfc_base - threshold k bias) * q).
    split; [reflexivity|]. split; [exact Et|]. split; [apply vli_more with d q; auto|]. change rfc_base with 36. nia.
Qed.

Lemma vli_bad s v bias : bias <= 450 -> v <= size_max -> decode_vli s v bias = Ok (inr bad_input) ->
  forall word rest q, s = word ++ rest -> ~ vli bias rfc_base q word.
Proof.
  intros Hb Hv E. pose proof (vli_error s 0 1 v bias Hb Hv) as H. change (36 * (N.of_nat 0 + 1)) with rfc_base in H.
  change (decode_vli_loop s rfc_base 1 v bias) with (decode_vli s v bias) in H. rewrite E in H. apply H; [split; vm_compute; discriminate|vm_compute; discriminate].
Qed.
Lemma vli_big s v bias : bias <= 450 -> v <= size_max -> decode_vli s v bias = Ok (inr overflow) ->
  exists p rest t q, s = p ++ rest /\ (t = [] \/ t = ["a"%char]) /\ vli bias rfc_base q (p ++ t) /\ size_max < v + q.
Proof.
  intros Hb Hv E. pose proof (vli_error s 0 1 v bias Hb Hv) as H. change (36 * (N.of_nat 0 + 1)) with rfc_base in H.
  change (decode_vli_loop s rfc_base 1 v bias) with (decode_vli s v bias) in H. rewrite E in H.
  destruct H as (p & rest & t & q & A & B & C & D); [split; vm_compute; discriminate|vm_compute; discriminate|].
  exists p, rest, t, q. rewrite N.mul_1_l in D. auto.
Qed.

Lemma adapt_while_total delta : forall k, exists r, adapt_while delta k r.
Proof.
  induction (N.lt_wf_0 delta) as [delta _ IH]; intros k. change ((rfc_base - rfc_tmin) * rfc_tmax / 2) with 455 in *.
  destruct (N.le_gt_cases delta 455) as [L|L]; [eexists; apply aw_stop; exact L|].
  destruct (IH (delta / (rfc_base - rfc_tmin))) with (k := k + rfc_base) as (r & H).
  { change (rfc_base - rfc_tmin) with 35. apply N.div_lt; lia. }
  exists r. apply aw_step; [exact L|exact H].
Qed.
Lemma adapted_total delta np ft : exists r, adapted delta np ft r.
Proof. apply adapt_while_total. Qed.

(* a text that has a meaning is not reported as bad input *)
Lemma not_bad n i bias out s final : decoding n i bias out s final -> forall fuel, (length s <= fuel)%nat -> bias <= 450 -> i <= N.of_nat (length out) ->
  n <= p32 - 1 -> N.of_nat (length out) + N.of_nat (length s) < p32 -> decode_loop fuel s n i bias out <> Ok (inr bad_input).
Proof.
  induction 1 as [n i bias out|n i bias pre post delta bias' n' i' word rest final Hv size Ha En Ei El Hd IH];
  intros fuel Hf Hb Hi Hn Hl; [destruct fuel; discriminate|].
  pose proof (vli_nonempty _ _ _ _ Hv) as Hne. rewrite app_length in Hf.
  assert (1 <= length word)%nat by (destruct word; [congruence|cbn; lia]).
  destruct fuel as [|fuel]; [lia|]. assert (Hp : p32 = 4294967296) by reflexivity. pose proof sz1 as Hsz.
  rewrite decode_loop_step by (destruct word; [congruence|discriminate]).
  assert (Hi2 : i <= size_max) by nia.
  pose proof (decode_vli_sound (word ++ rest) i bias Hb Hi2) as S. pose proof (vli_bad (word ++ rest) i bias Hb Hi2) as B.
  destruct (decode_vli (word ++ rest) i bias) as [[[i1 r]|[]]|f|]; cbn [bind]; try discriminate; [|exfalso; exact (B eq_refl word rest delta eq_refl Hv)].
  destruct S as (w2 & q & E & Hv2 & -> & Hmax). destruct (vli_fun _ _ _ _ Hv _ _ _ _ Hv2 E) as [<- <-]. apply app_inv_head in E as <-. clear B.
  cbv zeta. rewrite (w64_small (N.of_nat _ + 1)) by (rewrite sz; nia). fold size.
  destruct (N.ltb_spec (i + delta) i); [discriminate|]. replace (i + delta - i) with delta by lia.
  destruct (adapt_ok delta size (i =? 0)) as (b' & Eb & Hab & Hb'); [rewrite sz; nia|unfold size; lia|].
  pose proof (adapted_fun _ _ _ _ _ Ha Hab) as ->. rewrite Eb. cbn [bind]. change (2 ^ 32 - 1) with (p32 - 1).
  destruct (N.ltb_spec (p32 - 1) n); [discriminate|].
  destruct (N.ltb_spec (p32 - 1 - n) ((i + delta) / size)) as [|Hno]; [discriminate|].
  assert (Hsize : size <= p32) by (unfold size; lia).
  assert (Hmod : (i + delta) mod size < size) by (apply N.mod_lt; unfold size; lia). rewrite <- Ei in *. rewrite <- En in *.
  assert (Hn' : n' < p32) by (rewrite En; lia).
  rewrite (w64_small n') by (rewrite sz; nia). rewrite w32_small by (change (2 ^ 32) with p32; lia).
  rewrite (w64_small (i' + 1)) by (rewrite sz; nia).
  rewrite app_length in *. rewrite <- El. rewrite insert_ok by (rewrite app_length; lia). cbn [bind].
  rewrite firstn_app, skipn_app, Nat.sub_diag, firstn_all, skipn_all. cbn [firstn skipn]. rewrite app_nil_r. cbn [app].
  rewrite El. rewrite (app_length word) in Hl. apply IH; auto; try lia; rewrite ?app_length; cbn [length]; lia.
Qed.

Lemma split_at (out : list N) i : i <= N.of_nat (length out) -> exists pre post, out = pre ++ post /\ N.of_nat (length pre) = i.
Proof. intros H. exists (firstn (N.to_nat i) out), (skipn (N.to_nat i) out). rewrite firstn_skipn. split; [reflexivity|]. rewrite firstn_length_le by lia. apply N2Nat.id. Qed.

(* one more code point *)
Lemma one_more n i bias out word delta : vli bias rfc_base delta word ->
  exists final, decoding n i bias out word final /\ In (n + (i + delta) / (N.of_nat (length out) + 1)) final.
Proof.
  intros Hv. set (size := N.of_nat (length out) + 1). assert (Hm : (i + delta) mod size < size) by (apply N.mod_lt; unfold size; lia).
  destruct (split_at out ((i + delta) mod size)) as (pre & post & E & L); [unfold size in *; lia|].
  destruct (adapted_total delta size (i =? 0)) as (b & Hb).
  exists (pre ++ (n + (i + delta) / size) :: post). split; [|apply in_or_app; right; left; reflexivity].
  rewrite <- (app_nil_r word). unfold size in *. rewrite E in *. eapply dc_step; eauto. apply dc_done.
Qed.

Lemma is_big fuel : forall s n i bias out, (length s <= fuel)%nat -> bias <= 450 -> i <= N.of_nat (length out) ->
  n <= p32 - 1 -> N.of_nat (length out) + N.of_nat (length s) < p32 -> decode_loop fuel s n i bias out = Ok (inr overflow) ->
  exists p rest t final c, s = p ++ rest /\ (t = [] \/ t = ["a"%char]) /\ decoding n i bias out (p ++ t) final /\ In c final /\ p32 <= c.
Proof.
  induction fuel as [|fuel IH]; intros s n i bias out Hf Hb Hi Hn Hl.
  - destruct s; [|cbn in Hf; lia]. discriminate.
  - destruct s as [|c0 s0] eqn:Es; [discriminate|]. rewrite <- Es in *.
    rewrite decode_loop_step by (rewrite Es; discriminate). cbv zeta.
    assert (Hp : p32 = 4294967296) by reflexivity. pose proof sz1 as Hsz. assert (Hi2 : i <= size_max) by nia.
    pose proof (decode_vli_sound s i bias Hb Hi2) as Hv. pose proof (vli_big s i bias Hb Hi2) as B.
    destruct (decode_vli s i bias) as [[[i1 rest]|[]]|f|]; cbn [bind]; try discriminate.
    2: { intros _. destruct (B eq_refl) as (p & rest & t & q & E & Et & Vq & Lq). destruct (one_more n i bias out _ _ Vq) as (final & Hd & Hin).
         exists p, rest, t, final. eexists. split; [exact E|]. split; [exact Et|]. split; [exact Hd|]. split; [exact Hin|].
         assert (p32 <= (i + q) / (N.of_nat (length out) + 1)); [|lia]. apply N.div_le_lower_bound; [lia|]. nia. }
    clear B. destruct Hv as (word & delta & Ew & Hvli & -> & Hmax).
    rewrite w64_small by (rewrite sz; nia).
    destruct (N.ltb_spec (i + delta) i); [lia|]. replace (i + delta - i) with delta by lia.
    destruct (adapt_ok delta (N.of_nat (length out) + 1) (i =? 0)) as (b' & Eb & Hab & Hb'); [rewrite sz; lia|lia|].
    rewrite Eb. cbn [bind]. change (2 ^ 32 - 1) with (p32 - 1).
    destruct (N.ltb_spec (p32 - 1) n); [lia|].
    destruct (N.ltb_spec (p32 - 1 - n) ((i + delta) / (N.of_nat (length out) + 1))) as [Hyes|Hno].
    { intros _. destruct (one_more n i bias out _ _ Hvli) as (final & Hd & Hin). exists word, rest, [], final. eexists.
      rewrite app_nil_r. split; [exact Ew|]. split; [left; reflexivity|]. split; [exact Hd|]. split; [exact Hin|]. lia. }
    set (size := N.of_nat (length out) + 1) in *. assert (Esize : size = N.of_nat (length out) + 1) by reflexivity. clearbody size.
    set (n' := n + (i + delta) / size) in *.
    assert (Hnn : n <= n' < p32) by (split; [apply N.le_add_r|unfold n'; lia]).
    rewrite (w64_small n') by (rewrite sz; nia).
    assert (Hmod : (i + delta) mod size < size) by (apply N.mod_lt; lia).
    rewrite w32_small by (change (2 ^ 32) with p32; lia).
    set (i' := (i + delta) mod size) in *.
    assert (En' : n' = n + (i + delta) / size) by reflexivity. assert (Ei' : i' = (i + delta) mod size) by reflexivity.
    clearbody n' i'.
    replace i' with (N.of_nat (N.to_nat i')) by apply N2Nat.id.
    rewrite insert_ok by lia. cbn [bind]. rewrite N2Nat.id.
    rewrite (w64_small (i' + 1)) by (rewrite sz; nia).
    destruct (firstn_skipn_split out (N.to_nat i')) as (pre & post & Eout & Hpre & -> & ->); [lia|].
    pose proof (vli_nonempty _ _ _ _ Hvli) as Hne.
    assert (Hlen : length s = (length word + length rest)%nat) by (rewrite Ew, app_length; reflexivity).
    assert (1 <= length word)%nat by (destruct word; [congruence|cbn; lia]).
    assert (Hlo : length (pre ++ n' :: post) = S (length out)) by (rewrite Eout, !app_length; cbn; lia).
    intros E. destruct (IH rest n' (i' + 1) b' (pre ++ n' :: post)) as (p & rest2 & t & final & c & Er & Et & Hd & Hin & Hc); try exact E; clear E; try (clear Hmax Hno Hsz En' Ei'; lia).
    exists (word ++ p), rest2, t, final, c. split; [rewrite Ew, Er, app_assoc; reflexivity|]. split; [exact Et|]. split; [|auto].
    rewrite <- app_assoc. rewrite Eout. assert (Hs2 : size = N.of_nat (length (pre ++ post)) + 1) by (rewrite Esize, Eout; reflexivity).
    apply (dc_step n i bias pre post delta b' n' i' word (p ++ t) final); rewrite <- ?Hs2; auto. clear - Hpre. lia.
Qed.
