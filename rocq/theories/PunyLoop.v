(* Punycode: the decoder and the encoder against RFC 3492. *)
From Verif Require Import Base ModelAlgo ModelPuny SpecPuny AlgoFacts PunyFacts.
From Verif Require PctFacts.
Local Open Scope N_scope.
Local Open Scope list_scope.

(* ---- decoder --------------------------------------------------------------------------------------- *)
Lemma decoding_keeps n i bias out s final : decoding n i bias out s final ->
  forall c, In c out -> In c final.
Proof.
  induction 1 as [|n i bias pre post delta bias' n' i' word rest final Hv size Ha En Ei El Hd IH]; auto.
  intros c Hc. apply IH. apply in_app_or in Hc. apply in_or_app. destruct Hc; [left|right; right]; assumption.
Qed.
Lemma decoding_from n i bias out s final : decoding n i bias out s final ->
  forall c, In c final -> In c out \/ n <= c.
Proof.
  induction 1 as [|n i bias pre post delta bias' n' i' word rest final Hv size Ha En Ei El Hd IH]; auto.
  assert (Hle : n <= n') by (rewrite En; apply N.le_add_r).
  intros c Hc. apply IH in Hc as [Hc|Hc]; [|right; lia]. apply in_app_or in Hc as [Hc|[<-|Hc]].
  - left. apply in_or_app; auto.
  - right. exact Hle.
  - left. apply in_or_app; auto.
Qed.

Lemma decoding_longer n i bias out s final : decoding n i bias out s final -> (length out <= length final <= length out + length s)%nat.
Proof.
  induction 1 as [|n i bias pre post delta bias' n' i' word rest final Hv size Ha En Ei El Hd IH]; [lia|].
  rewrite !app_length in *. cbn [length] in *. pose proof (vli_nonempty _ _ _ _ Hv). destruct word; [congruence|]. cbn [length]. lia.
Qed.

Lemma app_split_at {A} (p1 p2 q1 q2 : list A) : p1 ++ q1 = p2 ++ q2 -> length p1 = length p2 -> p1 = p2 /\ q1 = q2.
Proof.
  revert p2; induction p1 as [|x p1 IH]; intros [|y p2] E H; cbn in *; try discriminate; auto.
  injection E as -> E. destruct (IH p2 E) as [-> ->]; auto.
Qed.

Lemma decoding_inv n i bias out s final : decoding n i bias out s final ->
  (s = [] /\ final = out) \/
  exists pre post delta bias' word rest, out = pre ++ post /\ s = word ++ rest /\ vli bias rfc_base delta word
    /\ adapted delta (N.of_nat (length out) + 1) (i =? 0) bias'
    /\ N.of_nat (length pre) = (i + delta) mod (N.of_nat (length out) + 1)
    /\ decoding (n + (i + delta) / (N.of_nat (length out) + 1)) (N.of_nat (length pre) + 1) bias'
         (pre ++ (n + (i + delta) / (N.of_nat (length out) + 1)) :: post) rest final.
Proof.
  destruct 1 as [|n i bias pre post delta bias' n' i' word rest final Hv size Ha En Ei El Hd]; [auto|right].
  subst n' i'. exists pre, post, delta, bias', word, rest. rewrite El. unfold size in *. auto 10.
Qed.

Lemma decoding_fun n i bias out s final : decoding n i bias out s final ->
  forall final', decoding n i bias out s final' -> final = final'.
Proof.
  induction 1 as [n i bias out|n i bias pre post delta bias' n' i' word rest final Hv size Ha En Ei El Hd IH]; intros f' H'.
  - apply decoding_inv in H' as [[_ E]|(pre & post & delta & bias' & word & rest & E & E2 & Hv & _)]; [congruence|].
    symmetry in E2. apply app_eq_nil in E2 as [-> _]. destruct (vli_nonempty _ _ _ _ Hv); reflexivity.
  - apply decoding_inv in H' as [[E _]|(pre1 & post1 & delta1 & bias1 & word1 & rest1 & E & E2 & Hv1 & Ha1 & El1 & Hd1)].
    + apply app_eq_nil in E as [-> _]. destruct (vli_nonempty _ _ _ _ Hv); reflexivity.
    + destruct (vli_fun _ _ _ _ Hv _ _ _ _ Hv1 E2) as [<- <-]. apply app_inv_head in E2 as <-.
      fold size in Ha1, El1, Hd1. pose proof (adapted_fun _ _ _ _ _ Ha Ha1) as <-.
      destruct (app_split_at pre pre1 post post1) as [<- <-]; [exact E|lia|].
      apply IH. subst n' i'. rewrite El1 in Hd1. exact Hd1.
Qed.

Lemma firstn_skipn_split (l : list N) p : (p <= length l)%nat -> exists pre post, l = pre ++ post /\ length pre = p /\ firstn p l = pre /\ skipn p l = post.
Proof. intros H. exists (firstn p l), (skipn p l). rewrite firstn_skipn, firstn_length_le; auto. Qed.

Definition p32 : N := 2 ^ 32.
Lemma sz : 2 ^ 64 = p32 * p32. Proof. reflexivity. Qed.
Lemma sz1 : size_max + 1 = p32 * p32. Proof. reflexivity. Qed.

Lemma insert_ok l pos c : (pos <= length l)%nat ->
  string_insert l (N.of_nat pos) c = Ok (firstn pos l ++ c :: skipn pos l).
Proof. intros H. unfold string_insert. destruct (N.ltb_spec (N.of_nat (length l)) (N.of_nat pos)); [lia|]. rewrite Nat2N.id. reflexivity. Qed.

Lemma decode_loop_step fuel s n i bias out : s <> [] -> decode_loop (S fuel) s n i bias out =
    (do r <- decode_vli s i bias;
      match r with
      | inr err => Ok (inr err)
      | inl (index', inp') =>
        let old_vli := i in
        let output_length := w64 (N.of_nat (length out) + 1) in
        if index' <? old_vli then Fault assert_failed
        else
        do bias <- adapt (index' - old_vli) output_length (old_vli =? 0);
        if 2 ^ 32 - 1 <? n then Fault assert_failed
        else if 2 ^ 32 - 1 - n <? index' / output_length then Ok (inr overflow)
        else
          let n := w64 (n + index' / output_length) in
          let index := index' mod output_length in
          do output <- string_insert out index (w32 n);
          decode_loop fuel inp' n (w64 (index + 1)) bias output
      end).
Proof. destruct s; [congruence|reflexivity]. Qed.

Lemma decode_loop_sound fuel : forall s n i bias out, (length s <= fuel)%nat -> bias <= 450 -> i <= N.of_nat (length out) ->
  n <= p32 - 1 -> N.of_nat (length out) + N.of_nat (length s) < p32 ->
  match decode_loop fuel s n i bias out with
  | Ok (inl final) => decoding n i bias out s final /\ (forall c, In c final -> In c out \/ n <= c < p32)
  | Ok (inr _) => True
  | _ => False
  end.
Proof.
  induction fuel as [|fuel IH]; intros s n i bias out Hf Hb Hi Hn Hl.
  - destruct s; [|cbn in Hf; lia]. cbn. split; [constructor|auto].
  - destruct s as [|c0 s0] eqn:Es; [cbn; split; [constructor|auto]|]. rewrite <- Es in *.
    rewrite decode_loop_step by (rewrite Es; discriminate). cbv zeta.
    assert (Hp : p32 = 4294967296) by reflexivity.
    pose proof (decode_vli_sound s i bias Hb) as Hv. pose proof sz1 as Hsz.
    destruct (decode_vli s i bias) as [[[i1 rest]|e]|f|]; cbn [bind]; try (apply Hv; nia).
    destruct Hv as (word & delta & Ew & Hvli & -> & Hmax); [nia|].
    rewrite w64_small by (rewrite sz; nia).
    destruct (N.ltb_spec (i + delta) i); [lia|]. replace (i + delta - i) with delta by lia.
    destruct (adapt_ok delta (N.of_nat (length out) + 1) (i =? 0)) as (b' & Eb & Hab & Hb'); [rewrite sz; lia|lia|].
    rewrite Eb. cbn [bind]. change (2 ^ 32 - 1) with (p32 - 1).
    destruct (N.ltb_spec (p32 - 1) n); [lia|].
    set (size := N.of_nat (length out) + 1) in *. assert (Esize : size = N.of_nat (length out) + 1) by reflexivity. clearbody size.
    destruct (N.ltb_spec (p32 - 1 - n) ((i + delta) / size)) as [|Hno]; [exact I|].
    set (n' := n + (i + delta) / size) in *.
    assert (Hnn : n <= n' < p32) by (split; [apply N.le_add_r|unfold n'; lia]).
    rewrite (w64_small n') by (rewrite sz; nia).
    assert (Hmod : (i + delta) mod size < size) by (apply N.mod_lt; lia).
    rewrite w32_small by (change (2 ^ 32) with p32; lia).
    set (i' := (i + delta) mod size) in *.
    assert (En' : n' = n + (i + delta) / size) by reflexivity. assert (Ei' : i' = (i + delta) mod size) by reflexivity.
    clearbody n' i'.
    replace i' with (N.of_nat (N.to_nat i')) by apply N2Nat.id.
    rewrite insert_ok by lia. cbn [bind]. rewrite N2Nat.id.
    rewrite (w64_small (i' + 1)) by (rewrite sz; nia).
    destruct (firstn_skipn_split out (N.to_nat i')) as (pre & post & Eout & Hpre & -> & ->); [lia|].
    pose proof (vli_nonempty _ _ _ _ Hvli) as Hne.
    assert (Hlen : length s = (length word + length rest)%nat) by (rewrite Ew, app_length; reflexivity).
    assert (1 <= length word)%nat by (destruct word; [congruence|cbn; lia]).
    assert (Hlo : length (pre ++ n' :: post) = S (length out)) by (rewrite Eout, !app_length; cbn; lia).
    revert En' Ei' Hno Hsz Hmax Hp. specialize (IH rest n' (i' + 1) b' (pre ++ n' :: post)).
    destruct (decode_loop fuel rest n' (i' + 1) b' (pre ++ n' :: post)) as [[final|e]|f|]; try (intros _ _ _ _ _ _; apply IH; lia).
    destruct IH as [Hd Hin]; try lia. intros En' Ei' Hno Hsz Hmax Hp. split.
    + rewrite Ew, Eout. assert (Hs2 : size = N.of_nat (length (pre ++ post)) + 1) by (rewrite Esize, Eout; reflexivity).
      apply (dc_step n i bias pre post delta b' n' i' word rest final); rewrite <- ?Hs2; auto. lia.
    + intros c Hc. apply Hin in Hc as [Hc|Hc]; [|right; lia].
      apply in_app_or in Hc as [Hc|[<-|Hc]]; [left; rewrite Eout; apply in_or_app; auto|right; exact Hnn|left; rewrite Eout; apply in_or_app; auto].
Qed.

Lemma decode_loop_complete n i bias out s final : decoding n i bias out s final -> forall fuel,
  (length s <= fuel)%nat -> bias <= 450 -> i <= N.of_nat (length out) -> n <= p32 - 1 ->
  N.of_nat (length final) < p32 -> (forall c, In c final -> c < p32) ->
  decode_loop fuel s n i bias out = Ok (inl final).
Proof.
  induction 1 as [n i bias out|n i bias pre post delta bias' n' i' word rest final Hv size Ha En Ei El Hd IH];
  intros fuel Hf Hb Hi Hn Hl Hin; [destruct fuel; reflexivity|].
  pose proof (vli_nonempty _ _ _ _ Hv) as Hne. rewrite app_length in Hf. rewrite app_length in Hi.
  pose proof (decoding_longer _ _ _ _ _ _ Hd) as Hlong. rewrite app_length in Hlong. cbn [length] in Hlong.
  assert (1 <= length word)%nat by (destruct word; [congruence|cbn; lia]).
  destruct fuel as [|fuel]; [lia|].
  assert (Hp : p32 = 4294967296) by reflexivity.
  rewrite decode_loop_step by (destruct word; [congruence|discriminate]).
  assert (Hn' : n' < p32).
  { apply Hin. eapply decoding_keeps; [exact Hd|]. apply in_or_app; right; left; reflexivity. }
  assert (Hsum : i + delta < p32 * size).
  { pose proof (N.div_mod' (i + delta) size). assert (Hmod : (i + delta) mod size < size) by (apply N.mod_lt; unfold size; lia). nia. }
  pose proof sz1 as Hsz. assert (Hsize : size <= p32) by (unfold size; rewrite app_length; lia).
  rewrite (decode_vli_complete bias delta word rest i Hv Hb) by nia. cbn [bind]. cbv zeta.
  rewrite (w64_small (N.of_nat _ + 1)) by (rewrite sz; fold size; nia). fold size.
  destruct (N.ltb_spec (i + delta) i); [lia|]. replace (i + delta - i) with delta by lia.
  destruct (adapt_ok delta size (i =? 0)) as (b' & Eb & Hab & Hb'); [rewrite sz; nia|unfold size; lia|].
  pose proof (adapted_fun _ _ _ _ _ Ha Hab) as ->. rewrite Eb. cbn [bind]. change (2 ^ 32 - 1) with (p32 - 1).
  destruct (N.ltb_spec (p32 - 1) n); [lia|].
  destruct (N.ltb_spec (p32 - 1 - n) ((i + delta) / size)) as [|Hno]; [lia|].
  rewrite <- En, <- Ei. rewrite (w64_small n') by (rewrite sz; nia).
  rewrite w32_small by (change (2 ^ 32) with p32; lia).
  rewrite app_length in *. rewrite (w64_small (i' + 1)) by (rewrite sz; nia).
  rewrite <- El. rewrite insert_ok by (rewrite app_length; lia). cbn [bind].
  rewrite firstn_app, skipn_app, Nat.sub_diag, firstn_all, skipn_all. cbn [firstn skipn]. rewrite app_nil_r. cbn [app].
  rewrite El. apply IH; auto; try lia; rewrite ?app_length; cbn [length]; lia.
Qed.

Lemma copy_basic_spec s : forall out,
  copy_basic s out = if forallb (fun c => code c <? 0x80) s then inl (out ++ map code s) else inr bad_input.
Proof.
  induction s as [|c s IH]; intros out; cbn; [rewrite app_nil_r; reflexivity|].
  unfold is_basic_code_point at 1. destruct (code c <? 128); [|reflexivity]. cbn [andb]. rewrite IH, <- app_assoc. reflexivity.
Qed.

Lemma hyphen_eqb c : Ascii.eqb c delimiter = true <-> c = hyphen.
Proof. apply Ascii.eqb_eq. Qed.
Lemma hyphen_neqb c : Ascii.eqb c delimiter = false <-> c <> hyphen.
Proof. apply Ascii.eqb_neq. Qed.

Lemma decode_no_hyphen s : ~ In hyphen s -> decode s = decode_loop (S (length s)) s initial_n 0 initial_bias [].
Proof.
  intros H. unfold decode, copy_plain_ascii_part. rewrite find_last_bidi_none.
  - cbn [bind]. rewrite Nat.eqb_refl. reflexivity.
  - intros y Hy. apply hyphen_neqb. intros ->. auto.
Qed.
Lemma decode_hyphen a b : ~ In hyphen b -> decode (a ++ hyphen :: b) =
  if forallb (fun c => code c <? 0x80) a then decode_loop (S (length b)) b initial_n 0 initial_bias (map code a) else Ok (inr bad_input).
Proof.
  intros H. unfold decode, copy_plain_ascii_part. rewrite find_last_bidi_app.
  - cbn [bind]. destruct (Nat.eqb_spec (length a) (length (a ++ hyphen :: b))) as [E|_].
    { rewrite app_length in E. cbn in E. lia. }
    rewrite firstn_app, Nat.sub_diag, firstn_all, copy_basic_spec. cbn [firstn]. rewrite app_nil_r.
    destruct (forallb _ a); cbn [bind]; [|reflexivity]. cbn [app].
    replace (skipn (S (length a)) (a ++ hyphen :: b)) with b; [reflexivity|].
    rewrite skipn_app, skipn_all2 by lia. replace (S (length a) - length a)%nat with 1%nat by lia. reflexivity.
  - reflexivity.
  - intros y Hy. apply hyphen_neqb. intros ->. auto.
Qed.

Lemma hyphen_split (s : str) : ~ In hyphen s \/ exists a b, s = a ++ hyphen :: b /\ ~ In hyphen b.
Proof.
  destruct (last_split (fun c => Ascii.eqb c delimiter) s) as [H|(a & x & b & -> & Hx & Hb)].
  - left. intros Hin. apply H in Hin. discriminate.
  - right. apply hyphen_eqb in Hx as ->. exists a, b. split; auto. intros Hin. apply Hb in Hin. discriminate.
Qed.
Lemma hyphen_split_unique (a b a' b' : str) : a ++ hyphen :: b = a' ++ hyphen :: b' -> ~ In hyphen b -> ~ In hyphen b' -> a = a' /\ b = b'.
Proof.
  revert a'; induction a as [|x a IH]; intros [|y a'] E Hb Hb'; cbn in E.
  - injection E as ->. auto.
  - injection E as <- E. subst b. exfalso. apply Hb. apply in_or_app; right; left; reflexivity.
  - injection E as -> E. subst b'. exfalso. apply Hb'. apply in_or_app; right; left; reflexivity.
  - injection E as -> E. apply IH in E as [-> ->]; auto.
Qed.

(* the decoder answers on every input, with the value of RFC 3492 or an error *)
Lemma code_small c : code c < p32.
Proof. pose proof (PctFacts.code_lt c). assert (p32 = 4294967296) by reflexivity. lia. Qed.

Lemma decode_loop_start b lit : N.of_nat (length lit) + N.of_nat (length b) < p32 ->
  exists r, decode_loop (S (length b)) b initial_n 0 initial_bias lit = Ok r.
Proof.
  intros H. pose proof (decode_loop_sound (S (length b)) b initial_n 0 initial_bias lit) as K.
  destruct (decode_loop _ b initial_n 0 initial_bias lit); eauto; exfalso; apply K; auto; unfold initial_bias, initial_n; try lia; vm_compute; discriminate.
Qed.
Lemma decode_loop_start_complete b lit u : decoding rfc_initial_n 0 rfc_initial_bias lit b u -> N.of_nat (length u) < p32 -> (forall c, In c u -> c < p32) ->
  decode_loop (S (length b)) b initial_n 0 initial_bias lit = Ok (inl u).
Proof.
  intros Hd Hl Hu. apply decode_loop_complete; auto; try (change initial_bias with 72; lia); try (change initial_n with 128; assert (p32 = 4294967296) by reflexivity; lia).
Qed.
Lemma decode_loop_start_iff b lit u : N.of_nat (length lit) + N.of_nat (length b) < p32 -> (forall c, In c lit -> c < p32) ->
  (decode_loop (S (length b)) b initial_n 0 initial_bias lit = Ok (inl u) <->
   decoding rfc_initial_n 0 rfc_initial_bias lit b u /\ (forall c, In c u -> c < p32)).
Proof.
  intros H Hlit. split.
  - intros E. pose proof (decode_loop_sound (S (length b)) b initial_n 0 initial_bias lit) as K. rewrite E in K.
    destruct K as [K1 K2]; auto; try (unfold initial_bias; lia); [vm_compute; discriminate|]. split; [exact K1|].
    intros c Hc. destruct (K2 c Hc); [auto|lia].
  - intros [Hd Hu]. apply decode_loop_start_complete; auto. pose proof (decoding_longer _ _ _ _ _ _ Hd). lia.
Qed.
(* no bound on the text: only on what it denotes *)
Lemma decode_complete s u : puny_decodes s u -> N.of_nat (length u) < p32 -> (forall c, In c u -> c < p32) -> decode s = Ok (inl u).
Proof.
  intros (lit & d & [(-> & Hne)|(-> & ->)] & Hn & Hb & Hd) Hl Hu.
  - rewrite decode_hyphen by auto. replace (forallb _ lit) with true; [apply decode_loop_start_complete; auto|].
    symmetry. apply forallb_forall. intros c Hc. apply N.ltb_lt; auto.
  - rewrite decode_no_hyphen by auto. apply decode_loop_start_complete; auto.
Qed.

Lemma decode_total s : N.of_nat (length s) < p32 -> exists r, decode s = Ok r.
Proof.
  intros H. destruct (hyphen_split s) as [Hn|(a & b & -> & Hb)].
  - rewrite decode_no_hyphen; auto. apply decode_loop_start. exact H.
  - rewrite decode_hyphen; auto. destruct (forallb _ a); [|eauto]. apply decode_loop_start.
    rewrite app_length in H. cbn [length] in H. rewrite map_length. lia.
Qed.

Lemma forallb_basic a : forallb (fun c => code c <? 0x80) a = true <-> (forall c, In c a -> code c < 0x80).
Proof. rewrite forallb_forall. split; intros H c Hc; apply N.ltb_lt; auto. Qed.

Lemma decode_iff s u : N.of_nat (length s) < p32 ->
  (decode s = Ok (inl u) <->
   (puny_decodes s u \/ exists s', s = hyphen :: s' /\ ~ In hyphen s' /\ puny_decodes s' u) /\ (forall c, In c u -> c < p32)).
Proof.
  intros H. destruct (hyphen_split s) as [Hn|(a & b & -> & Hb)].
  - rewrite decode_no_hyphen by auto. rewrite decode_loop_start_iff; [|exact H|intros c []].
    split; intros [K1 K2]; split; auto.
    + left. exists [], s. repeat split; auto. intros c [].
    + destruct K1 as [(lit & d & [(-> & _)|(-> & ->)] & _ & _ & Hd)|(s' & -> & _)]; auto.
      * exfalso. apply Hn, in_or_app. right; left; reflexivity.
      * exfalso. apply Hn. left; reflexivity.
  - rewrite decode_hyphen by auto. rewrite app_length in H. cbn [length] in H.
    destruct (forallb (fun c => code c <? 128) a) eqn:Ea.
    + pose proof (proj1 (forallb_basic a) Ea) as Hbas. rewrite decode_loop_start_iff.
      2: rewrite map_length; lia.
      2: { intros c Hc. apply in_map_iff in Hc as (x & <- & _). apply code_small. }
      split; intros [K1 K2]; split; auto.
      * destruct a as [|x a].
        -- right. exists b. split; [reflexivity|]. split; [exact Hb|]. exists [], b. repeat split; auto.
        -- left. exists (x :: a), b. split; [left; split; [reflexivity|discriminate]|]. auto.
      * destruct K1 as [(lit & d & [(E & _)|(<- & ->)] & Hnd & _ & Hd)|(s' & E & Hns & (lit & d & [(-> & _)|(-> & ->)] & _ & _ & Hd))].
        -- apply hyphen_split_unique in E as [-> ->]; auto.
        -- exfalso. apply Hnd, in_or_app. right; left; reflexivity.
        -- exfalso. apply Hns, in_or_app. right; left; reflexivity.
        -- apply (hyphen_split_unique a b [] d) in E as [-> ->]; auto.
    + split; [discriminate|]. intros [K1 _]. exfalso.
      assert (Hbas : forall c, In c a -> code c < 128); [|apply forallb_basic in Hbas; congruence].
      destruct K1 as [(lit & d & [(E & _)|(<- & ->)] & Hnd & Hl & _)|(s' & E & Hns & _)].
      * apply hyphen_split_unique in E as [-> ->]; auto.
      * exfalso. apply Hnd, in_or_app. right; left; reflexivity.
      * apply (hyphen_split_unique a b [] s') in E as [-> ->]; auto. intros c [].
Qed.

Lemma puny_decodes_fun s u u' : puny_decodes s u -> puny_decodes s u' -> u = u'.
Proof.
  intros (lit & d & C & Hn & _ & Hd) (lit' & d' & C' & Hn' & _ & Hd').
  destruct C as [(-> & Hl)|(-> & ->)], C' as [(E & Hl')|(E & ->)].
  - apply hyphen_split_unique in E as [-> ->]; auto. eapply decoding_fun; eauto.
  - subst d'. exfalso. apply Hn', in_or_app. right; left; reflexivity.
  - subst d. exfalso. apply Hn, in_or_app. right; left; reflexivity.
  - subst d'. eapply decoding_fun; eauto.
Qed.
