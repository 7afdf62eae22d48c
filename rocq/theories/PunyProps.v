(* Punycode: uniqueness of the encoding, and the property forms. *)
From Verif Require Import Base ModelAlgo ModelPuny SpecPuny AlgoFacts PunyFacts PunyLoop PunyEnc.
From Verif Require PctFacts.
Local Open Scope N_scope.
Local Open Scope list_scope.

Lemma forallb_filter_id {A} (f : A -> bool) l : forallb f l = true -> filter f l = l.
Proof. induction l as [|x l IH]; cbn; [reflexivity|]. intros H. apply andb_prop in H as [-> H]. rewrite IH; auto. Qed.

(* ---- RFC decoder states -------------------------------------------------------------------------------- *)
Definition ordered (n i : N) (out : list N) : Prop :=
  exists a b, out = a ++ b /\ len a = i /\ (forall c, In c a -> c <= n) /\ (forall c, In c b -> c < n).

Lemma ordered_all n i out c : ordered n i out -> In c out -> c <= n.
Proof. intros (a & b & -> & _ & Ha & Hb) Hc. apply in_app_or in Hc as [Hc|Hc]; [auto|]. apply Hb in Hc. lia. Qed.

(* the next state: lexicographically later *)
Lemma step_forward n i delta size : 0 < size -> i < size -> 
  let n' := n + (i + delta) / size in let i' := (i + delta) mod size in n < n' \/ (n' = n /\ i' = i + delta).
Proof.
  intros Hs Hi n' i'. destruct (N.eq_dec ((i + delta) / size) 0) as [E|E].
  - right. unfold n', i'. split; [lia|]. pose proof (N.div_mod' (i + delta) size) as H. rewrite E in H. lia.
  - left. unfold n'. apply N.lt_add_pos_r, N.neq_0_lt_0, E.
Qed.

Lemma ordered_step n i pre post delta : ordered n i (pre ++ post) ->
  len pre = (i + delta) mod (len (pre ++ post) + 1) ->
  ordered (n + (i + delta) / (len (pre ++ post) + 1)) (len pre + 1) (pre ++ (n + (i + delta) / (len (pre ++ post) + 1)) :: post).
Proof.
  intros Ho El. pose proof Ho as (a & b & E & Ea & Ha & Hb).
  assert (Hsz : i < len (pre ++ post) + 1) by (rewrite E, app_length; lia).
  pose proof (step_forward n i delta (len (pre ++ post) + 1) ltac:(lia) Hsz) as Hs. cbv zeta in Hs. rewrite <- El in Hs.
  set (n' := n + (i + delta) / (len (pre ++ post) + 1)) in *. clearbody n'.
  exists (pre ++ [n']), post. split; [rewrite <- app_assoc; reflexivity|]. split; [rewrite app_length; cbn [length]; lia|]. split.
  - intros c Hc. apply in_app_or in Hc as [Hc|[<-|[]]]; [|lia].
    assert (c <= n) by (eapply ordered_all; [exact Ho|apply in_or_app; auto]). lia.
  - intros c Hc. destruct Hs as [Hs|[-> Hs]].
    + assert (c <= n) by (eapply ordered_all; [exact Ho|apply in_or_app; auto]). lia.
    + apply Hb. assert (Hle : (length a <= length pre)%nat) by lia. clear - E Hle Hc.
      revert a E Hle; induction pre as [|x pre IH]; intros [|y a] E Hle; cbn in *; try lia; try (injection E as -> E); subst; auto.
      * right. apply in_or_app; auto.
      * apply (IH a); auto. lia.
Qed.

Lemma decoding_low n i bias out s u : decoding n i bias out s u -> forall m, m < n ->
  filter (fun c => c <=? m) u = filter (fun c => c <=? m) out.
Proof.
  induction 1 as [|n i bias pre post delta bias' n' i' word rest final Hv size Ha En Ei El Hd IH]; intros m Hm; [reflexivity|].
  assert (n <= n') by (rewrite En; apply N.le_add_r).
  rewrite IH by lia. rewrite !filter_app. cbn [filter]. destruct (N.leb_spec n' m); [lia|reflexivity].
Qed.

Lemma decoding_prefix n i bias out s u : decoding n i bias out s u -> ordered n i out ->
  exists a b d, out = a ++ b /\ len a = i /\ filter (fun c => c <=? n) u = a ++ d.
Proof.
  induction 1 as [n i bias out|n i bias pre post delta bias' n' i' word rest final Hv size Ha En Ei El Hd IH]; intros Ho.
  - pose proof Ho as (a & b & -> & Ea & _). exists a, b, b. repeat split; auto.
    apply forallb_filter_id. apply forallb_forall. intros c Hc. apply N.leb_le. eapply ordered_all; eauto.
  - pose proof (ordered_step n i pre post delta Ho ltac:(fold size; congruence)) as Ho'.
    fold size in Ho'. rewrite <- En in Ho'. rewrite El in Ho'.
    destruct (IH Ho') as (a' & b' & d & E' & Ea' & Ef).
    pose proof Ho as (a & b & E & Ea & Hla & Hlb).
    assert (Hsz : i < size) by (unfold size; rewrite E, app_length; lia).
    pose proof (step_forward n i delta size ltac:(lia) Hsz) as Hs. cbv zeta in Hs. rewrite <- En, <- Ei in Hs.
    destruct Hs as [Hs|[En2 Hs]].
    + exists a, b, b. repeat split; auto. rewrite (decoding_low _ _ _ _ _ _ Hd n Hs).
      rewrite filter_app. cbn [filter]. destruct (N.leb_spec n' n); [lia|]. rewrite <- filter_app, E.
      apply forallb_filter_id. apply forallb_forall. intros c Hc. apply N.leb_le. apply (ordered_all _ _ _ c Ho). rewrite E; exact Hc.
    + subst n'. rewrite En2 in *. 
      destruct (app_split_at a' (pre ++ [n]) b' post) as [-> ->].
      { rewrite <- E', <- app_assoc. reflexivity. } { rewrite app_length. cbn [length]. lia. }
      exists a, b, (skipn (length a) ((pre ++ [n]) ++ d)). repeat split; auto. rewrite Ef.
      assert (Hp : firstn (length a) ((pre ++ [n]) ++ d) = a).
      { assert (Hle : (length a <= length pre)%nat) by lia. clear - E Hle.
        revert pre E Hle; induction a as [|x a IH]; intros [|y pre] E Hle; cbn in *; auto; try lia. injection E as -> E. f_equal. apply IH; auto. lia. }
      rewrite <- (firstn_skipn (length a) ((pre ++ [n]) ++ d)) at 1. rewrite Hp. reflexivity.
Qed.

Definition lower (s : str) : Prop := forall c, In c s -> In c lower_digits.
Lemma lower_value_unique c c' d : In c lower_digits -> In c' lower_digits -> has_value c d -> has_value c' d -> c = c'.
Proof.
  intros Hc Hc' H H'. apply decode_digit_value in H, H'.
  assert (E : forallb (fun a => forallb (fun b => negb (decode_digit (code a) =? decode_digit (code b)) || Ascii.eqb a b) lower_digits) lower_digits = true)
    by (vm_compute; reflexivity).
  rewrite forallb_forall in E. specialize (E c Hc). rewrite forallb_forall in E. specialize (E c' Hc').
  rewrite H, H', N.eqb_refl in E. apply Ascii.eqb_eq. exact E.
Qed.
Lemma vli_word_unique bias k q w : vli bias k q w -> forall w', vli bias k q w' -> lower w -> lower w' -> w = w'.
Proof.
  induction 1 as [k q c Hc Hq|k q d q1 c s Hc Hd Eq Hv IH]; intros w' H' Hl Hl'; inversion H'; subst.
  - f_equal. eapply lower_value_unique; [apply Hl| apply Hl' | |]; eauto; left; reflexivity.
  - exfalso. nia.
  - exfalso. nia.
  - pose proof (has_value_lt _ _ Hc). pose proof (has_value_lt _ _ H). pose proof (threshold_bounds k bias).
    change rfc_base with 36 in *. set (t := threshold k bias) in *.
    assert (d = d0 /\ q1 = q') as [<- <-].
    { assert (Hsub : (d - t) + (36 - t) * q1 = (d0 - t) + (36 - t) * q') by lia.
      rewrite !(N.add_comm (_ - t)) in Hsub. apply N.div_mod_unique in Hsub; lia. }
    f_equal; [eapply lower_value_unique; [apply Hl|apply Hl'| |]; eauto; left; reflexivity|].
    apply IH; auto; intros x Hx; [apply Hl|apply Hl']; right; exact Hx.
Qed.

(* which insertion comes next is determined by the final result *)
Lemma decoding_text_unique n i bias out s u : decoding n i bias out s u -> forall s', decoding n i bias out s' u ->
  ordered n i out -> lower s -> lower s' -> s = s'.
Proof.
  induction 1 as [n i bias out|n i bias pre post delta bias' n' i' word rest final Hv size Ha En Ei El Hd IH]; intros s' H' Ho Hl Hl'.
  - apply decoding_inv in H' as [[-> _]|(pre & post & delta & bias' & word & rest & E & -> & Hv & _ & _ & Hd)]; [reflexivity|].
    exfalso. apply decoding_longer in Hd. rewrite E in Hd at 1. rewrite !app_length in Hd. rewrite E, app_length in Hd. cbn [length] in Hd. lia.
  - apply decoding_inv in H' as [[-> E]|(pre1 & post1 & delta1 & bias1 & word1 & rest1 & E & -> & Hv1 & Ha1 & El1 & Hd1)].
    { exfalso. apply decoding_longer in Hd. subst final. rewrite !app_length in Hd. cbn [length] in Hd. lia. }
    fold size in Ha1, El1, Hd1.
    pose proof (ordered_step n i pre post delta Ho ltac:(fold size; congruence)) as Ho'.
    fold size in Ho'. rewrite <- En, El in Ho'.
    assert (Ho1 : ordered (n + (i + delta1) / size) (len pre1 + 1) (pre1 ++ n + (i + delta1) / size :: post1)).
    { unfold size. rewrite E. apply ordered_step; rewrite <- E; auto. }
    assert (Hsz : i < size). { destruct Ho as (a & b & Eab & Ea & _). unfold size. rewrite Eab, app_length. lia. }
    assert (Hall : forall c, In c (pre ++ post) -> c <= n) by (intros; eapply ordered_all; eauto).
    set (n1 := n + (i + delta1) / size) in *.
    pose proof (step_forward n i delta size ltac:(lia) Hsz) as Hs. cbv zeta in Hs. rewrite <- En, <- Ei in Hs.
    pose proof (step_forward n i delta1 size ltac:(lia) Hsz) as Hs1. cbv zeta in Hs1. fold n1 in Hs1. rewrite <- El1 in Hs1.
    (* the code point inserted first is the same *)
    assert (Hcount : forall n' n1 pre post pre1 post1 a b a1 b1 s s1, pre ++ post = pre1 ++ post1 -> n' < n1 ->
       decoding n' a b (pre ++ n' :: post) s final -> decoding n1 a1 b1 (pre1 ++ n1 :: post1) s1 final -> False).
    { clear. intros n' n1 pre post pre1 post1 a b a1 b1 s s1 E Hlt Hd Hd1.
      pose proof (decoding_low _ _ _ _ _ _ Hd1 n' Hlt) as F1.
      rewrite filter_app in F1. cbn [filter] in F1. destruct (N.leb_spec n1 n'); [lia|]. rewrite <- filter_app, <- E in F1.
      assert (Hmono : forall n i bias out s u, decoding n i bias out s u -> forall f, (length (filter f out) <= length (filter f u))%nat).
      { clear. induction 1 as [|n i bias pre post delta bias' n' i' word rest final Hv size Ha En Ei El Hd IH]; intros f; [lia|].
        specialize (IH f). rewrite filter_app, app_length in IH. cbn [filter] in IH. rewrite filter_app, app_length.
        destruct (f n'); cbn [length] in IH; lia. }
      specialize (Hmono _ _ _ _ _ _ Hd (fun c => c <=? n')). rewrite F1 in Hmono.
      rewrite !filter_app, !app_length in Hmono. cbn [filter] in Hmono. rewrite N.leb_refl in Hmono. cbn [length] in Hmono. lia. }
    assert (n' = n1) as Enn.
    { destruct (N.lt_trichotomy n' n1) as [Hlt|[->|Hlt]]; [exfalso|reflexivity|exfalso].
      - eapply (Hcount n' n1 pre post pre1 post1); eauto.
      - eapply (Hcount n1 n' pre1 post1 pre post); eauto. }
    (* and the position *)
    assert (Hpos : forall pre post pre1 post1 b b1 s s1, pre ++ post = pre1 ++ post1 -> (length pre < length pre1)%nat ->
       (forall c, In c post -> c < n') ->
       ordered n' (len pre + 1) (pre ++ n' :: post) -> ordered n' (len pre1 + 1) (pre1 ++ n' :: post1) ->
       decoding n' (len pre + 1) b (pre ++ n' :: post) s final -> decoding n' (len pre1 + 1) b1 (pre1 ++ n' :: post1) s1 final -> False).
    { clear. intros pre post pre1 post1 b b1 s s1 E Hlt Hpost Ho Ho1 Hd Hd1.
      apply decoding_prefix in Hd as (a & c & d & Ea & Hla & F); auto.
      apply decoding_prefix in Hd1 as (a1 & c1 & d1 & Ea1 & Hla1 & F1); auto.
      destruct (app_split_at a (pre ++ [n']) c post) as [-> ->].
      { rewrite <- Ea, <- app_assoc. reflexivity. } { rewrite app_length. cbn [length]. lia. }
      destruct (app_split_at a1 (pre1 ++ [n']) c1 post1) as [-> ->].
      { rewrite <- Ea1, <- app_assoc. reflexivity. } { rewrite app_length. cbn [length]. lia. }
      rewrite F in F1. clear - F1 E Hlt Hpost.
      assert (exists x y, pre1 = pre ++ x :: y /\ In x post) as (x & y & -> & Hx).
      { clear F1. revert pre1 E Hlt; induction pre as [|p pre IH]; intros [|q pre1] E Hlt; cbn in *; try lia.
        - exists q, pre1. split; [reflexivity|]. rewrite E. left; reflexivity.
        - injection E as -> E. destruct (IH pre1 E) as (x & y & -> & Hx); [lia|]. exists x, y. auto. }
      rewrite <- !app_assoc in F1. apply app_inv_head in F1. cbn in F1. injection F1 as Hxx _. specialize (Hpost x Hx). lia. }
    assert (Hp1 : forall c, In c post -> c < n').
    { destruct Ho' as (a & b & Eab & Ela & _ & Hb). destruct (app_split_at a (pre ++ [n']) b post) as [-> ->]; auto.
      - rewrite <- Eab, <- app_assoc. reflexivity.
      - rewrite app_length. cbn [length]. clear - Ela El. lia. }
    assert (Hp2 : forall c, In c post1 -> c < n').
    { rewrite Enn. destruct Ho1 as (a & b & Eab & Ela & _ & Hb). destruct (app_split_at a (pre1 ++ [n1]) b post1) as [-> ->]; auto.
      - rewrite <- Eab, <- app_assoc. reflexivity.
      - rewrite app_length. cbn [length]. clear - Ela El. lia. }
    assert (En1 : n1 = n + (i + delta1) / size) by reflexivity. clearbody n1. rewrite <- Enn in *. rewrite <- El in *. clear Enn n1.
    assert (length pre = length pre1) as Elen.
    { destruct (Nat.lt_trichotomy (length pre) (length pre1)) as [Hlt|[He|Hlt]]; [exfalso|exact He|exfalso].
      - eapply (Hpos pre post pre1 post1); eauto.
      - eapply (Hpos pre1 post1 pre post); eauto. }
    destruct (app_split_at _ _ _ _ E Elen) as [<- <-].
    assert (delta1 = delta) as ->.
    { assert (Hq : (i + delta) / size = (i + delta1) / size). { apply (N.add_cancel_l _ _ n). congruence. }
      pose proof (N.div_mod' (i + delta) size) as D. pose proof (N.div_mod' (i + delta1) size) as D1. rewrite Hq, <- Ei, El1 in D. rewrite <- El1 in D, D1. apply (N.add_cancel_l _ _ i). congruence. }
    pose proof (adapted_fun _ _ _ _ _ Ha Ha1) as <-.
    assert (word1 = word) as ->.
    { eapply vli_word_unique; eauto; intros x Hx; [apply Hl'|apply Hl]; apply in_or_app; auto. }
    f_equal. apply IH; auto; intros x Hx; [apply Hl|apply Hl']; apply in_or_app; auto.
Qed.

(* ---- property forms --------------------------------------------------------------------------------------- *)
Lemma nonbasic_iff u : has_non_basic u = true <-> exists c, In c u /\ 0x80 <= c.
Proof.
  unfold has_non_basic. rewrite existsb_exists. split; intros (c & H & E); exists c; split; auto.
  - apply negb_true_iff, N.ltb_ge in E. exact E.
  - apply negb_true_iff, N.ltb_ge. exact E.
Qed.
Lemma lower_not_hyphen s : lower s -> ~ In hyphen s.
Proof.
  intros H Hin. apply H in Hin.
  assert (E : existsb (Ascii.eqb hyphen) lower_digits = false) by (vm_compute; reflexivity).
  apply (Bool.eq_true_false_abs _ (proj2 (existsb_exists _ _) (ex_intro _ hyphen (conj Hin (Ascii.eqb_refl _)))) E).
Qed.
Lemma basics_basic u c : In c (basics u) -> code c < 0x80.
Proof.
  unfold basics. intros H. apply in_map_iff in H as (x & <- & Hx). apply filter_In in Hx as [_ Hx]. apply N.ltb_lt in Hx.
  rewrite PctFacts.code_chr; lia.
Qed.
Lemma basics_empty u : existsb (fun c => c <? 0x80) u = negb (match basics u with [] => true | _ => false end).
Proof. unfold basics. induction u as [|c u IH]; cbn; [reflexivity|]. destruct (c <? 128); cbn; [reflexivity|exact IH]. Qed.

(* encode, summarised *)
Lemma encode_shape u plain : len u < p32 -> (forall c, In c u -> c < p32) ->
  exists e b, encode u plain = Ok (e, b) /\ (b = true <-> exists c, In c u /\ 0x80 <= c)
  /\ (plain = true -> b = false -> e = basics u)
  /\ (plain = false \/ b = true -> exists digits, e = (match basics u with [] => [] | l => l ++ [hyphen] end) ++ digits
        /\ lower digits /\ puny_decodes e u).
Proof.
  intros Hl Hu. destruct (encode_ok u plain Hl Hu) as [(-> & Hn & E)|(digits & E & Hp & Hd & Hdec)].
  - exists (basics u), false. split; [exact E|]. split; [rewrite <- nonbasic_iff, Hn; reflexivity|]. split; [auto|].
    intros [H|H]; discriminate.
  - rewrite basics_empty in E. eexists _, _. split; [exact E|]. split; [apply nonbasic_iff|]. split.
    + intros -> Hf. destruct Hp; congruence.
    + intros _. exists digits. rewrite <- codes_basics in Hdec.
      destruct (basics u) as [|x l] eqn:Eb; cbn [negb].
      * split; [reflexivity|]. split; [exact Hd|]. exists [], digits. repeat split; auto; [apply lower_not_hyphen; exact Hd|intros c []].
      * split; [reflexivity|]. split; [exact Hd|]. exists (x :: l), digits. split.
        { left. split; [rewrite <- app_assoc; reflexivity|discriminate]. }
        split; [apply lower_not_hyphen; exact Hd|]. split; [|exact Hdec].
        intros c Hc. apply (basics_basic u). rewrite Eb. exact Hc.
Qed.

Lemma c19 u plain : len u < 2 ^ 32 -> (forall c, In c u -> c < 2 ^ 32) -> (plain = false \/ exists c, In c u /\ 0x80 <= c) ->
  exists e b, encode u plain = Ok (e, b) /\ decode e = Ok (inl u).
Proof.
  intros Hl Hu Hp. destruct (encode_shape u plain Hl Hu) as (e & b & E & Hb & _ & Hs). exists e, b. split; [exact E|].
  destruct Hs as (digits & _ & _ & Hd); [destruct Hp; [auto|right; apply Hb; assumption]|].
  apply decode_complete; auto.
Qed.

Lemma c20_injective u u' plain e b : len u < 2 ^ 32 -> (forall c, In c u -> c < 2 ^ 32) -> len u' < 2 ^ 32 -> (forall c, In c u' -> c < 2 ^ 32) ->
  encode u plain = Ok (e, b) -> encode u' plain = Ok (e, b) -> u = u'.
Proof.
  intros Hl Hu Hl' Hu' E E'.
  destruct (encode_shape u plain Hl Hu) as (e0 & b0 & E0 & Hb & Hpl & Hs). rewrite E in E0. injection E0 as <- <-.
  destruct (encode_shape u' plain Hl' Hu') as (e0 & b0 & E0 & Hb' & Hpl' & Hs'). rewrite E' in E0. injection E0 as <- <-.
  assert (Hcase : (plain = true /\ b = false) \/ (plain = false \/ b = true)) by (destruct plain, b; auto).
  destruct Hcase as [[-> ->]|Hc].
  - rewrite (Hpl eq_refl eq_refl) in Hpl'. specialize (Hpl' eq_refl eq_refl).
    assert (Hall : forall u, (false = true <-> exists c, In c u /\ 128 <= c) -> map code (basics u) = u).
    { clear. intros u H. rewrite codes_basics. apply forallb_filter_id. apply forallb_forall. intros c Hc. apply N.ltb_lt.
      destruct (N.lt_ge_cases c 128); [assumption|]. exfalso. assert (false = true) by (apply H; eauto). discriminate. }
    rewrite <- (Hall u Hb), <- (Hall u' Hb'). congruence.
  - destruct (Hs Hc) as (_ & _ & _ & Hd). destruct (Hs' Hc) as (_ & _ & _ & Hd'). eapply puny_decodes_fun; eauto.
Qed.

Lemma ascii_lower c : In c lower_digits -> code c < 128.
Proof.
  intros H. assert (E : forallb (fun c => code c <? 128) lower_digits = true) by (vm_compute; reflexivity).
  rewrite forallb_forall in E. apply N.ltb_lt, E, H.
Qed.

(* the only lower-case text that RFC 3492 decodes to u *)
Lemma map_code_inj a b : map code a = map code b -> a = b.
Proof.
  revert b; induction a as [|x a IH]; intros [|y b] E; cbn in E; try discriminate; auto.
  injection E as E1 E2. f_equal; [|auto]. rewrite <- (PctFacts.chr_code x), <- (PctFacts.chr_code y). congruence.
Qed.
Lemma puny_text_unique lit d lit' d' u :
  (forall c, In c lit -> code c < 0x80) -> (forall c, In c lit' -> code c < 0x80) -> lower d -> lower d' ->
  decoding rfc_initial_n 0 rfc_initial_bias (map code lit) d u -> decoding rfc_initial_n 0 rfc_initial_bias (map code lit') d' u ->
  lit = lit' /\ d = d'.
Proof.
  intros Hb Hb' Hl Hl' Hd Hd'.
  assert (F : forall lit d, (forall c, In c lit -> code c < 0x80) -> decoding rfc_initial_n 0 rfc_initial_bias (map code lit) d u ->
    filter (fun c => c <=? 127) u = map code lit).
  { clear. intros lit d Hb Hd. rewrite (decoding_low _ _ _ _ _ _ Hd 127) by reflexivity.
    apply forallb_filter_id, forallb_forall. intros c Hc. apply in_map_iff in Hc as (x & <- & Hx). apply Hb in Hx. apply N.leb_le. lia. }
  assert (lit = lit') as <-. { apply map_code_inj. rewrite <- (F lit d Hb Hd). apply (F lit' d' Hb' Hd'). }
  split; [reflexivity|]. eapply decoding_text_unique; eauto.
  exists [], (map code lit). split; [reflexivity|]. split; [reflexivity|]. split; [intros c []|].
  intros c Hc. apply in_map_iff in Hc as (x & <- & Hx). apply Hb in Hx. exact Hx.
Qed.

Lemma c35 u plain : len u < 2 ^ 32 -> (forall c, In c u -> c < 2 ^ 32) -> (plain = false \/ exists c, In c u /\ 0x80 <= c) ->
  exists e b, encode u plain = Ok (e, b) /\ punycode_of u e /\ (forall e', punycode_of u e' -> e' = e).
Proof.
  intros Hl Hu Hp. destruct (encode_shape u plain Hl Hu) as (e & b & E & Hb & _ & Hs). exists e, b. split; [exact E|].
  destruct Hs as (digits & Ee & Hlo & Hd); [destruct Hp; [auto|right; apply Hb; assumption]|].
  assert (Hpu : punycode_of u e).
  { destruct Hd as (lit & d & C & Hn & Hbas & Hdec). exists lit, d. repeat split; auto.
    intros c Hc. apply Hlo. clear - C Ee Hc Hlo Hn.
    assert (Hsp : d = digits); [|congruence].
    destruct (basics u) as [|x l].
    - cbn in Ee. subst e. destruct C as [(E & _)|(E & _)]; [|congruence].
      exfalso. apply (lower_not_hyphen digits Hlo). rewrite E. apply in_or_app; right; left; reflexivity.
    - rewrite <- app_assoc in Ee. cbn [app] in Ee. destruct C as [(E & _)|(E & _)].
      + rewrite Ee in E. change (x :: l ++ hyphen :: digits) with ((x :: l) ++ hyphen :: digits) in E.
        apply hyphen_split_unique in E as [_ E]; auto. apply lower_not_hyphen; auto.
      + exfalso. apply Hn. rewrite <- E, Ee. right. apply in_or_app; right; left; reflexivity. }
  split; [exact Hpu|]. intros e' (lit' & d' & C' & Hlo' & Hbas' & Hdec').
  destruct Hpu as (lit & d & C & Hlo2 & Hbas & Hdec).
  destruct (puny_text_unique lit' d' lit d u) as [-> ->]; auto.
  destruct C as [(-> & H1)|(-> & H1)], C' as [(-> & H2)|(-> & H2)]; congruence.
Qed.

Lemma c21_codes s u c : decode s = Ok (inl u) -> len s < 2 ^ 32 -> In c u -> c < 2 ^ 32 /\ (c < 0x80 -> exists x, In x s /\ code x = c).
Proof.
  intros E Hl Hc. apply (decode_iff s u Hl) in E as [Hd Hu]. split; [apply Hu, Hc|]. intros Hlt.
  assert (Hgen : forall lit d, decoding rfc_initial_n 0 rfc_initial_bias (map code lit) d u -> exists x, In x lit /\ code x = c).
  { intros lit d H. destruct (decoding_from _ _ _ _ _ _ H c Hc) as [Hin|Hge].
    - apply in_map_iff in Hin as (x & Ex & Hx). eauto.
    - unfold rfc_initial_n in Hge. lia. }
  destruct Hd as [(lit & d & C & _ & _ & Hd)|(s' & -> & _ & (lit & d & C & _ & _ & Hd))];
  destruct (Hgen _ _ Hd) as (x & Hx & Ex); exists x; split; auto; destruct C as [(-> & _)|(_ & ->)]; try destruct Hx;
  try (right; apply in_or_app; auto; fail); try (apply in_or_app; auto; fail); auto.
Qed.

Lemma c21_plain_nonascii a b c : In c a -> 0x80 <= code c -> ~ In hyphen b -> decode (a ++ hyphen :: b) = Ok (inr bad_input).
Proof.
  intros Hc Hge Hn. rewrite decode_hyphen by auto. destruct (forallb _ a) eqn:E; [|reflexivity].
  rewrite forallb_forall in E. specialize (E c Hc). apply N.ltb_lt in E. lia.
Qed.

Lemma c20 u plain : len u < 2 ^ 32 -> (forall c, In c u -> c < 2 ^ 32) ->
  let literal := map chr (filter (fun c => c <? 0x80) u) in
  exists e b, encode u plain = Ok (e, b) /\ (b = true <-> exists c, In c u /\ 0x80 <= c)
  /\ (plain = true -> b = false -> e = literal)
  /\ (plain = false \/ b = true -> exists digits,
        e = (match literal with [] => [] | l => l ++ ["-"%char] end) ++ digits
        /\ (forall c, In c digits -> In c (ss "abcdefghijklmnopqrstuvwxyz0123456789")))
  /\ (forall c, In c e -> code c < 0x80).
Proof.
  intros Hl Hu literal. destruct (encode_shape u plain Hl Hu) as (e & b & E & Hb & Hpl & Hs). exists e, b.
  split; [exact E|]. split; [exact Hb|]. split; [exact Hpl|]. split.
  - intros H. destruct (Hs H) as (digits & Ee & Hlo & _). exists digits. split; [|exact Hlo].
    rewrite Ee. fold (basics u) in literal. subst literal. destruct (basics u); reflexivity.
  - assert (Hcase : (plain = true /\ b = false) \/ (plain = false \/ b = true)) by (destruct plain, b; auto).
    intros c Hc. destruct Hcase as [[H1 H2]|H].
    + rewrite (Hpl H1 H2) in Hc. eapply basics_basic; eauto.
    + destruct (Hs H) as (digits & Ee & Hlo & _). rewrite Ee in Hc. apply in_app_or in Hc as [Hc|Hc]; [|apply ascii_lower; auto].
      destruct (basics u) as [|x l] eqn:Eb; [destruct Hc|]. rewrite <- Eb in Hc. apply in_app_or in Hc as [Hc|[<-|[]]]; [|reflexivity].
      eapply basics_basic; eauto.
Qed.

Lemma c21_delimiter : exists s u, decode s = Ok (inl u) /\ ~ puny_decodes s u.
Proof.
  exists (ss "-kva"). eexists. split; [vm_compute; reflexivity|].
  intros (lit & d & [(E & Hne)|(E & ->)] & Hn & _).
  - destruct lit as [|x lit]; [congruence|]. change (ss "-kva") with ([] ++ hyphen :: ss "kva") in E.
    apply hyphen_split_unique in E as [E _]; [discriminate| |exact Hn]. vm_compute. intuition discriminate.
  - apply Hn. rewrite <- E. left. reflexivity.
Qed.
Lemma c21_unicode : exists s s', decode s = Ok (inl [0xD800]) /\ decode s' = Ok (inl [0x110000]).
Proof.
  destruct (c19 [0xD800] false) as (e & b & _ & E); [reflexivity| |auto|].
  { intros c [<-|[]]. reflexivity. }
  destruct (c19 [0x110000] false) as (e' & b' & _ & E'); [reflexivity| |auto|].
  { intros c [<-|[]]. reflexivity. }
  eauto.
Qed.
