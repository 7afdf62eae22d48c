(* The work of the counted parser: an analysis of grammars, proved right *)
From Verif Require Import Base ModelRule ModelUri ModelParse ParseWork.
Local Open Scope N_scope.
Local Open Scope bool_scope.
Notation "# l" := (N.of_nat (length l)) (at level 5, format "# l").

(* what is known of a rule: mx - it matches at most so many characters; ne - at least one; nf - it never fails;
   matching k of n characters costs at most sa * k + sc * n + sb and gives at most ea * k + eb acceptors;
   failing costs at most fc * n + fb *)
Record attr := Attr { mx : option N; ne : bool; nf : bool; sa : N; sc : N; sb : N; fc : N; fb : N; ea : N; eb : N }.
Definition mx_add (a b : option N) : option N := match a, b with Some a, Some b => Some (a + b) | _, _ => None end.
Definition mx_max (a b : option N) : option N := match a, b with Some a, Some b => Some (N.max a b) | _, _ => None end.
(* a * k for a k of at most m characters out of n: u * n + v *)
Definition over_n (m : option N) (a : N) : N := match m with Some _ => 0 | None => a end.
Definition over_1 (m : option N) (a : N) : N := match m with Some m => a * m | None => 0 end.

Ltac gen_max := repeat match goal with |- context [N.max ?x ?y] =>
  let S := fresh "S" in let H1 := fresh "Hl" in let H2 := fresh "Hr" in
  pose proof (N.le_max_l x y) as H1; pose proof (N.le_max_r x y) as H2; set (S := N.max x y) in *; clearbody S end.
Section Weights.
(* the price of a look, a call, a copy and a run *)
Variables wl wc wp wr : N.
Definition weight (w : cost) : N := wl * looks w + wc * calls w + wp * copies w + wr * runs w.
Lemma weight_plus a b : weight (a +$ b) = weight a + weight b.
Proof. unfold weight, plus_cost. cbn. lia. Qed.
Lemma weight_call : weight (call 1) = wc.
Proof. unfold weight. cbn. lia. Qed.
Lemma weight_copy k : weight (copy k) = wp * N.of_nat k.
Proof. unfold weight. cbn. lia. Qed.
Lemma weight_free : weight free = 0.
Proof. unfold weight. cbn. lia. Qed.

Definition good (a : attr) (n k w e : N) : Prop :=
  k <= n /\ (forall m, mx a = Some m -> k <= m) /\ (ne a = true -> 1 <= k) /\ w <= sa a * k + sc a * n + sb a /\ e <= ea a * k + eb a.
Definition bad (a : attr) (n w : N) : Prop := nf a = false /\ w <= fc a * n + fb a.

Definition a_start : attr := Attr (Some 0) false true 0 0 0 0 0 0 0.
Definition a_leaf (nonempty : bool) : attr := Attr (Some 1) nonempty false 0 0 wl 0 wl 0 0.
Definition a_concat (c g : attr) (j : N) : attr :=
  Attr (mx_add (mx c) (mx g)) (ne c || ne g) (nf c && nf g)
    (N.max (sa c + wp * ea c) (sa g + wp * ea g)) (sc c + sc g) (sb c + wc + sb g + wp * (2 * j + eb c + eb g))
    (N.max (fc c) (if nf g then 0 else sc c + fc g + over_n (mx c) (sa c))) (N.max (fb c) (if nf g then 0 else sb c + wc + fb g + over_1 (mx c) (sa c)))
    (N.max (ea c) (ea g)) (eb c + eb g + j).
Definition a_optional (c g : attr) (j : N) : attr :=
  Attr (mx_add (mx c) (mx g)) (ne c) (nf c)
    (N.max (sa c + wp * ea c) (sa g + 2 * wp * ea g)) (sc c + N.max (sc g) (fc g))
    (sb c + wc + wp * eb c + N.max (sb g + wp * (2 * eb g + 3 * j)) (fb g))
    (fc c) (fb c) (N.max (ea c) (ea g)) (eb c + eb g + j).
Definition a_each (g : attr) : N := sa g + sb g + wc + wp * (ea g + eb g).
Definition a_last (g : attr) (max : N) : N := wc + (if max =? uint_max then fb g else N.max (fb g) (sb g + over_1 (mx g) (sa g))).
Definition a_star (c g : attr) (min max : N) : option attr :=
  if ne g && (sc g =? 0) && (fc g =? 0) && (max <=? uint_max) && ((max =? uint_max) || match mx g with Some _ => true | None => false end) then
    let m := if max =? uint_max then None else match mx g with Some m => Some (max * m) | None => None end in
    let k := sa c + wp * ea c in
    Some (Attr (mx_add (mx c) m) (ne c || ((0 <? min) && (0 <? max))) (nf c && (min =? 0))
      (N.max k (a_each g)) (sc c) (sb c + wp * eb c + a_last g max)
      (N.max (fc c) (if min =? 0 then 0 else sc c + over_n (mx c) k + over_n m (a_each g)))
      (N.max (fb c) (if min =? 0 then 0 else sb c + wp * eb c + a_last g max + over_1 (mx c) k + over_1 m (a_each g)))
      (N.max (ea c) (ea g + eb g)) (eb c))
  else None.
Definition a_none : attr := Attr (Some 0) true false 0 0 0 0 0 0 0.
Definition a_or (g h : attr) : attr :=
  Attr (mx_max (mx g) (mx h)) (ne g && ne h) (nf g || nf h)
    (N.max (sa g + wp * ea g) (sa h)) (if nf g then sc g else N.max (sc g) (fc g + sc h)) (wc + (if nf g then sb g + wp * eb g else N.max (sb g + wp * eb g) (fb g + sb h)))
    (fc g + fc h) (wc + fb g + fb h)
    (N.max (ea g) (ea h)) (N.max (eb g) (eb h)).
(* r.alternative (...): the acceptors already there are copied *)
Definition a_alt (c g : attr) : attr :=
  Attr (mx_add (mx c) (mx g)) (ne c || ne g) (nf c && nf g)
    (N.max (sa c + wp * ea c) (sa g)) (sc c + sc g) (sb c + sb g + wp * eb c)
    (N.max (fc c) (if nf g then 0 else sc c + fc g + over_n (mx c) (sa c))) (N.max (fb c) (if nf g then 0 else sb c + fb g + over_1 (mx c) (sa c)))
    (N.max (ea c) (ea g)) (eb c + eb g).
Definition a_matched (c : attr) : attr :=
  Attr (mx c) (ne c) (nf c) (sa c + wp * ea c) (sc c) (sb c + wp * eb c) (fc c) (fb c) (ea c) (eb c).

Definition omap {X Y} (f : X -> option Y) (x : option X) : option Y := match x with Some x => f x | None => None end.
Fixpoint attr_of (g : gram) : option attr :=
  match g with
  | Not_colon => Some (a_leaf false)
  | Rule c => omap (fun c => Some (a_matched c)) (chain_attr c)
  | _ => Some (a_leaf true)
  end
with chain_attr (c : chain) : option attr :=
  match c with
  | Start => Some a_start
  | Concat c g acc => omap (fun c => omap (fun g => Some (a_concat c g (match acc with Some _ => 1 | None => 0 end))) (attr_of g)) (chain_attr c)
  | Optional c g acc => omap (fun c => omap (fun g => Some (a_optional c g (match acc with Some _ => 1 | None => 0 end))) (attr_of g)) (chain_attr c)
  | Repeat c g min max => omap (fun c => omap (fun g => a_star c g min max) (attr_of g)) (chain_attr c)
  | Alt c gs => omap (fun c => omap (fun g => Some (a_alt c g)) (grams_attr gs)) (chain_attr c)
  end
with grams_attr (gs : grams) : option attr :=
  match gs with
  | Gnil => Some a_none
  | Gcons g gs => omap (fun g => omap (fun h => Some (a_or g h)) (grams_attr gs)) (attr_of g)
  end.

(* --- arithmetic --- *)
Lemma over_le m a k n : k <= n -> (forall x, m = Some x -> k <= x) -> a * k <= over_n m a * n + over_1 m a.
Proof. intros H K. unfold over_n, over_1. destruct m as [x|]; [specialize (K x eq_refl)|]; nia. Qed.
Lemma mul_mono a b x : a <= b -> a * x <= b * x.
Proof. apply N.mul_le_mono_r. Qed.
Lemma mx_add_ok a b k l : (forall m, a = Some m -> k <= m) -> (forall m, b = Some m -> l <= m) -> forall m, mx_add a b = Some m -> k + l <= m.
Proof. destruct a as [x|], b as [y|]; cbn; intros H K m E; try discriminate. injection E as <-. specialize (H x eq_refl). specialize (K y eq_refl). lia. Qed.
Lemma good_concat c g j n k1 k2 w1 w2 e1 e2 : good c n k1 w1 e1 -> good g (n - k1) k2 w2 e2 ->
  good (a_concat c g j) n (k1 + k2) (w1 + (wc + w2 + wp * (j + e1 + (e2 + j)))) (e1 + (e2 + j)).
Proof.
  intros (A1 & A2 & A3 & A4 & A5) (B1 & B2 & B3 & B4 & B5). unfold good, a_concat. cbn [mx ne nf sa sc sb fc fb ea eb].
  split; [lia|]. split; [now apply mx_add_ok|]. split. { intros H. apply orb_true_iff in H. destruct H as [H|H]; [specialize (A3 H)|specialize (B3 H)]; lia. }
  assert (M1 : sc g * (n - k1) <= sc g * n) by (apply N.mul_le_mono_l; lia).
  assert (M2 : wp * e1 <= wp * (ea c * k1 + eb c)) by now apply N.mul_le_mono_l.
  assert (M3 : wp * e2 <= wp * (ea g * k2 + eb g)) by now apply N.mul_le_mono_l.
  assert (M6 : (sa c + wp * ea c) * k1 <= N.max (sa c + wp * ea c) (sa g + wp * ea g) * k1) by (apply mul_mono; lia).
  assert (M7 : (sa g + wp * ea g) * k2 <= N.max (sa c + wp * ea c) (sa g + wp * ea g) * k2) by (apply mul_mono; lia).
  assert (M8 : ea c * k1 <= N.max (ea c) (ea g) * k1) by (apply mul_mono; lia).
  assert (M9 : ea g * k2 <= N.max (ea c) (ea g) * k2) by (apply mul_mono; lia).
  gen_max. split; lia.
Qed.
Lemma bad_after c g n k1 w1 e1 w2 x : good c n k1 w1 e1 -> bad g (n - k1) w2 ->
  w1 + (x + w2) <= (sc c + fc g + over_n (mx c) (sa c)) * n + (sb c + x + fb g + over_1 (mx c) (sa c)).
Proof.
  intros (A1 & A2 & A3 & A4 & A5) (B1 & B2). pose proof (over_le (mx c) (sa c) k1 n A1 A2) as O.
  assert (M1 : fc g * (n - k1) <= fc g * n) by (apply N.mul_le_mono_l; lia). lia.
Qed.
Lemma bad_concat c g j n k1 w1 e1 w2 : good c n k1 w1 e1 -> bad g (n - k1) w2 -> bad (a_concat c g j) n (w1 + (wc + w2)).
Proof.
  intros A B. pose proof (bad_after c g n k1 w1 e1 w2 wc A B) as Q. destruct B as [NF _]. unfold bad, a_concat. cbn [mx ne nf sa sc sb fc fb ea eb]. rewrite NF, andb_false_r. split; [reflexivity|].
  gen_max. pose proof (mul_mono _ _ n Hr) as Q1. lia.
Qed.
Lemma bad_concat0 c g j n w1 : bad c n w1 -> bad (a_concat c g j) n w1.
Proof.
  intros [NF W]. unfold bad, a_concat. cbn [mx ne nf sa sc sb fc fb ea eb]. rewrite NF. split; [reflexivity|]. gen_max. pose proof (mul_mono _ _ n Hl) as Q1. lia.
Qed.
Lemma good_optional c g j n k1 k2 w1 w2 e1 e2 : good c n k1 w1 e1 -> good g (n - k1) k2 w2 e2 ->
  good (a_optional c g j) n (k1 + k2) (w1 + (wc + w2 + wp * (j + (e2 + j)) + wp * (e1 + (e2 + j)))) (e1 + (e2 + j)).
Proof.
  intros (A1 & A2 & A3 & A4 & A5) (B1 & B2 & B3 & B4 & B5). unfold good, a_optional. cbn [mx ne nf sa sc sb fc fb ea eb].
  split; [lia|]. split; [now apply mx_add_ok|]. split. { intros H. specialize (A3 H). lia. }
  assert (M1 : sc g * (n - k1) <= sc g * n) by (apply N.mul_le_mono_l; lia).
  assert (M2 : wp * e1 <= wp * (ea c * k1 + eb c)) by now apply N.mul_le_mono_l.
  assert (M3 : wp * e2 <= wp * (ea g * k2 + eb g)) by now apply N.mul_le_mono_l.
  assert (M4 : sc g * n <= N.max (sc g) (fc g) * n) by (apply mul_mono; lia).
  assert (M5 := N.le_max_l (sb g + wp * (2 * eb g + 3 * j)) (fb g)).
  assert (M6 : (sa c + wp * ea c) * k1 <= N.max (sa c + wp * ea c) (sa g + 2 * wp * ea g) * k1) by (apply mul_mono; lia).
  assert (M7 : (sa g + 2 * wp * ea g) * k2 <= N.max (sa c + wp * ea c) (sa g + 2 * wp * ea g) * k2) by (apply mul_mono; lia).
  assert (M8 : ea c * k1 <= N.max (ea c) (ea g) * k1) by (apply mul_mono; lia).
  assert (M9 : ea g * k2 <= N.max (ea c) (ea g) * k2) by (apply mul_mono; lia).
  gen_max. split; lia.
Qed.
Lemma good_optional_no c g j n k1 w1 w2 e1 : good c n k1 w1 e1 -> bad g (n - k1) w2 ->
  good (a_optional c g j) n (k1 + 0) (w1 + (wc + w2 + wp * e1)) e1.
Proof.
  intros (A1 & A2 & A3 & A4 & A5) (B1 & B2). unfold good, a_optional. cbn [mx ne nf sa sc sb fc fb ea eb]. rewrite N.add_0_r.
  split; [lia|]. split. { intros m E. unfold mx_add in E. destruct (mx c) as [x|]; [|discriminate]. destruct (mx g) as [y|]; [|discriminate]. injection E as <-. specialize (A2 x eq_refl). lia. }
  split; [exact A3|].
  assert (M1 : fc g * (n - k1) <= fc g * n) by (apply N.mul_le_mono_l; lia).
  assert (M2 : wp * e1 <= wp * (ea c * k1 + eb c)) by now apply N.mul_le_mono_l.
  assert (M4 : fc g * n <= N.max (sc g) (fc g) * n) by (apply mul_mono; lia).
  assert (M5 := N.le_max_r (sb g + wp * (2 * eb g + 3 * j)) (fb g)).
  assert (M6 : (sa c + wp * ea c) * k1 <= N.max (sa c + wp * ea c) (sa g + 2 * wp * ea g) * k1) by (apply mul_mono; lia).
  assert (M8 : ea c * k1 <= N.max (ea c) (ea g) * k1) by (apply mul_mono; lia).
  gen_max. split; lia.
Qed.
Lemma good_or1 g h n k w e : good g n k w e -> good (a_or g h) n k (wc + w + wp * e) e.
Proof.
  intros (A1 & A2 & A3 & A4 & A5). unfold good, a_or. cbn [mx ne nf sa sc sb fc fb ea eb]. split; [exact A1|]. split.
  { intros m E. unfold mx_max in E. destruct (mx g) as [x|]; [|discriminate]. destruct (mx h) as [y|]; [|discriminate]. injection E as <-. specialize (A2 x eq_refl). lia. }
  split. { intros H. apply andb_true_iff in H. now apply A3. }
  assert (M2 : wp * e <= wp * (ea g * k + eb g)) by now apply N.mul_le_mono_l.
  assert (M6 : (sa g + wp * ea g) * k <= N.max (sa g + wp * ea g) (sa h) * k) by (apply mul_mono; lia).
  assert (M8 : ea g * k <= N.max (ea g) (ea h) * k) by (apply mul_mono; lia).
  assert (M9 := N.le_max_l (eb g) (eb h)). split; [|gen_max; lia].
  destruct (nf g); [gen_max; lia|]. assert (M4 : sc g * n <= N.max (sc g) (fc g + sc h) * n) by (apply mul_mono; lia).
  assert (M5 := N.le_max_l (sb g + wp * eb g) (fb g + sb h)). gen_max; lia.
Qed.
Lemma good_or2 g h n k w1 w e : bad g n w1 -> good h n k w e -> good (a_or g h) n k (wc + w1 + w) e.
Proof.
  intros (B1 & B2) (A1 & A2 & A3 & A4 & A5). unfold good, a_or. cbn [mx ne nf sa sc sb fc fb ea eb]. split; [exact A1|]. split.
  { intros m E. unfold mx_max in E. destruct (mx g) as [x|]; [|discriminate]. destruct (mx h) as [y|]; [|discriminate]. injection E as <-. specialize (A2 y eq_refl). lia. }
  split. { intros H. apply andb_true_iff in H. now apply A3. }
  rewrite B1.
  assert (M6 : sa h * k <= N.max (sa g + wp * ea g) (sa h) * k) by (apply mul_mono; lia).
  assert (M8 : ea h * k <= N.max (ea g) (ea h) * k) by (apply mul_mono; lia).
  assert (M9 := N.le_max_r (eb g) (eb h)).
  assert (M4 : (fc g + sc h) * n <= N.max (sc g) (fc g + sc h) * n) by (apply mul_mono; lia).
  assert (M5 := N.le_max_r (sb g + wp * eb g) (fb g + sb h)). gen_max; split; lia.
Qed.
Lemma bad_or g h n w1 w : bad g n w1 -> bad h n w -> bad (a_or g h) n (wc + w1 + w).
Proof. intros [A1 A2] [B1 B2]. unfold bad, a_or. cbn [mx ne nf sa sc sb fc fb ea eb]. rewrite A1, B1. split; [reflexivity|]. lia. Qed.
Lemma good_alt c g n k1 k2 w1 w2 e1 e2 : good c n k1 w1 e1 -> good g (n - k1) k2 w2 e2 ->
  good (a_alt c g) n (k1 + k2) (w1 + (w2 + wp * e1)) (e1 + e2).
Proof.
  intros (A1 & A2 & A3 & A4 & A5) (B1 & B2 & B3 & B4 & B5). unfold good, a_alt. cbn [mx ne nf sa sc sb fc fb ea eb].
  split; [lia|]. split; [now apply mx_add_ok|]. split. { intros H. apply orb_true_iff in H. destruct H as [H|H]; [specialize (A3 H)|specialize (B3 H)]; lia. }
  assert (M1 : sc g * (n - k1) <= sc g * n) by (apply N.mul_le_mono_l; lia).
  assert (M2 : wp * e1 <= wp * (ea c * k1 + eb c)) by now apply N.mul_le_mono_l.
  assert (M6 : (sa c + wp * ea c) * k1 <= N.max (sa c + wp * ea c) (sa g) * k1) by (apply mul_mono; lia).
  assert (M7 : (sa g) * k2 <= N.max (sa c + wp * ea c) (sa g) * k2) by (apply mul_mono; lia).
  assert (M8 : ea c * k1 <= N.max (ea c) (ea g) * k1) by (apply mul_mono; lia).
  assert (M9 : ea g * k2 <= N.max (ea c) (ea g) * k2) by (apply mul_mono; lia).
  gen_max. split; lia.
Qed.
Lemma bad_alt c g n k1 w1 e1 w2 : good c n k1 w1 e1 -> bad g (n - k1) w2 -> bad (a_alt c g) n (w1 + w2).
Proof.
  intros A B. pose proof (bad_after c g n k1 w1 e1 w2 0 A B) as Q. destruct B as [NF _]. unfold bad, a_alt. cbn [mx ne nf sa sc sb fc fb ea eb]. rewrite NF, andb_false_r. split; [reflexivity|].
  gen_max. pose proof (mul_mono _ _ n Hr) as Q1. lia.
Qed.
Lemma bad_alt0 c g n w1 : bad c n w1 -> bad (a_alt c g) n w1.
Proof.
  intros [NF W]. unfold bad, a_alt. cbn [mx ne nf sa sc sb fc fb ea eb]. rewrite NF. split; [reflexivity|]. gen_max. pose proof (mul_mono _ _ n Hl) as Q1. lia.
Qed.
Lemma good_matched c n k w e : good c n k w e -> good (a_matched c) n k (w + wp * e) e.
Proof.
  intros (A1 & A2 & A3 & A4 & A5). unfold good, a_matched. cbn [mx ne nf sa sc sb fc fb ea eb]. repeat split; auto.
  assert (M2 : wp * e <= wp * (ea c * k + eb c)) by now apply N.mul_le_mono_l. lia.
Qed.

(* --- matchers --- *)
Definition sound (F : matcher_w action) (a : attr) : Prop := forall t r w, F (rule_of t) = Ok (r, w) ->
  match r with Some (m, acc) => good a #t #m (weight w) #acc | None => bad a #t (weight w) end.
Definition after (a : attr) (t : str) (r : rule action) (w : cost) : Prop :=
  match tail r with Some t' => (length t' <= length t)%nat /\ good a #t (#t - #t') (weight w) #(accs r) | None => accs r = [] /\ bad a #t (weight w) end.
Definition chain_sound (R : rule action -> outcome (rule action * cost)) (a : attr) : Prop := forall t r w, R (rule_of t) = Ok (r, w) -> after a t r w.

Lemma sound_leaf (f : matcher action) (b : bool) :
  (forall t m acc, f (rule_of t) = Ok (Some (m, acc)) -> acc = [] /\ (length m <= length t)%nat /\ (length m <= 1)%nat /\ (b = true -> length m = 1%nat)) -> sound (leaf_w f) (a_leaf b).
Proof.
  intros H t r w E. unfold leaf_w in E. destruct (f (rule_of t)) as [m| |] eqn:Ef; cbn [bind] in E; try discriminate. injection E as <- <-.
  assert (W : weight (match t with [] => free | _ :: _ => look 1 end) <= wl) by (destruct t; unfold weight; cbn; lia).
  destruct m as [[m acc]|].
  - destruct (H _ _ _ Ef) as (-> & L & L1 & L2). unfold good, a_leaf. cbn [tail rule_of mx ne nf sa sc sb fc fb ea eb]. split; [lia|]. split; [intros m0 Em; injection Em as <-; lia|].
    split; [intros Hb; rewrite (L2 Hb); lia|]. split; [lia|cbn [length]; lia].
  - unfold bad, a_leaf. cbn [mx ne nf sa sc sb fc fb ea eb tail rule_of]. split; [reflexivity|lia].
Qed.
Lemma single_char_p_one (p : ascii -> outcome bool) t m (acc : acceptors action) : single_char_p p (rule_of t) = Ok (Some (m, acc)) ->
  acc = [] /\ (length m <= length t)%nat /\ (length m <= 1)%nat /\ (true = true -> length m = 1%nat).
Proof.
  unfold single_char_p. cbn. destruct t as [|c t]; [discriminate|]. destruct (p c) as [b| |]; cbn; try discriminate. destruct b; [|discriminate].
  intros E. injection E as <- <-. cbn. repeat split; lia.
Qed.
Lemma join_len (self : rule action) t m r : tail self = Some t -> join_rule_m self m = Ok r ->
  exists t', tail r = Some t' /\ accs r = accs self ++ snd m /\ (length (fst m) <= length t)%nat /\ length t' = (length t - length (fst m))%nat.
Proof.
  intros E. unfold join_rule_m, substr_from. rewrite E. destruct (Nat.ltb _ _) eqn:L; cbn; [discriminate|]. intros Q. injection Q as <-. cbn.
  apply Nat.ltb_ge in L. eexists. split; [reflexivity|]. split; [reflexivity|]. split; [exact L|]. apply skipn_length.
Qed.
Ltac lens := repeat rewrite ?app_length, ?Nat2N.inj_add, ?Nat2N.inj_sub in *; cbn [length] in *.
Lemma good_eq a n k k' w w' e e' : good a n k w e -> k = k' -> w = w' -> e = e' -> good a n k' w' e'.
Proof. intros; subst; assumption. Qed.
Lemma bad_eq a n w w' : bad a n w -> w = w' -> bad a n w'.
Proof. intros; subst; assumption. Qed.

Lemma sound_concat R F c g acc : chain_sound R c -> sound F g ->
  chain_sound (fun r => then_w (R r) (concat_impl_w F acc false)) (a_concat c g (match acc with Some _ => 1 | None => 0 end)).
Proof.
  intros HR HF t r w E. unfold then_w in E. destruct (R (rule_of t)) as [[r1 w1]| |] eqn:E1; cbn [bind] in E; try discriminate.
  apply HR in E1. unfold after in E1. destruct (concat_impl_w F acc false r1) as [[r2 w2]| |] eqn:E2; cbn [bind] in E; try discriminate. injection E as <- <-.
  unfold concat_impl_w in E2. destruct (tail r1) as [t1|] eqn:T1.
  - destruct E1 as (L1 & G1). destruct (F (rule_of t1)) as [[m w3]| |] eqn:EF; cbn [bind] in E2; try discriminate. apply HF in EF.
    assert (N1 : #t1 = #t - (#t - #t1)) by lia. rewrite N1 in EF.
    destruct m as [[m a]|].
    + destruct (join_rule_m r1 _) as [r3| |] eqn:EJ; cbn [bind] in E2; try discriminate. injection E2 as <- <-.
      destruct (join_len _ _ _ _ T1 EJ) as (t' & T' & A' & L' & N'). cbn [fst snd] in *. unfold after. rewrite T'. split; [lia|].
      pose proof (good_concat c g (match acc with Some _ => 1 | None => 0 end) _ _ _ _ _ _ _ G1 EF) as Q.
      eapply good_eq; [exact Q|lia| |]; rewrite ?A', ?weight_plus, ?weight_call, ?weight_copy; destruct acc; lens; lia.
    + injection E2 as <- <-. unfold after. cbn [tail rule_fail]. split; [reflexivity|].
      eapply bad_eq; [exact (bad_concat c g _ _ _ _ _ _ G1 EF)|]. rewrite !weight_plus, weight_call. reflexivity.
  - destruct E1 as (A1 & B1). injection E2 as <- <-. unfold after. rewrite T1. split; [exact A1|]. eapply bad_eq; [apply bad_concat0; exact B1|].
    rewrite weight_plus, weight_copy, A1. cbn [length]. lia.
Qed.
Lemma sound_optional R F c g acc : chain_sound R c -> sound F g ->
  chain_sound (fun r => then_w (R r) (optional_impl_w F acc)) (a_optional c g (match acc with Some _ => 1 | None => 0 end)).
Proof.
  intros HR HF t r w E. unfold then_w in E. destruct (R (rule_of t)) as [[r1 w1]| |] eqn:E1; cbn [bind] in E; try discriminate.
  apply HR in E1. unfold after in E1. destruct (optional_impl_w F acc r1) as [[r2 w2]| |] eqn:E2; cbn [bind] in E; try discriminate. injection E as <- <-.
  unfold optional_impl_w in E2. destruct (tail r1) as [t1|] eqn:T1.
  - destruct E1 as (L1 & G1). unfold concat_impl_w in E2. cbn [tail rule_of accs length] in E2.
    destruct (F (rule_of t1)) as [[m w3]| |] eqn:EF; cbn [bind] in E2; try discriminate. apply HF in EF.
    assert (N1 : #t1 = #t - (#t - #t1)) by lia. rewrite N1 in EF.
    destruct m as [[m a]|].
    + destruct (join_rule_m _ _) as [r3| |] eqn:EJ; cbn [bind] in E2; try discriminate.
      destruct (join_len (rule_of t1) t1 _ _ eq_refl EJ) as (t' & T' & A' & L' & N'). cbn [fst snd accs rule_of app] in *. rewrite T' in E2. injection E2 as <- <-.
      unfold after, join_rule_r. cbn [tail accs]. rewrite T'. split; [lia|].
      pose proof (good_optional c g (match acc with Some _ => 1 | None => 0 end) _ _ _ _ _ _ _ G1 EF) as Q.
      eapply good_eq; [exact Q|lia| |]; rewrite ?A', ?weight_plus, ?weight_call, ?weight_copy; destruct acc; lens; rewrite ?A'; lens; lia.
    + cbn [tail] in E2. injection E2 as <- <-. unfold after, join_rule_r. cbn [tail accs rule_of]. split; [exact L1|].
      eapply good_eq; [exact (good_optional_no c g (match acc with Some _ => 1 | None => 0 end) _ _ _ _ _ G1 EF)|lia| |]; rewrite ?weight_plus, ?weight_call, ?weight_copy; lens; lia.
  - destruct E1 as (A1 & B1). injection E2 as <- <-. unfold after. rewrite T1. split; [exact A1|]. destruct B1 as [B1 B2]. unfold bad. cbn. split; [exact B1|].
    rewrite weight_plus, weight_copy, A1. cbn [length]. lia.
Qed.
Lemma sound_alts Fs g : (forall (self : rule action) t r w, tail self = Some t -> alternative_w Fs self = Ok (r, w) ->
    match tail r with Some t' => (length t' <= length t)%nat /\ exists e, #(accs r) = #(accs self) + e /\ exists w', weight w = w' + wp * #(accs self) /\ good g #t (#t - #t') w' e
    | None => accs r = [] /\ bad g #t (weight w) end) ->
  forall R c, chain_sound R c -> (forall r, tail r = None -> accs r = [] -> exists r' w, alternative_w Fs r = Ok (r', w) /\ tail r' = None /\ accs r' = [] /\ weight w = 0) ->
  chain_sound (fun r => then_w (R r) (alternative_w Fs)) (a_alt c g).
Proof.
  intros H R c HR HN t r w E. unfold then_w in E. destruct (R (rule_of t)) as [[r1 w1]| |] eqn:E1; cbn [bind] in E; try discriminate.
  apply HR in E1. unfold after in E1. destruct (alternative_w Fs r1) as [[r2 w2]| |] eqn:E2; cbn [bind] in E; try discriminate. injection E as <- <-.
  destruct (tail r1) as [t1|] eqn:T1.
  - destruct E1 as (L1 & G1). specialize (H _ _ _ _ T1 E2). assert (N1 : #t1 = #t - (#t - #t1)) by lia. unfold after. destruct (tail r2) as [t'|].
    + destruct H as (L2 & e & Ee & w' & Ew & G2). split; [lia|]. rewrite N1 in G2 at 1.
      eapply good_eq; [exact (good_alt _ _ _ _ _ _ _ _ _ G1 G2)|lia| |]; rewrite ?weight_plus; lia.
    + destruct H as (A & B). split; [exact A|]. rewrite N1 in B. eapply bad_eq; [exact (bad_alt _ _ _ _ _ _ _ G1 B)|]. rewrite weight_plus. reflexivity.
  - destruct E1 as (A1 & B1). destruct (HN r1 T1 A1) as (r' & w' & E' & T' & A' & W'). rewrite E2 in E'. injection E' as -> ->.
    unfold after. rewrite T'. split; [exact A'|]. eapply bad_eq; [apply bad_alt0; exact B1|]. rewrite weight_plus, W'. lia.
Qed.
Lemma alts_none Fs (r : rule action) : tail r = None -> accs r = [] -> exists r' w, alternative_w Fs r = Ok (r', w) /\ tail r' = None /\ accs r' = [] /\ weight w = 0.
Proof.
  intros T A. destruct Fs as [|F Fs]; cbn [alternative_w].
  - exists rule_fail, free. repeat split. apply weight_free.
  - rewrite T. exists r, (copy (length (accs r))). repeat split; try assumption. rewrite weight_copy, A. cbn [length]. lia.
Qed.
Definition alts_sound (Fs : list (matcher_w action)) (g : attr) : Prop :=
  forall (self : rule action) t r w, tail self = Some t -> alternative_w Fs self = Ok (r, w) ->
    match tail r with Some t' => (length t' <= length t)%nat /\ exists e, #(accs r) = #(accs self) + e /\ exists w', weight w = w' + wp * #(accs self) /\ good g #t (#t - #t') w' e
    | None => accs r = [] /\ bad g #t (weight w) end.
Lemma alts_nil : alts_sound [] a_none.
Proof. intros self t r w T E. cbn in E. injection E as <- <-. cbn [tail rule_fail accs]. split; [reflexivity|]. unfold bad. rewrite weight_free. cbn. split; [reflexivity|lia]. Qed.
Lemma alts_cons F Fs g h : sound F g -> alts_sound Fs h -> alts_sound (F :: Fs) (a_or g h).
Proof.
  intros HF HS self t r w T E. cbn [alternative_w] in E. rewrite T in E. destruct (F (rule_of t)) as [[m w1]| |] eqn:EF; cbn [bind] in E; try discriminate.
  apply HF in EF. destruct m as [[m a]|].
  - destruct (join_rule_m self (m, a)) as [r'| |] eqn:EJ; cbn [bind] in E; try discriminate. injection E as <- <-.
    destruct (join_len _ _ _ _ T EJ) as (t' & T' & A' & L' & N'). cbn [fst snd] in *. rewrite T'. split; [lia|]. exists #a. split; [rewrite A'; lens; lia|].
    exists (wc + weight w1 + wp * #a). split; [rewrite ?weight_plus, ?weight_call, ?weight_copy; lens; lia|].
    eapply good_eq; [exact (good_or1 g h _ _ _ _ EF)|lia|reflexivity|reflexivity].
  - destruct (alternative_w Fs self) as [[r' w']| |] eqn:EA; cbn [bind] in E; try discriminate. injection E as <- <-.
    specialize (HS _ _ _ _ T EA). destruct (tail r') as [t'|].
    + destruct HS as (L & e & Ee & w2 & Ew & G). split; [exact L|]. exists e. split; [exact Ee|]. exists (wc + weight w1 + w2).
      split; [rewrite ?weight_plus, ?weight_call; lia|]. exact (good_or2 g h _ _ _ _ _ EF G).
    + destruct HS as (A & B). split; [exact A|]. rewrite !weight_plus, weight_call. exact (bad_or g h _ _ _ EF B).
Qed.
Lemma incr_small c max : c <= max -> max < uint_max -> uint_incr c = c + 1.
Proof. intros H K. unfold uint_incr. apply N.mod_small. unfold uint_max in K. lia. Qed.
Lemma incr_bound c : uint_incr c <= uint_max.
Proof. unfold uint_incr, uint_max. pose proof (N.mod_upper_bound (c + 1) (2 ^ 32) ltac:(discriminate)). lia. Qed.
Lemma loop_cost F g max : sound F g -> ne g = true -> sc g = 0 -> fc g = 0 -> max <= uint_max -> (max = uint_max \/ exists M, mx g = Some M) ->
  forall fuel s len acc count len' acc' count' w, star_loop_w fuel F max s len acc count = Ok (len', acc', count', w) -> count <= max ->
  (len <= len')%nat /\ let k := N.of_nat (len' - len) in k <= #s /\ weight w <= a_each g * k + a_last g max /\ #acc' <= #acc + (ea g + eb g) * k
  /\ (max <> uint_max -> forall M, mx g = Some M -> k <= (max - count) * M).
Proof.
  intros HF NE SC FC ML HM. induction fuel as [|fuel IH]; intros s len acc count len' acc' count' w E C; [discriminate|].
  cbn [star_loop_w] in E. destruct (F (rule_of s)) as [[m w1]| |] eqn:EF; cbn [bind] in E; try discriminate. apply HF in EF. destruct m as [[ms a]|].
  - destruct EF as (K1 & K2 & K3 & K4 & K5). specialize (K3 NE). rewrite SC in K4. cbv zeta in E. destruct (N.ltb_spec max (uint_incr count)) as [L|L].
    + injection E as <- <- <- <-. split; [lia|]. rewrite Nat.sub_diag. cbv zeta. rewrite !weight_plus, weight_call.
      destruct HM as [->|(M & HM)]; [pose proof (incr_bound count); lia|]. specialize (K2 M HM).
      split; [lia|]. split; [|split; [lia|intros; apply N.le_0_l]]. unfold a_last. rewrite HM. cbn [over_1].
      destruct (N.eqb_spec max uint_max) as [->|X]; [pose proof (incr_bound count); lia|].
      assert (sa g * #ms <= sa g * M) by now apply N.mul_le_mono_l. lia.
    + destruct (Nat.ltb _ _) eqn:LL; [discriminate|]. apply Nat.ltb_ge in LL.
      destruct (star_loop_w fuel F max _ _ _ _) as [[[[len2 acc2] count2] w2]| |] eqn:E2; cbn [bind] in E; try discriminate. injection E as <- <- <- <-.
      destruct (IH _ _ _ _ _ _ _ _ E2 L) as (I1 & I2 & I3 & I4 & I5). split; [lia|]. cbv zeta. rewrite skipn_length in I2. rewrite app_length in I4.
      assert (KK : N.of_nat (len2 - len) = #ms + N.of_nat (len2 - (len + length ms))) by lia. rewrite KK. set (k2 := N.of_nat (len2 - (len + length ms))) in *. clearbody k2.
      split; [lia|]. rewrite !weight_plus, weight_call, weight_copy.
      assert (M0 : wp * #a <= wp * (ea g * #ms + eb g)) by now apply N.mul_le_mono_l.
      assert (M1 : (sb g + wc + wp * eb g) * 1 <= (sb g + wc + wp * eb g) * #ms) by now apply N.mul_le_mono_l.
      assert (M2 : eb g * 1 <= eb g * #ms) by now apply N.mul_le_mono_l.
      split; [unfold a_each in *; lia|]. split; [lia|].
      intros NM M HMx. specialize (I5 NM M HMx). specialize (K2 M HMx). rewrite (incr_small count max) in I5, L by lia.
      assert (Q : (max - count) * M = (max - (count + 1)) * M + M) by (replace (max - count) with (max - (count + 1) + 1) by lia; lia). lia.
  - injection E as <- <- <- <-. destruct EF as (B1 & B2). rewrite FC in B2. split; [lia|]. rewrite Nat.sub_diag. cbv zeta. rewrite !weight_plus, weight_call.
    split; [lia|]. split; [|split; [lia|intros; apply N.le_0_l]]. unfold a_last. destruct (max =? uint_max); [lia|]. pose proof (N.le_max_l (fb g) (sb g + over_1 (mx g) (sa g))). lia.
Qed.
Lemma loop_nonempty F g max : sound F g -> ne g = true -> sc g = 0 -> fc g = 0 -> max <= uint_max -> (max = uint_max \/ exists M, mx g = Some M) ->
  forall fuel s len acc len' acc' count' w, star_loop_w fuel F max s len acc 0 = Ok (len', acc', count', w) -> 0 < max -> 0 < count' -> (len < len')%nat.
Proof.
  intros HF NE SC FC ML HM fuel s len acc len' acc' count' w E MP CP. destruct fuel as [|fuel]; [discriminate|].
  cbn [star_loop_w] in E. destruct (F (rule_of s)) as [[m w1]| |] eqn:EF; cbn [bind] in E; try discriminate. apply HF in EF. destruct m as [[ms a]|].
  - destruct EF as (K1 & K2 & K3 & K4 & K5). specialize (K3 NE). cbv zeta in E. change (uint_incr 0) with 1 in E. destruct (N.ltb_spec max 1) as [L|L]; [lia|].
    destruct (Nat.ltb _ _) eqn:LL; [discriminate|].
    destruct (star_loop_w fuel F max _ _ _ _) as [[[[len2 acc2] count2] w2]| |] eqn:E2; cbn [bind] in E; try discriminate. injection E as <- <- <- <-.
    destruct (loop_cost F g max HF NE SC FC ML HM _ _ _ _ _ _ _ _ _ E2 L) as (I1 & _). lia.
  - injection E as <- <- <- <-. lia.
Qed.
Lemma sound_star R F c g b fuel min max : a_star c g min max = Some b -> chain_sound R c -> sound F g ->
  chain_sound (fun r => then_w (R r) (star_w fuel F min max)) b.
Proof.
  intros HB HR HF t r w E. unfold a_star in HB.
  destruct (ne g) eqn:NE; [|discriminate]. destruct (N.eqb_spec (sc g) 0) as [SC|]; [|discriminate]. destruct (N.eqb_spec (fc g) 0) as [FC|]; [|discriminate].
  destruct (N.leb_spec max uint_max) as [ML|]; [|discriminate]. cbn [andb] in HB.
  assert (HM : max = uint_max \/ exists M, mx g = Some M).
  { destruct (N.eqb_spec max uint_max); [auto|]. destruct (mx g); [eauto|discriminate]. }
  destruct (_ || _); [|discriminate]. apply (f_equal (fun x => match x with Some x => x | None => b end)) in HB. cbv beta iota zeta in HB.
  set (m := if max =? uint_max then None else match mx g with Some m => Some (max * m) | None => None end) in *.
  set (k0 := sa c + wp * ea c) in *.
  unfold then_w in E. destruct (R (rule_of t)) as [[r1 w1]| |] eqn:E1; cbn [bind] in E; try discriminate.
  apply HR in E1. unfold after in E1. destruct (star_w fuel F min max r1) as [[r2 w2]| |] eqn:E2; cbn [bind] in E; try discriminate. injection E as <- <-.
  unfold star_w in E2. destruct (tail r1) as [t1|] eqn:T1.
  - destruct E1 as (L1 & A1 & A2 & A3 & A4 & A5). destruct (star_loop_w fuel F max t1 0 (accs r1) 0) as [[[[len acc] count] w3]| |] eqn:EL; cbn [bind] in E2; try discriminate.
    destruct (loop_cost F g max HF NE SC FC ML HM _ _ _ _ _ _ _ _ _ EL ltac:(lia)) as (_ & I2 & I3 & I4 & I5). rewrite Nat.sub_0_r in *. rewrite N.sub_0_r in I5.
    assert (MM : forall x, m = Some x -> N.of_nat len <= x).
    { intros x Ex. unfold m in Ex. destruct (N.eqb_spec max uint_max) as [|NM]; [discriminate|]. destruct (mx g) as [M|]; [|discriminate]. injection Ex as <-. exact (I5 NM M eq_refl). }
    set (k1 := #t - #t1) in *. set (k2 := N.of_nat len) in *.
    assert (M2 : wp * #(accs r1) <= wp * (ea c * k1 + eb c)) by now apply N.mul_le_mono_l.
    destruct (N.ltb_spec count min) as [CM|CM].
    + injection E2 as <- <-. unfold after. cbn [tail rule_fail accs]. split; [reflexivity|]. rewrite <- HB. unfold bad. cbn [mx ne nf sa sc sb fc fb ea eb].
      destruct (N.eqb_spec min 0) as [->|MZ]; [lia|]. rewrite andb_false_r. split; [reflexivity|]. rewrite !weight_plus, weight_copy.
      pose proof (over_le (mx c) k0 k1 #t A1 A2) as O1. pose proof (over_le m (a_each g) k2 #t ltac:(lia) MM) as O2.
      assert (Q1 : (sc c + over_n (mx c) k0 + over_n m (a_each g)) * #t <= N.max (fc c) (sc c + over_n (mx c) k0 + over_n m (a_each g)) * #t) by (apply mul_mono; lia).
      assert (Q2 := N.le_max_r (fb c) (sb c + wp * eb c + a_last g max + over_1 (mx c) k0 + over_1 m (a_each g))).
      assert (Q3 : k0 * k1 = sa c * k1 + wp * (ea c * k1)) by (unfold k0; lia).
      gen_max. lia.
    + unfold substr_from in E2. destruct (Nat.ltb _ _) eqn:LL; cbn [bind] in E2; [discriminate|]. apply Nat.ltb_ge in LL. injection E2 as <- <-.
      unfold after. cbn [tail accs]. rewrite skipn_length. split; [lia|].
      assert (KK : #t - N.of_nat (length t1 - len) = k1 + k2) by (unfold k1, k2; lia). rewrite KK. rewrite <- HB. unfold good. cbn [mx ne nf sa sc sb fc fb ea eb].
      split; [lia|]. split; [now apply mx_add_ok|]. split.
      { intros H. apply orb_true_iff in H. destruct H as [H|H]; [specialize (A3 H); lia|]. apply andb_true_iff in H. destruct H as [H1 H2]. apply N.ltb_lt in H1, H2.
        pose proof (loop_nonempty F g max HF NE SC FC ML HM _ _ _ _ _ _ _ _ EL H2 ltac:(lia)). unfold k2. lia. }
      rewrite !weight_plus, weight_copy.
      assert (Q1 : k0 * k1 <= N.max k0 (a_each g) * k1) by (apply mul_mono; lia).
      assert (Q2 : a_each g * k2 <= N.max k0 (a_each g) * k2) by (apply mul_mono; lia).
      assert (Q3 : k0 * k1 = sa c * k1 + wp * (ea c * k1)) by (unfold k0; lia).
      assert (Q4 : ea c * k1 <= N.max (ea c) (ea g + eb g) * k1) by (apply mul_mono; lia).
      assert (Q5 : (ea g + eb g) * k2 <= N.max (ea c) (ea g + eb g) * k2) by (apply mul_mono; lia).
      gen_max. split; lia.
  - destruct E1 as (A1 & B1). injection E2 as <- <-. unfold after. rewrite T1. split; [exact A1|]. rewrite <- HB. destruct B1 as [B1 B2]. unfold bad. cbn [mx ne nf sa sc sb fc fb ea eb].
    rewrite B1. split; [reflexivity|]. rewrite weight_plus, weight_copy, A1. cbn [length].
    set (y := if min =? 0 then 0 else _). set (z := if min =? 0 then 0 else _) at 1.
    pose proof (mul_mono _ _ #t (N.le_max_l (fc c) y)). pose proof (N.le_max_l (fb c) z). gen_max. lia.
Qed.
Lemma sound_rule R c : chain_sound R c -> sound (fun r => then_w (R r) (matched_w r)) (a_matched c).
Proof.
  intros HR t r w E. unfold then_w in E. destruct (R (rule_of t)) as [[r1 w1]| |] eqn:E1; cbn [bind] in E; try discriminate.
  apply HR in E1. unfold after in E1. unfold matched_w, matched in E. destruct (tail r1) as [t1|] eqn:T1; cbn [bind tail rule_of] in E.
  - destruct E1 as (L1 & G1). destruct (Nat.ltb _ _) eqn:LL; [apply Nat.ltb_lt in LL; lia|]. cbn [bind] in E. injection E as <- <-.
    eapply good_eq; [apply good_matched; exact G1| | |reflexivity]; [rewrite firstn_length; lia|rewrite weight_plus, weight_copy; reflexivity].
  - destruct E1 as (A1 & B1). injection E as <- <-. eapply bad_eq; [exact B1|]. rewrite weight_plus, weight_free. lia.
Qed.
Lemma not_colon_one t m (acc : acceptors action) : not_colon (rule_of t) = Ok (Some (m, acc)) ->
  acc = [] /\ (length m <= length t)%nat /\ (length m <= 1)%nat /\ (false = true -> length m = 1%nat).
Proof. unfold not_colon. cbn. destruct t as [|c t]; [|destruct (Ascii.eqb c ":")]; intros E; try discriminate; injection E as <- <-; cbn; repeat split; try lia; discriminate. Qed.
Lemma analysis sg fuel :
  (forall g a, attr_of g = Some a -> sound (run_w sg fuel g) a)
  /\ (forall c a, chain_attr c = Some a -> chain_sound (run_chain_w sg fuel c) a)
  /\ (forall gs a, grams_attr gs = Some a -> alts_sound (run_all_w sg fuel gs) a).
Proof.
  apply gram_mut; intros; cbn [attr_of chain_attr grams_attr] in *; cbn [run_w run_chain_w run_all_w];
  try match goal with H : Some _ = Some _ |- sound (leaf_w _) _ => injection H as <-; apply sound_leaf;
    first [intros; eapply single_char_p_one; eassumption|exact not_colon_one|idtac] end.
  - intros t m acc. unfold single_code_point, single_char. destruct (c_tolower _); cbn [bind]; try discriminate. apply single_char_p_one.
  - intros t m acc. unfold code_point_range, char_range. destruct (c_tolower _); cbn [bind]; try discriminate. destruct (c_tolower _); cbn [bind]; try discriminate. apply single_char_p_one.
  - destruct (chain_attr c) as [x|]; [|discriminate]. injection H0 as <-. apply sound_rule. now apply H.
  - injection H as <-. intros t r w E. injection E as <- <-. unfold after. cbn [tail rule_of accs]. split; [lia|]. rewrite weight_free. unfold good. cbn.
    rewrite N.sub_diag. split; [lia|]. split; [intros m E; injection E as <-; lia|]. split; [discriminate|]. split; lia.
  - destruct (chain_attr c) as [x|]; [|discriminate]. destruct (attr_of g) as [y|]; [|discriminate]. injection H1 as <-. apply sound_concat; auto.
  - destruct (chain_attr c) as [x|]; [|discriminate]. destruct (attr_of g) as [y|]; [|discriminate]. injection H1 as <-. apply sound_optional; auto.
  - destruct (chain_attr c) as [x|]; [|discriminate]. destruct (attr_of g) as [y|]; [|discriminate]. cbn [omap] in H1. eapply sound_star; eauto.
  - destruct (chain_attr c) as [x|]; [|discriminate]. destruct (grams_attr gs) as [y|]; [|discriminate]. injection H1 as <-.
    apply sound_alts; [apply H0; reflexivity|now apply H|apply alts_none].
  - injection H as <-. apply alts_nil.
  - destruct (attr_of g) as [x|]; [|discriminate]. destruct (grams_attr gs) as [y|]; [|discriminate]. injection H1 as <-. apply alts_cons; auto.
Qed.
End Weights.



(* --- the parser --- *)
Definition size_of {X} (f : X -> N) (l : list X) : N := fold_right (fun x n => f x + n) 0 l.
Definition price (a : option attr) : N * N := match a with Some a => (N.max (sa a + sc a) (fc a), N.max (sb a) (fb a)) | None => (0, 0) end.
Definition acceptors_of (a : option attr) : N * N := match a with Some a => (ea a, eb a) | None => (0, 0) end.
Lemma parse_cost wl wc wp wr sg fuel g a s r w : attr_of wl wc wp g = Some a -> parse_w sg fuel g s = Ok (r, w) ->
  weight wl wc wp wr w <= N.max (sa a + sc a + (wp + wr) * ea a) (fc a) * #s + (N.max (sb a + (wp + wr) * eb a) (fb a) + wc).
Proof.
  intros A E. unfold parse_w in E. destruct (concat_impl_w (run_w sg fuel g) None false (rule_of s)) as [[r1 w1]| |] eqn:E1; cbn [bind] in E; try discriminate.
  destruct (done run_action r1 empty_parts) as [b| |]; cbn [bind] in E; try discriminate. injection E as _ <-.
  assert (W : weight wl wc wp wr (w1 +$ (if fst b then Cost 0 0 0 #(accs r1) else free)) <= weight wl wc wp wr w1 + wr * #(accs r1)).
  { rewrite weight_plus. destruct (fst b); unfold weight at 2; cbn [looks calls copies runs free]; lia. }
  eapply N.le_trans; [exact W|]. clear W. unfold concat_impl_w in E1. cbn [tail rule_of accs length] in E1.
  destruct (run_w sg fuel g (rule_of s)) as [[m w2]| |] eqn:E2; cbn [bind] in E1; try discriminate.
  apply (proj1 (analysis wl wc wp wr sg fuel) g a A) in E2. destruct m as [[m acc]|].
  - destruct (join_rule_m _ _) as [r2| |] eqn:EJ; cbn [bind] in E1; try discriminate. injection E1 as <- <-. destruct E2 as (K1 & _ & _ & K4 & K5).
    destruct (join_len (rule_of s) s _ _ eq_refl EJ) as (_ & _ & AC & _). rewrite AC. cbn [accs rule_of app snd].
    rewrite !weight_plus, weight_call, weight_copy. cbn [Nat.add].
    assert (M1 : wp * #acc <= wp * (ea a * #m + eb a)) by now apply N.mul_le_mono_l.
    assert (M5 : wr * #acc <= wr * (ea a * #m + eb a)) by now apply N.mul_le_mono_l.
    assert (M2 : (sa a + (wp + wr) * ea a) * #m <= (sa a + (wp + wr) * ea a) * #s) by now apply N.mul_le_mono_l.
    assert (M3 : (sa a + sc a + (wp + wr) * ea a) * #s <= N.max (sa a + sc a + (wp + wr) * ea a) (fc a) * #s) by (apply mul_mono; lia).
    assert (M4 := N.le_max_l (sb a + (wp + wr) * eb a) (fb a)). gen_max. lia.
  - injection E1 as <- <-. destruct E2 as (_ & K). rewrite !weight_plus, weight_call. cbn [accs rule_fail length].
    assert (M3 : fc a * #s <= N.max (sa a + sc a + (wp + wr) * ea a) (fc a) * #s) by (apply mul_mono; lia).
    assert (M4 := N.le_max_r (sb a + (wp + wr) * eb a) (fb a)). gen_max. lia.
Qed.
(* the bound for one of the four counts *)
Definition rate (g : gram) (wl wc wp wr : N) : N * N :=
  match attr_of wl wc wp g with
  | Some a => (N.max (sa a + sc a + (wp + wr) * ea a) (fc a), N.max (sb a + (wp + wr) * eb a) (fb a) + wc) | None => (0, 0) end.
Lemma rate_ok g wl wc wp wr sg fuel s r w : attr_of wl wc wp g <> None -> parse_w sg fuel g s = Ok (r, w) ->
  weight wl wc wp wr w <= fst (rate g wl wc wp wr) * #s + snd (rate g wl wc wp wr).
Proof. intros A E. unfold rate. destruct (attr_of wl wc wp g) as [a|] eqn:EA; [|congruence]. exact (parse_cost wl wc wp wr sg fuel g a s r w EA E). Qed.
Definition within (g : gram) (b : (N * N) * (N * N) * (N * N) * (N * N)) : Prop := forall sg fuel s r w, parse_w sg fuel g s = Ok (r, w) ->
  let '(l, c, p, u) := b in
  looks w <= fst l * #s + snd l /\ calls w <= fst c * #s + snd c /\ copies w <= fst p * #s + snd p /\ runs w <= fst u * #s + snd u.
Lemma within_rate g : attr_of 1 0 0 g <> None -> attr_of 0 1 0 g <> None -> attr_of 0 0 1 g <> None -> attr_of 0 0 0 g <> None ->
  within g (rate g 1 0 0 0, rate g 0 1 0 0, rate g 0 0 1 0, rate g 0 0 0 1).
Proof.
  intros A B C D sg fuel s r w E.
  pose proof (rate_ok g 1 0 0 0 sg fuel s r w A E) as Q1. pose proof (rate_ok g 0 1 0 0 sg fuel s r w B E) as Q2.
  pose proof (rate_ok g 0 0 1 0 sg fuel s r w C E) as Q3. pose proof (rate_ok g 0 0 0 1 sg fuel s r w D E) as Q4.
  unfold weight in *. repeat split; lia.
Qed.
Ltac rated := match goal with |- within ?g _ => apply (within_rate g); vm_compute; discriminate end.
Lemma uri_within : within Uri ((29, 2382), (41, 3939), (31, 74), (2, 6)).
Proof. rated. Qed.
Lemma uri_reference_within : within Uri_reference ((34, 2382), (47, 3941), (35, 86), (2, 6)).
Proof. rated. Qed.
Lemma scheme_within : within Scheme ((5, 6), (6, 8), (0, 0), (0, 0)).
Proof. rated. Qed.
Lemma userinfo_within : within Userinfo ((6, 6), (8, 9), (0, 0), (0, 0)).
Proof. rated. Qed.
Lemma host_within : within Host ((13, 2343), (19, 3875), (0, 0), (0, 0)).
Proof. rated. Qed.
Lemma port_within : within Port ((1, 1), (1, 2), (0, 0), (0, 0)).
Proof. rated. Qed.
Lemma segment_within : within Segment ((7, 7), (9, 10), (0, 0), (0, 0)).
Proof. rated. Qed.
Lemma query_within : within Query ((9, 9), (12, 13), (0, 0), (0, 0)).
Proof. rated. Qed.

(* --- valid () --- *)
Lemma matches_is sg fuel g s : erase (matches_w sg fuel g s) = matches (run sg fuel g) s.
Proof.
  unfold matches_w, matches, concat, parse_w. rewrite <- (erase_concat (run_w sg fuel g) (run sg fuel g) None false (rule_of s)) by apply erase_all. unfold erase.
  destruct (concat_impl_w _ _ _ _) as [[r w]| |]; cbn [bind]; try reflexivity. destruct (done run_action r empty_parts) as [[b x]| |]; cbn [bind fst]; try reflexivity. destruct b; reflexivity.
Qed.
Lemma opt_matches_is sg fuel g s : erase (opt_matches_w sg fuel g s) = opt_matches (run sg fuel g) s.
Proof. destruct s; [apply matches_is|reflexivity]. Qed.
Lemma andalso_is x y x' y' : erase x = x' -> erase y = y' -> erase (andalso_w x y) = andalso x' y'.
Proof.
  intros <- <-. unfold andalso_w, andalso, erase. destruct x as [[b w]| |]; cbn [bind]; try reflexivity. destruct b; [|reflexivity]. destruct y as [[b w']| |]; reflexivity.
Qed.
Lemma segs_valid_is sg fuel l : erase (segs_valid_w sg fuel l) = segs_valid sg fuel l.
Proof. induction l as [|s l IH]; [reflexivity|]. cbn [segs_valid_w segs_valid]. apply andalso_is; [apply (matches_is sg fuel Segment)|exact IH]. Qed.
Lemma valid_is sg fuel p : erase (parts_valid_w sg fuel p) = parts_valid sg fuel p.
Proof.
  unfold parts_valid_w, parts_valid. apply andalso_is. { destruct (p_scheme p); [apply (matches_is sg fuel Scheme)|reflexivity]. }
  apply andalso_is. { destruct (p_authority p) as [a|]; [|reflexivity]. unfold authority_valid_w, authority_valid.
    apply andalso_is; [apply (opt_matches_is sg fuel Userinfo)|]. apply andalso_is; [apply (matches_is sg fuel Host)|apply (opt_matches_is sg fuel Port)]. }
  apply andalso_is; [apply segs_valid_is|]. apply andalso_is; apply (opt_matches_is sg fuel Query).
Qed.
(* x costs at most l looks and c calls, and copies and runs nothing *)
Definition most (x : outcome (bool * cost)) (l c : N) : Prop := forall b w, x = Ok (b, w) -> looks w <= l /\ calls w <= c /\ copies w = 0 /\ runs w = 0.
Lemma most_matches sg fuel g l l0 c c0 s : within g ((l, l0), (c, c0), (0, 0), (0, 0)) -> most (matches_w sg fuel g s) (l * #s + l0) (c * #s + c0).
Proof.
  intros H b w E. unfold matches_w in E. destruct (parse_w sg fuel g s) as [[r w']| |] eqn:EP; cbn [bind] in E; try discriminate. injection E as _ <-.
  destruct (H _ _ _ _ _ EP) as (A & B & C & D). cbn [fst snd] in *. repeat split; lia.
Qed.
Lemma most_free b l c : most (Ok (b, free)) l c.
Proof. intros b' w E. injection E as _ <-. cbn. repeat split; lia. Qed.
Lemma most_opt sg fuel g l l0 c c0 s : within g ((l, l0), (c, c0), (0, 0), (0, 0)) ->
  most (opt_matches_w sg fuel g s) (l * match s with Some s => #s | None => 0 end + l0) (c * match s with Some s => #s | None => 0 end + c0).
Proof. intros H. destruct s; [now apply most_matches|apply most_free]. Qed.
Lemma most_and x y l1 c1 l2 c2 : most x l1 c1 -> most y l2 c2 -> most (andalso_w x y) (l1 + l2) (c1 + c2).
Proof.
  intros H K b w E. unfold andalso_w in E. destruct x as [[b1 w1]| |]; cbn [bind] in E; try discriminate. destruct (H _ _ eq_refl) as (A1 & A2 & A3 & A4).
  destruct b1; [|injection E as _ <-; repeat split; lia]. destruct y as [[b2 w2]| |]; cbn [bind] in E; try discriminate. injection E as _ <-.
  destruct (K _ _ eq_refl) as (B1 & B2 & B3 & B4). unfold plus_cost. cbn [looks calls copies runs]. repeat split; lia.
Qed.
Lemma most_weaken x l c l' c' : most x l c -> l <= l' -> c <= c' -> most x l' c'.
Proof. intros H A B b w E. destruct (H b w E) as (H1 & H2 & H3 & H4). repeat split; lia. Qed.
Definition letters (l : list str) : N := fold_right (fun s n => #s + n) 0 l.
Lemma most_segs sg fuel l : most (segs_valid_w sg fuel l) (7 * letters l + 7 * #l) (9 * letters l + 10 * #l).
Proof.
  induction l as [|s l IH]; [apply most_free|]. cbn [segs_valid_w].
  change (letters (s :: l)) with (#s + letters l). replace (#(s :: l)) with (1 + #l) by (cbn [length]; lia).
  eapply most_weaken; [apply most_and; [apply (most_matches _ _ _ _ _ _ _ _ segment_within)|exact IH]| |]; lia.
Qed.
(* the characters in the fields of parts *)
Definition opt_letters (s : option str) : N := match s with Some s => #s | None => 0 end.
Definition authority_letters (a : option authority) : N :=
  match a with Some a => opt_letters (userinfo a) + #(host a) + opt_letters (port a) | None => 0 end.
Definition chars (p : parts) : N :=
  opt_letters (p_scheme p) + authority_letters (p_authority p) + letters (segments (p_path p)) + opt_letters (p_query p) + opt_letters (p_fragment p).
Lemma most_scheme sg fuel s : most (match s with None => Ok (false, free) | Some s => matches_w sg fuel Scheme s end) (5 * opt_letters s + 6) (6 * opt_letters s + 8).
Proof. destruct s; [apply (most_matches _ _ _ _ _ _ _ _ scheme_within)|apply most_free]. Qed.
Lemma most_authority sg fuel a : most (match a with None => Ok (true, free) | Some a => authority_valid_w sg fuel a end)
  (13 * authority_letters a + 2350) (19 * authority_letters a + 3886).
Proof.
  destruct a as [a|]; [|apply most_free]. unfold authority_valid_w, authority_letters.
  eapply most_weaken; [apply most_and; [apply (most_opt _ _ _ _ _ _ _ _ userinfo_within)|apply most_and; [apply (most_matches _ _ _ _ _ _ _ _ host_within)|apply (most_opt _ _ _ _ _ _ _ _ port_within)]]| |];
  unfold opt_letters; lia.
Qed.
Lemma most_valid sg fuel p : most (parts_valid_w sg fuel p) (13 * chars p + 7 * #(segments (p_path p)) + 2374) (19 * chars p + 10 * #(segments (p_path p)) + 3920).
Proof.
  unfold parts_valid_w, chars.
  eapply most_weaken; [apply most_and; [apply most_scheme|apply most_and; [apply most_authority|apply most_and; [apply most_segs|apply most_and; apply (most_opt _ _ _ _ _ _ _ _ query_within)]]]| |];
  unfold opt_letters; lia.
Qed.
