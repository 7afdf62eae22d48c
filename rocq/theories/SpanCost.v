(* The number of steps of a match, as a linear function of what it consumed and of what it was given. *)
From Verif Require Import Base ModelRule ModelUri.
From Verif Require ModelSpan.
Local Open Scope list_scope.

Lemma mbind_inv {T U} (x : ModelSpan.M T) (f : T -> ModelSpan.M U) b n : ModelSpan.mbind x f = Ok (b, n) ->
  exists a n1 n2, x = Ok (a, n1) /\ f a = Ok (b, n2) /\ n = n1 + n2.
Proof.
  destruct x as [[a n1]|e|]; cbn; try discriminate. destruct (f a) as [[b' n2]|e|] eqn:E; try discriminate.
  intros H. injection H as <- <-. eauto 8.
Qed.

(* success: at most cA + cB * consumed + cE * given steps, cC + cD * consumed acceptors, and at least cG consumed;
   failure: at most cA + cF * given steps *)
Record cp := mkcp { cA : nat; cB : nat; cE : nat; cF : nat; cC : nat; cD : nat; cG : nat }.
Definition free : cp := mkcp 0 0 0 0 0 0 0.
Definition seqn (x : nat) (p q : cp) : cp :=
  mkcp (cA p + cA q + cC p + cC q + 1 + x + x) (Nat.max (cB p + cD p) (cB q + cD q)) (cE p + cE q)
    (cB p + cE p + cF q + cF p) (cC p + cC q + x) (Nat.max (cD p) (cD q)) (cG p + cG q).
Definition seq := seqn 0.
Definition seqa := seqn 1.
Definition maybe (p q : cp) : cp :=
  mkcp (cA p + cA q + cC p + cC q + cC q + 1) (Nat.max (cB p + cD p) (cB q + cD q + cD q)) (cE p + cE q + cF q)
    (cF p) (cC p + cC q) (Nat.max (cD p) (cD q)) (cG p).
Fixpoint either (p : cp) (qs : list cp) : cp :=
  match qs with
  | [] => mkcp (cA p) 0 0 (cB p + cE p + cF p) 0 0 1
  | q :: qs =>
      let e := either p qs in
      mkcp (cA e + cA q + cC p + cC q + 1) (Nat.max (Nat.max (cB p + cD p) (cB q + cD q)) (cB e)) (cE p + cE q + cF q + cE e)
        (cF q + cF e) (Nat.max (cC p + cC q) (cC e)) (Nat.max (Nat.max (cD p) (cD q)) (cD e))
        (match qs with [] => cG p + cG q | _ => Nat.min (cG p + cG q) (cG e) end)
  end.
(* more: what a match beyond the maximum costs *)
Definition many (more : bool) (min : bool) (p q : cp) : cp :=
  let b := cB q + cA q + cC q + cD q + 1 in
  mkcp (cA p + cA q + cC p + 1) (Nat.max (cB p + cD p) b) (cE p + cF q + if more then cB q else 0)
    (cF p + if min then cB p + cE p + cF q + b + cD p + cB q else 0) (cC p) (Nat.max (cD p) (cC q + cD q))
    (cG p + if more then 0 else if min then 1 else 0).
Definition whole (p : cp) : cp := mkcp (cA p + cC p) (cB p + cD p) (cE p) (cF p) (cC p) (cD p) (cG p).

Section Cost.
Variable buf : str.
Local Notation span := ModelSpan.span.
Section Rule.
Context {A : Type}.
Definition rcost (p : cp) (v : span) (cv : ModelSpan.M (ModelSpan.rule A)) : Prop :=
  forall r n, cv = Ok (r, n) ->
  match ModelSpan.tail r with
  | Some t => exists k, t = (fst v + k, snd v - k) /\ cG p <= k <= snd v /\ n <= cA p + cB p * k + cE p * snd v
                        /\ length (ModelSpan.accs r) <= cC p + cD p * k
  | None => ModelSpan.accs r = [] /\ n <= cA p + cF p * snd v
  end.
Definition fcost (p : cp) (f : ModelSpan.matcher A) : Prop :=
  forall v m n, f (ModelSpan.rule_of v) = Ok (m, n) ->
  match m with
  | Some (s, a) => fst s = fst v /\ cG p <= snd s <= snd v /\ n <= cA p + cB p * snd s + cE p * snd v
                   /\ length a <= cC p + cD p * snd s
  | None => n <= cA p + cF p * snd v
  end.

Lemma rcost_start v : rcost free v (ModelSpan.ret (ModelSpan.rule_of v)).
Proof. intros r n H. injection H as <- <-. cbn. exists 0. destruct v; cbn. rewrite Nat.add_0_r, Nat.sub_0_r. repeat split; lia. Qed.

Lemma maxmul a b x y : a * x + b * y <= Nat.max a b * (x + y).
Proof. destruct (Nat.max_spec a b) as [[H ->]|[H ->]]; nia. Qed.
Lemma mul_mono a b x y : a <= b -> x <= y -> a * x <= b * y.
Proof. nia. Qed.

Lemma join_rule_m_inv (r : ModelSpan.rule A) s a r' n : ModelSpan.join_rule_m r (s, a) = Ok (r', n) ->
  exists t, ModelSpan.tail r = Some t /\ snd s <= snd t /\
    r' = ModelSpan.mkrule (Some (fst t + snd s, snd t - snd s)) (ModelSpan.accs r ++ a)
    /\ n = length (ModelSpan.accs r) + length a.
Proof.
  unfold ModelSpan.join_rule_m. destruct (ModelSpan.tail r) as [t|]; [|discriminate]. cbn [fst snd].
  unfold ModelSpan.substr_from. destruct (Nat.ltb_spec (snd t) (snd s)); [discriminate|]. cbn.
  intros E. injection E as <- <-. exists t. repeat split; auto; lia.
Qed.

Ltac inv H := apply mbind_inv in H; destruct H as (? & ? & ? & ? & H & ->).

Lemma rcost_concat_impl p q v cv f acc : rcost p v cv -> fcost q f ->
  rcost (seqn (match acc with Some _ => 1 | None => 0 end) p q) v (ModelSpan.mbind cv (ModelSpan.concat_impl f acc false)).
Proof.
  intros Hc Hf r n H. apply mbind_inv in H. destruct H as (r0 & n1 & n2 & Hr & H & ->).
  specialize (Hc _ _ Hr). unfold ModelSpan.concat_impl in H.
  destruct (ModelSpan.tail r0) as [t|] eqn:Et.
  2: { cbn in H. injection H as <- <-. rewrite Et. destruct Hc as [E Hn]. rewrite E. cbn. split; auto. lia. }
  destruct Hc as (k & -> & Hk & Hn & Ha).
  apply mbind_inv in H. destruct H as (m & n3 & n4 & Hm & H & ->).
  unfold ModelSpan.call in Hm. apply mbind_inv in Hm. destruct Hm as ([] & n5 & n6 & E5 & Hm & ->).
  injection E5 as <-. apply Hf in Hm. cbn [snd fst] in Hm.
  destruct m as [[s a]|].
  - destruct Hm as (S1 & S2 & S3 & S4).
    apply mbind_inv in H. destruct H as (a' & n7 & n8 & E7 & H & ->).
    set (x := match acc with Some _ => 1 | None => 0 end) in *.
    assert (L : length a' <= length a + x /\ n7 <= x).
    { subst x. destruct acc; cbn in E7; injection E7 as <- <-; rewrite ?app_length; cbn; lia. }
    apply join_rule_m_inv in H. destruct H as (t & E & Hl & -> & ->). rewrite Et in E. injection E as <-.
    cbn [ModelSpan.tail ModelSpan.accs fst snd] in *. exists (k + snd s). cbn [cA cB cE cF cC cD cG seqn].
    split; [f_equal; lia|]. split; [lia|].
    rewrite app_length. destruct L as [L1 L2].
    pose proof (maxmul (cB p + cD p) (cB q + cD q) k (snd s)). pose proof (maxmul (cD p) (cD q) k (snd s)).
    pose proof (mul_mono (cE q) (cE q) (snd v - k) (snd v) ltac:(lia) ltac:(lia)). split; lia.
  - cbn in H. injection H as <- <-. cbn. split; auto.
    pose proof (mul_mono (cB p) (cB p) k (snd v) ltac:(lia) ltac:(lia)).
    pose proof (mul_mono (cF q) (cF q) (snd v - k) (snd v) ltac:(lia) ltac:(lia)). lia.
Qed.
Lemma rcost_concat p q v cv f : rcost p v cv -> fcost q f ->
  rcost (seq p q) v (ModelSpan.mbind cv (ModelSpan.concat f)).
Proof. apply (rcost_concat_impl p q v cv f None). Qed.
Lemma rcost_concat_a p q v cv f g : rcost p v cv -> fcost q f ->
  rcost (seqa p q) v (ModelSpan.mbind cv (ModelSpan.concat_a f g)).
Proof. apply (rcost_concat_impl p q v cv f (Some g)). Qed.

Lemma rcost_optional p q v cv f : rcost p v cv -> fcost q f ->
  rcost (maybe p q) v (ModelSpan.mbind cv (ModelSpan.optional f)).
Proof.
  intros Hc Hf r n H. apply mbind_inv in H. destruct H as (r0 & n1 & n2 & Hr & H & ->).
  specialize (Hc _ _ Hr). unfold ModelSpan.optional, ModelSpan.optional_impl in H.
  destruct (ModelSpan.tail r0) as [t|] eqn:Et.
  2: { cbn in H. injection H as <- <-. rewrite Et. destruct Hc as [E Hn]. rewrite E. cbn. split; auto. lia. }
  destruct Hc as (k & -> & Hk & Hn & Ha).
  apply mbind_inv in H. destruct H as (res & n3 & n4 & Hres & H & ->).
  assert (R : exists k2, ModelSpan.tail res = Some (fst v + k + k2, snd v - k - k2) /\ k2 <= snd v - k
     /\ n3 <= cA q + cB q * k2 + (cE q + cF q) * snd v + cC q + cD q * k2 + 1
     /\ length (ModelSpan.accs res) <= cC q + cD q * k2).
  { unfold ModelSpan.concat_impl in Hres. cbn [ModelSpan.tail ModelSpan.rule_of] in Hres.
    apply mbind_inv in Hres. destruct Hres as (m & n5 & n6 & Hm & Hres & ->).
    unfold ModelSpan.call in Hm. apply mbind_inv in Hm. destruct Hm as ([] & n7 & n8 & E7 & Hm & ->).
    injection E7 as <-. apply Hf in Hm. cbn [snd fst] in Hm. destruct m as [[s a]|].
    - destruct Hm as (S1 & S2 & S3 & S4).
      apply mbind_inv in Hres. destruct Hres as (a' & n9 & n10 & E9 & Hres & ->). injection E9 as <- <-.
      apply join_rule_m_inv in Hres. destruct Hres as (t & E & Hl & -> & ->). injection E as <-.
      cbn [ModelSpan.tail ModelSpan.accs fst snd ModelSpan.rule_of app length] in *. exists (snd s).
      pose proof (mul_mono (cE q) (cE q) (snd v - k) (snd v) ltac:(lia) ltac:(lia)).
      split; [reflexivity|]. split; [lia|]. split; lia.
    - cbn in Hres. injection Hres as <- <-. exists 0. cbn. rewrite !Nat.add_0_r, Nat.sub_0_r.
      pose proof (mul_mono (cF q) (cF q) (snd v - k) (snd v) ltac:(lia) ltac:(lia)).
      split; [reflexivity|]. split; [lia|]. split; lia. }
  destruct R as (k2 & Et2 & Hk2 & Hn3 & Ha2). rewrite Et2 in H. cbn in H. injection H as <- <-.
  cbn [ModelSpan.tail ModelSpan.accs]. rewrite Et2. exists (k + k2). cbn [maybe cA cB cC cD cE cF cG].
  split; [f_equal; lia|]. split; [lia|]. rewrite app_length.
  pose proof (maxmul (cB p + cD p) (cB q + cD q + cD q) k k2). pose proof (maxmul (cD p) (cD q) k k2).
  split; lia.
Qed.

Lemma rcost_alternative p qs v cv fs : rcost p v cv -> Forall2 fcost qs fs ->
  rcost (either p qs) v (ModelSpan.mbind cv (ModelSpan.alternative fs)).
Proof.
  intros Hc Hf r n H. apply mbind_inv in H. destruct H as (r0 & n1 & n2 & Hr & H & ->).
  specialize (Hc _ _ Hr). clear Hr. revert n2 r H. induction Hf as [|q f qs fs Hf Hfs IH]; intros n2 r H.
  - injection H as <- <-. cbn. split; auto. destruct (ModelSpan.tail r0).
    + destruct Hc as (k & _ & Hk & Hn & _).
      pose proof (mul_mono (cB p) (cB p) k (snd v) ltac:(lia) ltac:(lia)). lia.
    + destruct Hc as (_ & Hn). lia.
  - cbn [ModelSpan.alternative] in H.
    destruct (ModelSpan.tail r0) as [t|] eqn:Et.
    2: { cbn in H. injection H as <- <-. rewrite Et. destruct Hc as [E Hn]. rewrite E. cbn. split; auto.
         destruct fs as [|f2 fs].
         - specialize (IH _ _ eq_refl). cbn [ModelSpan.tail ModelSpan.rule_fail] in IH. destruct IH. lia.
         - specialize (IH 0 r0). cbn [ModelSpan.alternative] in IH. rewrite Et in IH.
           unfold ModelSpan.copy in IH. rewrite E in IH. specialize (IH eq_refl). destruct IH as [_ IH]. lia. }
    destruct Hc as (k & -> & Hk & Hn & Ha).
    apply mbind_inv in H. destruct H as (m & n3 & n4 & Hm & H & ->).
    unfold ModelSpan.call in Hm. apply mbind_inv in Hm. destruct Hm as ([] & n5 & n6 & E5 & Hm & ->).
    injection E5 as <-. apply Hf in Hm. cbn [snd fst] in Hm. destruct m as [[s a]|].
    + destruct Hm as (S1 & S2 & S3 & S4).
      apply join_rule_m_inv in H. destruct H as (t & E & Hl & -> & ->). rewrite Et in E. injection E as <-.
      cbn [ModelSpan.tail ModelSpan.accs fst snd] in *. exists (k + snd s). cbn [cA cB cE cF cC cD cG either].
      split; [f_equal; lia|]. split; [destruct qs; cbn; lia|].
      rewrite app_length.
      pose proof (maxmul (cB p + cD p) (cB q + cD q) k (snd s)). pose proof (maxmul (cD p) (cD q) k (snd s)).
      pose proof (mul_mono (cE q) (cE q) (snd v - k) (snd v) ltac:(lia) ltac:(lia)).
      assert (cA p <= cA (either p qs)). { clear. induction qs; cbn; lia. }
      set (e := either p qs) in *.
      pose proof (mul_mono (Nat.max (cB p + cD p) (cB q + cD q)) (Nat.max (Nat.max (cB p + cD p) (cB q + cD q)) (cB e)) (k + snd s) (k + snd s) ltac:(lia) ltac:(lia)).
      pose proof (mul_mono (Nat.max (cD p) (cD q)) (Nat.max (Nat.max (cD p) (cD q)) (cD e)) (k + snd s) (k + snd s) ltac:(lia) ltac:(lia)).
      split; lia.
    + specialize (IH _ _ H).
      pose proof (mul_mono (cF q) (cF q) (snd v - k) (snd v) ltac:(lia) ltac:(lia)).
      destruct (ModelSpan.tail r) as [t'|] eqn:Etr.
      * destruct IH as (k' & -> & Hk' & Hn' & Ha'). exists k'. split; [reflexivity|].
        destruct qs as [|q2 qs].
        { inversion Hfs; subst. cbn in H. injection H as <- <-. discriminate Etr. }
        cbn [either cA cB cC cD cE cF cG] in *. fold (either p (q2 :: qs)) in *.
        remember (q2 :: qs) as qq. split; [lia|].
        match goal with |- context [Nat.max (Nat.max (cB p + cD p) (cB q + cD q)) ?x] => set (eB := x) in * end.
        match goal with |- context [Nat.max (Nat.max (cD p) (cD q)) ?x] => set (eD := x) in * end.
        pose proof (mul_mono eB (Nat.max (Nat.max (cB p + cD p) (cB q + cD q)) eB) k' k' ltac:(lia) ltac:(lia)).
        pose proof (mul_mono eD (Nat.max (Nat.max (cD p) (cD q)) eD) k' k' ltac:(lia) ltac:(lia)).
        split; lia.
      * destruct IH as (E & IH). split; auto. cbn [either cA cF]. lia.
Qed.

Lemma uint_not_more c : (uint_max <? uint_incr c)%N = false.
Proof.
  apply N.ltb_ge. unfold uint_incr, uint_max. pose proof (N.mod_upper_bound (c + 1) (2 ^ 32)%N ltac:(discriminate)). lia.
Qed.
Lemma cost_star_loop (more : bool) fuel q f max : fcost q f -> cE q = 0 -> 1 <= cG q -> (more = false -> max = uint_max) ->
  forall v len acc count res n,
  ModelSpan.star_loop fuel f max v len acc count = Ok (res, n) ->
  exists k, fst (fst res) = len + k /\ k <= snd v
    /\ n <= cA q + 1 + (cB q + cA q + cC q + cD q + 1) * k + (cF q + if more then cB q else 0) * snd v
    /\ length (snd (fst res)) <= length acc + (cC q + cD q) * k
    /\ (k = 0 -> snd res = count \/ (max < uint_incr count)%N).
Proof.
  intros Hf HE HG Hmax. induction fuel as [|fuel IH]; intros v len acc count res n H; cbn [ModelSpan.star_loop] in H; [discriminate|].
  apply mbind_inv in H. destruct H as (m & n3 & n4 & Hm & H & ->).
  unfold ModelSpan.call in Hm. apply mbind_inv in Hm. destruct Hm as ([] & n5 & n6 & E5 & Hm & ->).
  injection E5 as <-. apply Hf in Hm. destruct m as [[s a]|].
  2: { injection H as <- <-. exists 0. cbn [fst snd]. split; [lia|]. split; [lia|]. split; [lia|]. split; [lia|auto]. }
  destruct Hm as (S1 & S2 & S3 & S4). rewrite HE in S3.
  destruct (max <? uint_incr count)%N eqn:EM.
  { injection H as <- <-. exists 0. cbn [fst snd]. split; [lia|]. split; [lia|].
    destruct more; [|rewrite (Hmax eq_refl), uint_not_more in EM; discriminate].
    pose proof (mul_mono (cB q) (cB q) (snd s) (snd v) ltac:(lia) ltac:(lia)). split; [lia|]. split; [lia|]. right. now apply N.ltb_lt. }
  destruct (Nat.ltb_spec (snd v) (snd s)) as [HH|_]; [lia|].
  apply mbind_inv in H. destruct H as ([] & n7 & n8 & E7 & H & ->). injection E7 as <-.
  apply IH in H. destruct H as (k & K1 & K2 & K3 & K4 & _). cbn [fst snd] in *.
  exists (snd s + k). split; [lia|]. split; [lia|]. rewrite app_length in K4.
  pose proof (mul_mono (cF q + if more then cB q else 0) (cF q + if more then cB q else 0) (snd v - snd s) (snd v) ltac:(lia) ltac:(lia)).
  assert (1 <= snd s) by lia.
  pose proof (mul_mono (cA q + cC q + 1) (cA q + cC q + 1) 1 (snd s) ltac:(lia) ltac:(lia)).
  pose proof (mul_mono (cC q) (cC q) 1 (snd s) ltac:(lia) ltac:(lia)).
  split; [lia|]. split; [lia|]. lia.
Qed.
Lemma rcost_star (more : bool) p q v cv fuel f min max : rcost p v cv -> fcost q f -> cE q = 0 -> 1 <= cG q ->
  (more = false -> max = uint_max) ->
  rcost (many more (negb (min =? 0)%N) p q) v (ModelSpan.mbind cv (ModelSpan.star fuel f min max)).
Proof.
  intros Hc Hf HE HG Hmax r n H. apply mbind_inv in H. destruct H as (r0 & n1 & n2 & Hr & H & ->).
  specialize (Hc _ _ Hr). unfold ModelSpan.star in H.
  destruct (ModelSpan.tail r0) as [t|] eqn:Et.
  2: { cbn in H. injection H as <- <-. rewrite Et. destruct Hc as [E Hn]. rewrite E. cbn. split; auto. lia. }
  destruct Hc as (k & -> & Hk & Hn & Ha).
  apply mbind_inv in H. destruct H as ([] & n3 & n4 & E3 & H & ->). injection E3 as <-.
  apply mbind_inv in H. destruct H as ([[len acc] count] & n5 & n6 & Hl & H & ->).
  apply (cost_star_loop more fuel q) in Hl; auto. destruct Hl as (k2 & K1 & K2 & K3 & K4 & K5). cbn [fst snd] in *.
  pose proof (mul_mono (cF q + if more then cB q else 0) (cF q + if more then cB q else 0) (snd v - k) (snd v) ltac:(lia) ltac:(lia)).
  destruct (count <? min)%N eqn:Em.
  - injection H as <- <-. cbn [ModelSpan.tail ModelSpan.rule_fail ModelSpan.accs]. split; auto.
    assert (Emin : negb (min =? 0)%N = true). { destruct (N.eqb_spec min 0); auto. subst. apply N.ltb_lt in Em. lia. }
    unfold many. rewrite Emin. cbn [cA cB cC cD cE cF cG].
    set (b := cB q + cA q + cC q + cD q + 1) in *.
    pose proof (mul_mono (cB p) (cB p) k (snd v) ltac:(lia) ltac:(lia)).
    pose proof (mul_mono (cD p) (cD p) k (snd v) ltac:(lia) ltac:(lia)).
    pose proof (mul_mono b b k2 (snd v - k) ltac:(lia) ltac:(lia)).
    assert (cB q <= b) by (subst b; lia).
    destruct more; lia.
  - apply mbind_inv in H. destruct H as (t' & n7 & n8 & E7 & H & ->). injection H as <- <-.
    unfold ModelSpan.substr_from in E7. cbn [fst snd] in E7. destruct (Nat.ltb_spec (snd v - k) len); [discriminate|].
    injection E7 as <- <-. cbn [ModelSpan.tail ModelSpan.accs]. exists (k + k2).
    unfold many. cbn [cA cB cC cD cE cF cG]. set (b := cB q + cA q + cC q + cD q + 1) in *.
    split; [f_equal; lia|]. split.
    { assert (Kp : more = false -> negb (min =? 0)%N = true -> 1 <= k2).
      { intros E1 E2. specialize (Hmax E1). subst max. apply N.ltb_ge in Em.
        destruct (N.eqb_spec min 0); [discriminate|]. destruct k2; [|lia].
        destruct (K5 eq_refl) as [->|K6]; [lia|]. unfold uint_incr, uint_max in K6. cbn in K6. lia. }
      destruct more; [lia|]. destruct (negb (min =? 0)%N); [|lia]. specialize (Kp eq_refl eq_refl). lia. }
    pose proof (maxmul (cB p + cD p) b k k2). pose proof (maxmul (cD p) (cC q + cD q) k k2).
    split; lia.
Qed.

Lemma fcost_chain p f : (forall v, rcost p v (f (ModelSpan.rule_of v))) ->
  fcost (whole p) (fun r => ModelSpan.mbind (f r) (ModelSpan.matched r)).
Proof.
  intros H v m n E. apply mbind_inv in E. destruct E as (r & n1 & n2 & Hr & E & ->). specialize (H v _ _ Hr).
  unfold ModelSpan.matched in E. cbn [ModelSpan.tail ModelSpan.rule_of] in E.
  destruct (ModelSpan.tail r) as [t|].
  2: { injection E as <- <-. cbn. lia. }
  destruct H as (k & -> & Hk & Hn & Ha). cbn [fst snd] in E.
  apply mbind_inv in E. destruct E as ([] & n3 & n4 & E3 & E & ->). injection E3 as <-.
  destruct (Nat.ltb_spec (snd v) (snd v - k)); [lia|]. injection E as <- <-. cbn [fst snd whole cA cB cC cD cE cF cG].
  replace (snd v - (snd v - k)) with k by lia. split; [reflexivity|]. split; [lia|]. split; lia.
Qed.
Definition one : cp := mkcp 0 0 0 0 0 0 1.
Lemma fcost_chr p : fcost one (ModelSpan.single_char_p buf p).
Proof.
  intros [o [|l]] m n H; unfold ModelSpan.single_char_p in H; cbn [ModelSpan.tail ModelSpan.rule_of] in H.
  - injection H as <- <-. cbn. lia.
  - destruct (nth_error buf o); [|discriminate]. destruct (p a) as [[]| |]; try discriminate; injection H as <- <-; cbn; lia.
Qed.
Lemma fcost_single sg c : fcost one (ModelSpan.single_char buf sg c).
Proof. intros v m n. unfold ModelSpan.single_char. destruct (c_tolower _); try discriminate. apply fcost_chr. Qed.
Lemma fcost_range sg a b : fcost one (ModelSpan.char_range buf sg a b).
Proof.
  intros v m n. unfold ModelSpan.char_range. destruct (c_tolower _); try discriminate.
  destruct (c_tolower _); try discriminate. apply fcost_chr.
Qed.
End Rule.
End Cost.
