(* Where the views of a match are: for each match function, a relation between the offset it starts at, what it
   consumes and the acceptors it returns. *)
From Verif Require Import Base ModelRule ModelUri SpanCost SpanCostUri.
From Verif Require ModelSpan.
Local Open Scope list_scope.

Section Loc.
Variable buf : str.
Local Notation span := ModelSpan.span.
Local Notation acceptors := (ModelSpan.acceptors action).
Definition lay := nat -> nat -> acceptors -> Prop.
Definition lnil : lay := fun _ k a => k = 0 /\ a = [].
Definition lquiet : lay := fun _ _ a => a = [].
Definition lchr (c : ascii) : lay := fun o k a => k = 1 /\ a = [] /\ nth_error buf o = Some c.
Definition lacc (P : lay) (g : action) : lay := fun o k a => exists a', P o k a' /\ a = a' ++ [(g, (o, k))].
Definition lseq (P Q : lay) : lay := fun o k a =>
  exists k1 k2 a1 a2, k = k1 + k2 /\ a = a1 ++ a2 /\ P o k1 a1 /\ Q (o + k1) k2 a2.
Definition lor (P Q : lay) : lay := fun o k a => P o k a \/ Q o k a.
Fixpoint lany (Ps : list lay) : lay := match Ps with [] => fun _ _ _ => False | P :: Ps => lor P (lany Ps) end.
Inductive lrep (P : lay) : lay :=
| lrep_nil o : lrep P o 0 []
| lrep_cons o k1 k2 a1 a2 : P o k1 a1 -> lrep P (o + k1) k2 a2 -> lrep P o (k1 + k2) (a1 ++ a2).

Definition floc (P : lay) (f : ModelSpan.matcher action) : Prop :=
  forall v s a n, f (ModelSpan.rule_of v) = Ok (Some (s, a), n) -> fst s = fst v /\ snd s <= snd v /\ P (fst v) (snd s) a.
Definition rloc (P : lay) (v : span) (cv : ModelSpan.M (ModelSpan.rule action)) : Prop :=
  forall r n t, cv = Ok (r, n) -> ModelSpan.tail r = Some t ->
  exists k, t = (fst v + k, snd v - k) /\ k <= snd v /\ P (fst v) k (ModelSpan.accs r).

Lemma rloc_start v : rloc lnil v (ModelSpan.ret (ModelSpan.rule_of v)).
Proof.
  intros r n t H E. injection H as <- <-. injection E as <-. exists 0. destruct v; cbn.
  rewrite Nat.add_0_r, Nat.sub_0_r. unfold lnil. repeat split. lia.
Qed.
Lemma rloc_concat P Q v cv f : rloc P v cv -> floc Q f -> rloc (lseq P Q) v (ModelSpan.mbind cv (ModelSpan.concat f)).
Proof.
  intros Hc Hf r n t H E. apply mbind_inv in H. destruct H as (r0 & n1 & n2 & Hr & H & ->).
  unfold ModelSpan.concat, ModelSpan.concat_impl in H.
  destruct (ModelSpan.tail r0) as [t0|] eqn:Et.
  2: { cbn in H. injection H as <- <-. congruence. }
  destruct (Hc _ _ _ Hr Et) as (k & -> & Hk & Hp).
  apply mbind_inv in H. destruct H as (m & n3 & n4 & Hm & H & ->).
  unfold ModelSpan.call in Hm. apply mbind_inv in Hm. destruct Hm as ([] & n5 & n6 & E5 & Hm & ->).
  destruct m as [[s a]|]; [|cbn in H; injection H as <- <-; discriminate].
  destruct (Hf _ _ _ _ Hm) as (S1 & S2 & S3). cbn [fst snd] in *.
  apply mbind_inv in H. destruct H as (a' & n7 & n8 & E7 & H & ->). injection E7 as <- <-.
  apply join_rule_m_inv in H. destruct H as (t1 & E1 & Hl & -> & ->). rewrite Et in E1. injection E1 as <-.
  cbn [ModelSpan.tail ModelSpan.accs fst snd] in *. injection E as <-. exists (k + snd s).
  split; [f_equal; lia|]. split; [lia|]. exists k, (snd s), (ModelSpan.accs r0), a. auto.
Qed.
Lemma rloc_concat_a P Q v cv f g : rloc P v cv -> floc Q f ->
  rloc (lseq P (lacc Q g)) v (ModelSpan.mbind cv (ModelSpan.concat_a f g)).
Proof.
  intros Hc Hf r n t H E. apply mbind_inv in H. destruct H as (r0 & n1 & n2 & Hr & H & ->).
  unfold ModelSpan.concat_a, ModelSpan.concat_impl in H.
  destruct (ModelSpan.tail r0) as [t0|] eqn:Et.
  2: { cbn in H. injection H as <- <-. congruence. }
  destruct (Hc _ _ _ Hr Et) as (k & -> & Hk & Hp).
  apply mbind_inv in H. destruct H as (m & n3 & n4 & Hm & H & ->).
  unfold ModelSpan.call in Hm. apply mbind_inv in Hm. destruct Hm as ([] & n5 & n6 & E5 & Hm & ->).
  destruct m as [[s a]|]; [|cbn in H; injection H as <- <-; discriminate].
  destruct (Hf _ _ _ _ Hm) as (S1 & S2 & S3). cbn [fst snd] in *.
  apply mbind_inv in H. destruct H as (a' & n7 & n8 & E7 & H & ->). cbn in E7. injection E7 as <- <-.
  apply join_rule_m_inv in H. destruct H as (t1 & E1 & Hl & -> & ->). rewrite Et in E1. injection E1 as <-.
  cbn [ModelSpan.tail ModelSpan.accs fst snd] in *. injection E as <-. exists (k + snd s).
  split; [f_equal; lia|]. split; [lia|]. exists k, (snd s), (ModelSpan.accs r0), (a ++ [(g, s)]). repeat split; auto.
  exists a. split; auto. destruct s. cbn in *. now subst.
Qed.
Lemma rloc_optional P Q v cv f : rloc P v cv -> floc Q f ->
  rloc (lseq P (lor Q lnil)) v (ModelSpan.mbind cv (ModelSpan.optional f)).
Proof.
  intros Hc Hf r n t H E. apply mbind_inv in H. destruct H as (r0 & n1 & n2 & Hr & H & ->).
  unfold ModelSpan.optional, ModelSpan.optional_impl in H.
  destruct (ModelSpan.tail r0) as [t0|] eqn:Et.
  2: { cbn in H. injection H as <- <-. congruence. }
  destruct (Hc _ _ _ Hr Et) as (k & -> & Hk & Hp).
  apply mbind_inv in H. destruct H as (res & n3 & n4 & Hres & H & ->).
  assert (R : exists k2, ModelSpan.tail res = Some (fst v + k + k2, snd v - k - k2) /\ k2 <= snd v - k
     /\ lor Q lnil (fst v + k) k2 (ModelSpan.accs res)).
  { unfold ModelSpan.concat_impl in Hres. cbn [ModelSpan.tail ModelSpan.rule_of] in Hres.
    apply mbind_inv in Hres. destruct Hres as (m & n5 & n6 & Hm & Hres & ->).
    unfold ModelSpan.call in Hm. apply mbind_inv in Hm. destruct Hm as ([] & n7 & n8 & E7 & Hm & ->).
    destruct m as [[s a]|].
    - destruct (Hf _ _ _ _ Hm) as (S1 & S2 & S3). cbn [fst snd] in *.
      apply mbind_inv in Hres. destruct Hres as (a' & n9 & n10 & E9 & Hres & ->). injection E9 as <- <-.
      apply join_rule_m_inv in Hres. destruct Hres as (t1 & E1 & Hl & -> & ->). injection E1 as <-.
      cbn [ModelSpan.tail ModelSpan.accs fst snd ModelSpan.rule_of app length] in *. exists (snd s).
      split; [reflexivity|]. split; [lia|]. now left.
    - cbn in Hres. injection Hres as <- <-. exists 0. cbn. rewrite !Nat.add_0_r, Nat.sub_0_r.
      split; [reflexivity|]. split; [lia|]. right. split; reflexivity. }
  destruct R as (k2 & Et2 & Hk2 & Hl). rewrite Et2 in H. cbn in H. injection H as <- <-.
  cbn [ModelSpan.tail ModelSpan.accs] in *. rewrite Et2 in E. injection E as <-. exists (k + k2).
  split; [f_equal; lia|]. split; [lia|]. exists k, k2, (ModelSpan.accs r0), (ModelSpan.accs res). auto.
Qed.
Lemma rloc_alternative P Qs v cv fs : rloc P v cv -> Forall2 floc Qs fs ->
  rloc (lseq P (lany Qs)) v (ModelSpan.mbind cv (ModelSpan.alternative fs)).
Proof.
  intros Hc Hf r n t H E. apply mbind_inv in H. destruct H as (r0 & n1 & n2 & Hr & H & ->).
  revert n2 H. induction Hf as [|Q f Qs fs Hf Hfs IH]; intros n2 H.
  - injection H as <- <-. discriminate.
  - cbn [ModelSpan.alternative] in H.
    destruct (ModelSpan.tail r0) as [t0|] eqn:Et.
    2: { cbn in H. injection H as <- <-. congruence. }
    destruct (Hc _ _ _ Hr Et) as (k & -> & Hk & Hp).
    apply mbind_inv in H. destruct H as (m & n3 & n4 & Hm & H & ->).
    unfold ModelSpan.call in Hm. apply mbind_inv in Hm. destruct Hm as ([] & n5 & n6 & E5 & Hm & ->).
    destruct m as [[s a]|].
    + destruct (Hf _ _ _ _ Hm) as (S1 & S2 & S3). cbn [fst snd] in *.
      apply join_rule_m_inv in H. destruct H as (t1 & E1 & Hl & -> & ->). rewrite Et in E1. injection E1 as <-.
      cbn [ModelSpan.tail ModelSpan.accs fst snd] in *. injection E as <-. exists (k + snd s).
      split; [f_equal; lia|]. split; [lia|]. exists k, (snd s), (ModelSpan.accs r0), a. repeat split; auto. now left.
    + destruct (IH _ H) as (k' & -> & Hk' & k1 & k2 & a1 & a2 & H1 & H2 & H3 & H4).
      exists k'. split; auto. split; auto. exists k1, k2, a1, a2. repeat split; auto. now right.
Qed.
Lemma lrep_app P o k1 k2 a1 a2 : lrep P o k1 a1 -> lrep P (o + k1) k2 a2 -> lrep P o (k1 + k2) (a1 ++ a2).
Proof.
  induction 1 as [o|o k1 k1' a1 a1' Hp Hr IH]; intros H.
  - now rewrite Nat.add_0_r in H.
  - rewrite <- Nat.add_assoc, <- app_assoc. constructor; auto. apply IH. now rewrite <- Nat.add_assoc.
Qed.
Lemma loc_star_loop Q fuel f max : floc Q f -> forall v len acc count res n,
  ModelSpan.star_loop fuel f max v len acc count = Ok (res, n) ->
  exists k a, fst (fst res) = len + k /\ k <= snd v /\ snd (fst res) = acc ++ a /\ lrep Q (fst v) k a
     /\ (max = 0%N -> count = 0%N -> k = 0 /\ a = []).
Proof.
  intros Hf. induction fuel as [|fuel IH]; intros v len acc count res n H; cbn [ModelSpan.star_loop] in H; [discriminate|].
  apply mbind_inv in H. destruct H as (m & n3 & n4 & Hm & H & ->).
  unfold ModelSpan.call in Hm. apply mbind_inv in Hm. destruct Hm as ([] & n5 & n6 & E5 & Hm & ->).
  assert (Stop : forall c k, Ok ((len, acc, c), k) = Ok (res, n4) -> exists k a, fst (fst res) = len + k /\ k <= snd v
     /\ snd (fst res) = acc ++ a /\ lrep Q (fst v) k a /\ (max = 0%N -> count = 0%N -> k = 0 /\ a = [])).
  { intros c k Hs. injection Hs as <- <-. exists 0, []. cbn [fst snd]. rewrite app_nil_r. repeat split; try lia. constructor. }
  destruct m as [[s a]|]; [|exact (Stop _ _ H)].
  destruct (Hf _ _ _ _ Hm) as (S1 & S2 & S3).
  destruct (max <? uint_incr count)%N eqn:EM; [exact (Stop _ _ H)|].
  destruct (Nat.ltb_spec (snd v) (snd s)) as [HH|_]; [lia|].
  apply mbind_inv in H. destruct H as ([] & n7 & n8 & E7 & H & ->).
  apply IH in H. destruct H as (k & a' & K1 & K2 & K3 & K4 & _). cbn [fst snd] in *.
  exists (snd s + k), (a ++ a'). split; [lia|]. split; [lia|]. split; [now rewrite K3, app_assoc|]. split.
  - constructor; auto.
  - intros -> ->. discriminate EM.
Qed.
Lemma rloc_star P Q v cv fuel f min max : rloc P v cv -> floc Q f ->
  rloc (lseq P (lrep Q)) v (ModelSpan.mbind cv (ModelSpan.star fuel f min max)).
Proof.
  intros Hc Hf r n t H E. apply mbind_inv in H. destruct H as (r0 & n1 & n2 & Hr & H & ->).
  unfold ModelSpan.star in H.
  destruct (ModelSpan.tail r0) as [t0|] eqn:Et.
  2: { cbn in H. injection H as <- <-. congruence. }
  destruct (Hc _ _ _ Hr Et) as (k & -> & Hk & Hp).
  apply mbind_inv in H. destruct H as ([] & n3 & n4 & E3 & H & ->).
  apply mbind_inv in H. destruct H as ([[len acc] count] & n5 & n6 & Hl & H & ->).
  apply (loc_star_loop Q) in Hl; auto. destruct Hl as (k2 & a & K1 & K2 & K3 & K4 & _). cbn [fst snd] in *.
  destruct (count <? min)%N; [injection H as <- <-; discriminate|].
  apply mbind_inv in H. destruct H as (t' & n7 & n8 & E7 & H & ->). injection H as <- <-.
  unfold ModelSpan.substr_from in E7. cbn [fst snd] in E7. destruct (Nat.ltb_spec (snd v - k) len); [discriminate|].
  injection E7 as <- <-. cbn [ModelSpan.tail ModelSpan.accs] in *. injection E as <-. exists (k + k2).
  split; [f_equal; lia|]. split; [lia|]. exists k, k2, (ModelSpan.accs r0), a. auto.
Qed.
Lemma rloc_star_none Q v fuel f : floc Q f ->
  rloc lnil v (ModelSpan.mbind (ModelSpan.ret (ModelSpan.rule_of v)) (ModelSpan.star fuel f 0 0)).
Proof.
  intros Hf r n t H E. apply mbind_inv in H. destruct H as (r0 & n1 & n2 & Hr & H & ->). injection Hr as <- <-.
  unfold ModelSpan.star in H. cbn [ModelSpan.tail ModelSpan.rule_of ModelSpan.accs] in H.
  apply mbind_inv in H. destruct H as ([] & n3 & n4 & E3 & H & ->).
  apply mbind_inv in H. destruct H as ([[len acc] count] & n5 & n6 & Hl & H & ->).
  apply (loc_star_loop Q) in Hl; auto. destruct Hl as (k2 & a & K1 & K2 & K3 & K4 & K5). cbn [fst snd] in *.
  destruct (K5 eq_refl eq_refl) as [-> ->].
  destruct (count <? 0)%N; [injection H as <- <-; discriminate|].
  apply mbind_inv in H. destruct H as (t' & n7 & n8 & E7 & H & ->). injection H as <- <-.
  unfold ModelSpan.substr_from in E7. destruct (Nat.ltb_spec (snd v) len); [discriminate|].
  injection E7 as <- <-. cbn [ModelSpan.tail ModelSpan.accs] in *. injection E as <-. exists 0.
  subst. split; [f_equal; lia|]. split; [lia|]. split; reflexivity.
Qed.
Lemma floc_chain P f : (forall v, rloc P v (f (ModelSpan.rule_of v))) ->
  floc P (fun r => ModelSpan.mbind (f r) (ModelSpan.matched r)).
Proof.
  intros H v s a n E. apply mbind_inv in E. destruct E as (r & n1 & n2 & Hr & E & ->).
  unfold ModelSpan.matched in E. cbn [ModelSpan.tail ModelSpan.rule_of] in E.
  destruct (ModelSpan.tail r) as [t|] eqn:Et; [|discriminate].
  destruct (H v _ _ _ Hr Et) as (k & -> & Hk & Hp). cbn [fst snd] in E.
  apply mbind_inv in E. destruct E as ([] & n3 & n4 & E3 & E & ->).
  destruct (Nat.ltb_spec (snd v) (snd v - k)); [lia|]. injection E as <- <- <-. cbn [fst snd].
  replace (snd v - (snd v - k)) with k by lia. auto.
Qed.
Lemma floc_quiet c f : fcost c f -> cC c = 0 -> cD c = 0 -> floc lquiet f.
Proof.
  intros H HC HD v s a n E. specialize (H _ _ _ E). cbn in H. destruct H as (H1 & H2 & _ & H3). rewrite HC, HD in H3.
  repeat split; auto; [lia|]. destruct a; [reflexivity|cbn in H3; lia].
Qed.
Definition lsome : lay := fun _ k a => 1 <= k /\ a = [].
Lemma floc_some c f : fcost c f -> cC c = 0 -> cD c = 0 -> cG c = 1 -> floc lsome f.
Proof.
  intros H HC HD HG v s a n E. specialize (H _ _ _ E). cbn in H. destruct H as (H1 & H2 & _ & H3). rewrite HC, HD in H3.
  unfold lsome. repeat split; auto; [lia|lia|]. destruct a; [reflexivity|cbn in H3; lia].
Qed.
Lemma floc_imp (P Q : lay) f : floc P f -> (forall o k a, P o k a -> Q o k a) -> floc Q f.
Proof. intros H I v s a n E. destruct (H _ _ _ _ E) as (?&?&?). auto. Qed.

Variable sg : bool.
Lemma floc_char (n : N) : (n < 128)%N ->
  (forall d x y, c_tolower (as_int sg (chr n)) = Ok x -> c_tolower (as_int sg d) = Ok y -> (x =? y)%Z = true -> d = chr n) ->
  floc (lchr (chr n)) (ModelSpan.single_code_point buf sg n).
Proof.
  intros _ Hc [o l] s a k E. unfold ModelSpan.single_code_point, ModelSpan.single_char in E.
  destruct (c_tolower (as_int sg (chr n))) as [x| |] eqn:Ex; try discriminate.
  unfold ModelSpan.single_char_p in E. cbn [ModelSpan.tail ModelSpan.rule_of] in E.
  destruct l as [|l]; [discriminate|]. destruct (nth_error buf o) as [c|] eqn:En; [|discriminate].
  destruct (c_tolower (as_int sg c)) as [y| |] eqn:Ey; cbn in E; try discriminate.
  destruct (x =? y)%Z eqn:Exy; [|discriminate]. injection E as <- <- <-. cbn [fst snd].
  repeat split; try lia. now rewrite En, (Hc c x y eq_refl Ey Exy).
Qed.
End Loc.
