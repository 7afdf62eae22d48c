(* The model with places (ModelSpan.v) computes the texts of the model without (ModelRule.v, ModelUri.v). *)
From Verif Require Import Base ModelRule ModelUri.
From Verif Require ModelSpan.
Local Open Scope list_scope.

Local Arguments ModelSpan.text : simpl never.
Lemma skipn_plus {T} a b (l : list T) : skipn a (skipn b l) = skipn (b + a) l.
Proof. revert l. induction b; intros l; [reflexivity|]. destruct l; cbn; [now destruct a|apply IHb]. Qed.
Section Sim.
Variable buf : str.
Local Notation text := (ModelSpan.text buf).
Local Notation span := ModelSpan.span.
Definition valid (v : span) : Prop := fst v + snd v <= length buf.

Lemma text_length v : valid v -> length (text v) = snd v.
Proof. intros H. unfold ModelSpan.text. rewrite firstn_length, skipn_length. unfold valid in H. lia. Qed.
Lemma text_skip o l k : k <= l -> text (o + k, l - k) = skipn k (text (o, l)).
Proof. intros H. unfold ModelSpan.text. cbn. rewrite skipn_firstn_comm, skipn_plus. reflexivity. Qed.
Lemma text_take o l k : k <= l -> text (o, k) = firstn k (text (o, l)).
Proof. intros H. unfold ModelSpan.text. cbn. rewrite firstn_firstn. f_equal. lia. Qed.
Lemma text_cons o l c : nth_error buf o = Some c -> text (o, S l) = c :: text (S o, l).
Proof.
  intros H. unfold ModelSpan.text. cbn [fst snd].
  assert (E : skipn o buf = c :: skipn (S o) buf).
  { clear l. revert o H. generalize buf as b. induction b as [|x l IH]; intros [|o]; cbn; try discriminate.
    - intros H. now injection H as ->.
    - intros H. rewrite (IH o H). destruct l; reflexivity. }
  rewrite E. reflexivity.
Qed.
Lemma nth_valid o l : valid (o, S l) -> exists c, nth_error buf o = Some c.
Proof. intros H. unfold valid in H; cbn in H. destruct (nth_error buf o) eqn:E; eauto. apply nth_error_None in E. lia. Qed.

Section Rule.
Context {A : Type}.
Local Notation sacc := (ModelSpan.acceptors A).
Definition tacc (a : sacc) : acceptors A := map (fun p => (fst p, text (snd p))) a.
Definition tres (r : ModelSpan.matched_result A) : matched_result A :=
  option_map (fun p => (text (fst p), tacc (snd p))) r.
Definition trule (r : ModelSpan.rule A) : rule A :=
  mkrule (option_map text (ModelSpan.tail r)) (tacc (ModelSpan.accs r)).
(* the acceptors' views lie between two offsets *)
Definition within (lo hi : nat) (a : sacc) : Prop :=
  Forall (fun p => lo <= fst (snd p) /\ fst (snd p) + snd (snd p) <= hi) a.
Definition good (v : span) (r : ModelSpan.matched_result A) : Prop :=
  match r with
  | None => True
  | Some (m, a) => fst m = fst v /\ snd m <= snd v /\ within (fst m) (fst m + snd m) a
  end.
Definition goodr (v : span) (r : ModelSpan.rule A) : Prop :=
  match ModelSpan.tail r with
  | None => ModelSpan.accs r = []
  | Some t => fst v <= fst t /\ fst t + snd t = fst v + snd v /\ within (fst v) (fst t) (ModelSpan.accs r)
  end.
Definition agree {T U} (P : T -> U -> Prop) (x : outcome U) (y : ModelSpan.M T) : Prop :=
  match y with
  | Ok (r, _) => exists u, x = Ok u /\ P r u
  | Fault e => x = Fault e
  | Diverge => x = Diverge
  end.
Definition sim (f : matcher A) (fv : ModelSpan.matcher A) : Prop :=
  forall v, valid v -> agree (fun r u => u = tres r /\ good v r) (f (rule_of (text v))) (fv (ModelSpan.rule_of v)).
Definition simc (v : span) (c : outcome (rule A)) (cv : ModelSpan.M (ModelSpan.rule A)) : Prop :=
  agree (fun r u => u = trule r /\ goodr v r) c cv.

Lemma agree_bind {T U T' U'} (P : T -> U -> Prop) (Q : T' -> U' -> Prop) x y k kv :
  agree P x y -> (forall r u, P r u -> agree Q (k u) (kv r)) -> agree Q (bind x k) (ModelSpan.mbind y kv).
Proof.
  intros H K. destruct y as [[r n]|e|]; cbn in *.
  - destruct H as (u & -> & Hp). cbn. specialize (K r u Hp).
    destruct (kv r) as [[s k']|e|]; exact K.
  - now rewrite H. - now rewrite H.
Qed.
(* a step on the side of the places only *)
Lemma agree_steps {T U} (Q : T -> U -> Prop) n x kv :
  agree Q x (kv tt) -> agree Q x (ModelSpan.mbind (ModelSpan.steps n) kv).
Proof. intros H. cbn. destruct (kv tt) as [[s k']|e|]; exact H. Qed.
Lemma agree_ret_bind {T U V} (Q : T -> U -> Prop) (r : V) x kv :
  agree Q x (kv r) -> agree Q x (ModelSpan.mbind (ModelSpan.ret r) kv).
Proof. intros H. cbn. destruct (kv r) as [[s k']|e|]; exact H. Qed.
Lemma agree_const {T U V} (Q : T -> U -> Prop) (r : V) n x kv :
  agree Q x (kv r) -> agree Q x (ModelSpan.mbind (Ok (r, n)) kv).
Proof. intros H. cbn. destruct (kv r) as [[s k']|e|]; exact H. Qed.
Lemma agree_imp {T U} (P Q : T -> U -> Prop) x y :
  agree P x y -> (forall r n u, y = Ok (r, n) -> P r u -> Q r u) -> agree Q x y.
Proof. destruct y as [[r n]|e|]; cbn; auto. intros (u & -> & H) K. eauto. Qed.
Lemma agree_ret {T U} (Q : T -> U -> Prop) r u : Q r u -> agree Q (Ok u) (ModelSpan.ret r).
Proof. cbn. eauto. Qed.
Lemma agree_copy (Q : ModelSpan.rule A -> rule A -> Prop) r u : Q r u -> agree Q (Ok u) (ModelSpan.copy r).
Proof. cbn. eauto. Qed.

Lemma tacc_app a b : tacc (a ++ b) = tacc a ++ tacc b.
Proof. apply map_app. Qed.
Lemma within_app lo hi a b : within lo hi (a ++ b) <-> within lo hi a /\ within lo hi b.
Proof. apply Forall_app. Qed.
Lemma within_weak lo hi lo' hi' a : within lo hi a -> lo' <= lo -> hi <= hi' -> within lo' hi' a.
Proof. intros H L U. eapply Forall_impl; [|exact H]. cbn. intros p. lia. Qed.

Lemma good_start v : goodr v (ModelSpan.rule_of v).
Proof. unfold goodr; cbn. repeat split; try lia. constructor. Qed.
Lemma simc_start v : simc v (Ok (rule_of (text v))) (ModelSpan.ret (ModelSpan.rule_of v)).
Proof. cbn. exists (rule_of (text v)). split; [reflexivity|]. split; [reflexivity|apply good_start]. Qed.

Lemma join_m v r s a : valid v -> goodr v r -> (exists t, ModelSpan.tail r = Some t /\ good t (Some (s, a))) ->
  simc v (join_rule_m (trule r) (text s, tacc a)) (ModelSpan.join_rule_m r (s, a)).
Proof.
  intros Hv Hr (t & Ht & G1 & G2 & G3). unfold goodr in Hr. rewrite Ht in Hr. destruct Hr as (R1 & R2 & R3).
  destruct t as [o l], s as [o' k]. cbn [fst snd] in *. subst o'.
  assert (Hvt : valid (o, l)) by (unfold valid in *; cbn; lia).
  assert (Hvs : valid (o, k)) by (unfold valid in *; cbn; lia).
  unfold join_rule_m, ModelSpan.join_rule_m. cbn [trule tail accs fst snd]. rewrite Ht. cbn [option_map fst snd].
  unfold substr_from, ModelSpan.substr_from. rewrite !text_length by assumption. cbn [fst snd].
  destruct (Nat.ltb_spec l k); [lia|]. cbn.
  eexists. split; [reflexivity|]. split.
  - unfold trule; cbn. rewrite text_skip, tacc_app by lia. reflexivity.
  - unfold goodr; cbn. split; [lia|]. split; [lia|]. apply within_app. split; eapply within_weak; eauto; lia.
Qed.
Lemma simc_concat_impl v c cv f fv acc : valid v -> simc v c cv -> sim f fv ->
  simc v (bind c (concat_impl f acc false)) (ModelSpan.mbind cv (ModelSpan.concat_impl fv acc false)).
Proof.
  intros Hv Hc Hf. eapply agree_bind; [exact Hc|]. intros r u [-> Hr].
  unfold concat_impl, ModelSpan.concat_impl.
  destruct (ModelSpan.tail r) as [t|] eqn:Et; cbn [trule tail]; rewrite Et; cbn [option_map].
  2: { apply agree_copy. auto. }
  assert (Hvt : valid t). { unfold goodr in Hr. rewrite Et in Hr. unfold valid in *. lia. }
  eapply agree_bind; [unfold ModelSpan.call; apply agree_steps; exact (Hf t Hvt)|].
  intros [[s a]|] u [-> G]; cbn [tres option_map fst snd].
  - destruct acc as [g|].
    + assert (E : tacc a ++ [(g, text s)] = tacc (a ++ [(g, s)])) by now rewrite tacc_app.
      rewrite E. apply (agree_const _ (a ++ [(g, s)]) 1).
      apply join_m; auto. exists t. split; auto. destruct G as (G1 & G2 & G3). split; [auto|]. split; [auto|].
      apply within_app. split; auto. repeat constructor; cbn; lia.
    + apply agree_ret_bind. apply join_m; auto. exists t; auto.
  - apply agree_ret. split; reflexivity.
Qed.
Lemma simc_concat v c cv f fv : valid v -> simc v c cv -> sim f fv ->
  simc v (bind c (concat f)) (ModelSpan.mbind cv (ModelSpan.concat fv)).
Proof. intros. now apply simc_concat_impl. Qed.
Lemma simc_concat_a v c cv f fv g : valid v -> simc v c cv -> sim f fv ->
  simc v (bind c (concat_a f g)) (ModelSpan.mbind cv (ModelSpan.concat_a fv g)).
Proof. intros. now apply simc_concat_impl. Qed.

Lemma simc_optional v c cv f fv : valid v -> simc v c cv -> sim f fv ->
  simc v (bind c (optional f)) (ModelSpan.mbind cv (ModelSpan.optional fv)).
Proof.
  intros Hv Hc Hf. eapply agree_bind; [exact Hc|]. intros r u [-> Hr].
  unfold optional, ModelSpan.optional, optional_impl, ModelSpan.optional_impl.
  destruct (ModelSpan.tail r) as [t|] eqn:Et; cbn [trule tail]; rewrite Et; cbn [option_map].
  2: { apply agree_copy. auto. }
  assert (Hvt : valid t). { unfold goodr in Hr. rewrite Et in Hr. unfold valid in *. lia. }
  assert (Hin : agree (fun r u => u = trule r /\ goodr t r /\ ModelSpan.tail r <> None) (concat_impl f None true (rule_of (text t)))
             (ModelSpan.concat_impl fv None true (ModelSpan.rule_of t))).
  { unfold concat_impl, ModelSpan.concat_impl. cbn [tail ModelSpan.tail rule_of ModelSpan.rule_of].
    eapply agree_bind; [unfold ModelSpan.call; apply agree_steps; exact (Hf t Hvt)|].
    intros [[s a]|] u [-> G]; cbn [tres option_map fst snd].
    - apply agree_ret_bind.
      assert (J : simc t (join_rule_m (trule (ModelSpan.rule_of t)) (text s, tacc a)) (ModelSpan.join_rule_m (ModelSpan.rule_of t) (s, a)))
        by (apply join_m; auto; [apply good_start|exists t; auto]).
      assert (N : forall x y, ModelSpan.join_rule_m (ModelSpan.rule_of t) (s, a) = Ok (x, y) -> ModelSpan.tail x <> None).
      { intros x y. unfold ModelSpan.join_rule_m. cbn. unfold ModelSpan.substr_from.
        destruct (Nat.ltb _ _); cbn; [discriminate|]. intros E. now injection E as <- <-. }
      eapply agree_imp; [exact J|]. intros x n u E [-> G']. split; [reflexivity|]. split; [exact G'|eapply N; exact E].
    - apply agree_copy. split; [reflexivity|]. split; [apply good_start|discriminate]. }
  eapply agree_bind; [exact Hin|]. intros res u (-> & G & N).
  destruct (ModelSpan.tail res) as [t'|] eqn:Et'; [|congruence]. cbn [trule tail]. rewrite Et'. cbn [option_map].
  unfold ModelSpan.join_rule_r, ModelSpan.join. cbn. eexists. split; [reflexivity|].
  unfold goodr in *. rewrite Et in Hr. rewrite Et' in G. cbn. split.
  - unfold join_rule_r, trule; cbn. now rewrite ?Et', tacc_app.
  - rewrite ?Et'. split; [lia|]. split; [lia|]. apply within_app. destruct Hr as (?&?&?), G as (?&?&?). split; eapply within_weak; eauto; lia.
Qed.

Lemma simc_alternative v c cv fs fvs : valid v -> simc v c cv -> Forall2 sim fs fvs ->
  simc v (bind c (alternative fs)) (ModelSpan.mbind cv (ModelSpan.alternative fvs)).
Proof.
  intros Hv Hc Hf. eapply agree_bind; [exact Hc|]. intros r u [-> Hr]. clear Hc.
  induction Hf as [|f fv fs fvs Hf _ IH].
  - apply agree_ret. split; reflexivity.
  - cbn [alternative ModelSpan.alternative].
    destruct (ModelSpan.tail r) as [t|] eqn:Et; cbn [trule tail]; rewrite Et; cbn [option_map].
    2: { apply agree_copy. auto. }
    assert (Hvt : valid t). { unfold goodr in Hr. rewrite Et in Hr. unfold valid in *. lia. }
    eapply agree_bind; [unfold ModelSpan.call; apply agree_steps; exact (Hf t Hvt)|].
    intros [[s a]|] u [-> G]; cbn [tres option_map fst snd].
    + replace (mkrule (Some (text t)) (tacc (ModelSpan.accs r))) with (trule r) by (unfold trule; now rewrite Et).
      apply join_m; auto. exists t; auto.
    + replace (mkrule (Some (text t)) (tacc (ModelSpan.accs r))) with (trule r) by (unfold trule; now rewrite Et).
      exact IH.
Qed.

Lemma sim_star_loop fuel f fv max : sim f fv -> forall v acc lo count len, valid v -> within lo (fst v) acc -> lo <= fst v ->
  agree (fun r u => u = (fst (fst r), tacc (snd (fst r)), snd r) /\ len <= fst (fst r) <= len + snd v
                    /\ within lo (fst v + (fst (fst r) - len)) (snd (fst r)))
    (star_loop fuel f max (text v) len (tacc acc) count) (ModelSpan.star_loop fuel fv max v len acc count).
Proof.
  intros Hf. induction fuel as [|fuel IH]; intros v acc lo count len Hv Hw Hl; cbn [star_loop ModelSpan.star_loop]; [reflexivity|].
  eapply agree_bind; [unfold ModelSpan.call; apply agree_steps; exact (Hf v Hv)|].
  intros [[s a]|] u [-> G]; cbn [tres option_map fst snd].
  2: { apply agree_ret. cbn. split; [reflexivity|]. split; [lia|]. eapply within_weak; eauto. lia. }
  destruct (max <? uint_incr count)%N.
  { apply agree_ret. cbn. split; [reflexivity|]. split; [lia|]. eapply within_weak; eauto. lia. }
  destruct G as (G1 & G2 & G3). destruct v as [o l], s as [o' k]. cbn [fst snd] in *. subst o'.
  assert (Hvs : valid (o, k)) by (unfold valid in *; cbn in *; lia).
  rewrite !text_length by assumption. cbn [snd]. destruct (Nat.ltb_spec l k); [lia|].
  apply agree_steps. rewrite <- text_skip, <- tacc_app by lia.
  specialize (IH (o + k, l - k) (acc ++ a) lo (uint_incr count) (len + k)).
  cbn [fst snd] in IH.
  assert (IH' := IH ltac:(unfold valid in *; cbn in *; lia)
    ltac:(apply within_app; split; eapply within_weak; eauto; lia) ltac:(lia)).
  eapply agree_imp; [exact IH'|]. intros [[x y] z] n u _ (-> & B & W). cbn [fst snd] in *.
  split; [reflexivity|]. split; [lia|]. eapply within_weak; eauto; lia.
Qed.
Lemma simc_star v c cv fuel f fv min max : valid v -> simc v c cv -> sim f fv ->
  simc v (bind c (star fuel f min max)) (ModelSpan.mbind cv (ModelSpan.star fuel fv min max)).
Proof.
  intros Hv Hc Hf. eapply agree_bind; [exact Hc|]. intros r u [-> Hr].
  unfold star, ModelSpan.star.
  destruct (ModelSpan.tail r) as [t|] eqn:Et; cbn [trule tail]; rewrite Et; cbn [option_map].
  2: { apply agree_copy. auto. }
  unfold goodr in Hr. rewrite Et in Hr. destruct Hr as (R1 & R2 & R3).
  assert (Hvt : valid t) by (unfold valid in *; lia).
  apply agree_steps. eapply agree_bind; [cbn [accs]; apply (sim_star_loop fuel f fv max Hf t (ModelSpan.accs r) (fst v)); auto|].
  intros [[len acc] count] u (-> & B & W). cbn [fst snd] in *.
  destruct (count <? min)%N; [apply agree_ret; split; reflexivity|].
  destruct t as [o l]. cbn [fst snd] in *.
  unfold substr_from, ModelSpan.substr_from. rewrite text_length by assumption. cbn [fst snd].
  destruct (Nat.ltb_spec l len); [lia|]. cbn. eexists. split; [reflexivity|]. split.
  - unfold trule; cbn. now rewrite text_skip by lia.
  - unfold goodr; cbn. split; [lia|]. split; [lia|]. eapply within_weak; eauto; lia.
Qed.

Lemma sim_chain f fv : (forall v, valid v -> simc v (f (rule_of (text v))) (fv (ModelSpan.rule_of v))) ->
  sim (fun r => bind (f r) (matched r)) (fun r => ModelSpan.mbind (fv r) (ModelSpan.matched r)).
Proof.
  intros H v Hv. eapply agree_bind; [exact (H v Hv)|]. intros r u [-> Hr].
  unfold matched, ModelSpan.matched. cbn [tail ModelSpan.tail rule_of ModelSpan.rule_of trule].
  destruct (ModelSpan.tail r) as [t|] eqn:Et; cbn [option_map].
  2: { apply agree_ret. split; reflexivity. }
  unfold goodr in Hr. rewrite Et in Hr. destruct Hr as (R1 & R2 & R3).
  destruct v as [o l], t as [o' l']. cbn [fst snd] in *.
  assert (valid (o', l')) by (unfold valid in *; cbn in *; lia).
  apply agree_steps. rewrite !text_length by assumption. cbn [snd].
  destruct (Nat.ltb_spec l l'); [lia|]. apply agree_ret. split.
  - unfold tres; cbn. now rewrite (text_take o l (l - l')) by lia.
  - cbn. split; [reflexivity|]. split; [lia|]. eapply within_weak; eauto; lia.
Qed.
Lemma sim_chr p : sim (single_char_p p) (ModelSpan.single_char_p buf p).
Proof.
  intros [o [|l]] Hv; unfold single_char_p, ModelSpan.single_char_p; cbn [tail ModelSpan.tail rule_of ModelSpan.rule_of].
  - apply agree_ret. split; reflexivity.
  - destruct (nth_valid o l Hv) as [c Hc]. rewrite (text_cons o l c Hc), Hc.
    destruct (p c) as [b|e|]; cbn; try reflexivity. destruct b; eexists; (split; [reflexivity|]); cbn.
    + rewrite (text_cons o 0 c Hc). split; [reflexivity|]. split; [reflexivity|]. split; [lia|constructor].
    + auto.
Qed.
Lemma sim_single sg c : sim (single_char sg c) (ModelSpan.single_char buf sg c).
Proof.
  intros v Hv. unfold single_char, ModelSpan.single_char. destruct (c_tolower (as_int sg c)); cbn; try reflexivity.
  exact (sim_chr _ v Hv).
Qed.
Lemma sim_range sg a b : sim (char_range sg a b) (ModelSpan.char_range buf sg a b).
Proof.
  intros v Hv. unfold char_range, ModelSpan.char_range. destruct (c_tolower (as_int sg a)); cbn; try reflexivity.
  destruct (c_tolower (as_int sg b)); cbn; try reflexivity. exact (sim_chr _ v Hv).
Qed.
End Rule.
End Sim.
