(* encode and decode do the same whatever the store holds *)
From Verif Require Import Base ModelUri ModelAlgo ModelParts ModelCrash SpecStore SpecViews SpecCrash PartsProps CrashFacts.
From Verif Require ModelPct ModelPuny ModelIcu.
From Coq Require Import Lia.
Local Open Scope list_scope.

Definition out (v : view) : Prop := match v with InStore _ _ _ => False | _ => True end.
Section Two.
Context {S : Type}.
Variables f1 f2 : S -> view -> N -> N -> outcome (S * view).
Variable R : S -> S -> Prop.
Variable same : view -> view -> Prop.
Hypothesis same_null : same Null Null.
Hypothesis Hf : forall s1 s2 v i fl s1' v1 s2' v2, R s1 s2 -> out v -> f1 s1 v i fl = Ok (s1', v1) -> f2 s2 v i fl = Ok (s2', v2) -> R s1' s2' /\ same v1 v2.
Lemma view_2 s1 s2 v fl s1' v1 s2' v2 : R s1 s2 -> out v -> on_view f1 s1 v fl = Ok (s1', v1) -> on_view f2 s2 v fl = Ok (s2', v2) -> R s1' s2' /\ same v1 v2.
Proof. intros HR HO. destruct v; cbn [on_view]; [|apply Hf; assumption..]. intros [= <- <-] [= <- <-]. auto. Qed.
Lemma opt_2 s1 s2 v fl s1' v1 s2' v2 : R s1 s2 -> opt_rel2 (fun v _ => out v) v v -> on_opt f1 s1 v fl = Ok (s1', v1) -> on_opt f2 s2 v fl = Ok (s2', v2) -> R s1' s2' /\ opt_rel2 same v1 v2.
Proof.
  intros HR HO. destruct v as [v|]; cbn [on_opt]; [|intros [= <- <-] [= <- <-]; split; [assumption|constructor]]. intros E F. step E. step F. destruct a as [x y], a0 as [x' y']. injection E as <- <-. injection F as <- <-.
  inversion HO; subst. destruct (view_2 _ _ _ _ _ _ _ _ HR H1 E0 E1). split; [assumption|now constructor].
Qed.
Lemma cons_case (f : S -> view -> N -> N -> outcome (S * view)) s v l c : v = Null \/ on_segments f s (v :: l) c = (do (s, v) <- f s v c f_path; do (s, l') <- on_segments f s l ((c + 1) mod 2 ^ 32)%N; Ok (s, v :: l')).
Proof. destruct v; [left; reflexivity|right; reflexivity..]. Qed.
Lemma segments_2 l : Forall2 (fun v _ => out v) l l -> forall s1 s2 c s1' l1 s2' l2, R s1 s2 -> on_segments f1 s1 l c = Ok (s1', l1) -> on_segments f2 s2 l c = Ok (s2', l2) -> R s1' s2' /\ Forall2 same l1 l2.
Proof.
  induction l as [|v l IH]; intros HO s1 s2 c s1' l1 s2' l2 HR E F; [injection E as <- <-; injection F as <- <-; split; [assumption|constructor]|]. inversion HO; subst.
  destruct (cons_case f1 s1 v l c) as [->|C1]; [|destruct (cons_case f2 s2 v l c) as [->|C2]].
  - cbn [on_segments] in E, F. step E. step F. destruct a as [x y], a0 as [x' y']. injection E as <- <-. injection F as <- <-. destruct (IH H4 _ _ _ _ _ _ _ HR E0 E1). split; [assumption|constructor; assumption].
  - cbn [on_segments] in E, F. step E. step F. destruct a as [x y], a0 as [x' y']. injection E as <- <-. injection F as <- <-. destruct (IH H4 _ _ _ _ _ _ _ HR E0 E1). split; [assumption|constructor; assumption].
  - rewrite C1 in E. rewrite C2 in F. step E. step F. destruct a as [x y], a0 as [x' y']. destruct (Hf _ _ _ _ _ _ _ _ _ HR H2 E0 E1) as [HR' Hs]. step E. step F. destruct a as [z w], a0 as [z' w']. injection E as <- <-. injection F as <- <-.
    destruct (IH H4 _ _ _ _ _ _ _ HR' E2 E3). split; [assumption|constructor; assumption].
Qed.
Lemma strings_2 s1 s2 p s1' q1 s2' q2 : outside p -> R s1 s2 -> parts_strings f1 s1 p = Ok (s1', q1) -> parts_strings f2 s2 p = Ok (s2', q2) -> R s1' s2' /\ views_rel (fun _ => same) q1 q2.
Proof.
  intros (O1 & O2 & _ & O3 & O4 & O5) HR E F. unfold parts_strings in E, F.
  step E. step F. destruct a as [x y], a0 as [x' y']. destruct (opt_2 _ _ _ _ _ _ _ _ HR O1 E0 E1) as [HR1 S1].
  step E. step F. destruct a as [x2 y2], a0 as [x2' y2']. destruct (segments_2 _ O3 _ _ _ _ _ _ _ HR1 E2 E3) as [HR2 S2].
  step E. step F. destruct a as [x3 y3], a0 as [x3' y3'].
  assert (A : R x3 x3' /\ opt_rel2 (fun a b => opt_rel2 same (v_userinfo a) (v_userinfo b) /\ same (v_host a) (v_host b) /\ opt_rel2 same (v_port a) (v_port b)) y3 y3').
  { revert E4 E5. destruct (v_authority p) as [au|]; cbn [on_auth]; [|intros [= <- <-] [= <- <-]; split; [assumption|constructor]]. intros E4 F4. inversion O2; subst. destruct H1 as (P1 & P2 & P3).
    step E4. step F4. destruct a as [z1 w1], a0 as [z1' w1']. destruct (opt_2 _ _ _ _ _ _ _ _ HR2 P1 E5 E6) as [HR3 S3].
    step E4. step F4. destruct a as [z2 w2], a0 as [z2' w2']. destruct (view_2 _ _ _ _ _ _ _ _ HR3 P2 E7 E8) as [HR4 S4].
    step E4. step F4. destruct a as [z3 w3], a0 as [z3' w3']. destruct (opt_2 _ _ _ _ _ _ _ _ HR4 P3 E9 E10) as [HR5 S5]. injection E4 as <- <-. injection F4 as <- <-.
    split; [assumption|]. constructor. cbn. auto. }
  destruct A as [HR3 S3].
  step E. step F. destruct a as [x4 y4], a0 as [x4' y4']. destruct (opt_2 _ _ _ _ _ _ _ _ HR3 O4 E6 E7) as [HR4 S4].
  step E. step F. destruct a as [x5 y5], a0 as [x5' y5']. destruct (opt_2 _ _ _ _ _ _ _ _ HR4 O5 E8 E9) as [HR5 S5].
  injection E as <- <-. injection F as <- <-. split; [assumption|]. unfold views_rel. cbn. auto 10.
Qed.
End Two.

(* the first pass: the same state, the same views *)
Definition kept_view (v w : view) : Prop := v = w /\ out v.
Lemma kept_views p q : views_rel (fun _ => kept_view) p q -> p = q /\ outside q.
Proof.
  intros H. assert (E : views_rel (fun _ v v' => v' = v) p q) by (eapply views_mono; [|exact H]; intros f v v' [-> _]; reflexivity).
  apply eq_views in E. subst q. split; [reflexivity|]. eapply views_mono; [|exact H]. intros f v v' [_ O]. exact O.
Qed.
Lemma pass1_e st1 st2 s p s1 q1 s2 q2 : outside p -> parts_strings (encode_size st1) s p = Ok (s1, q1) -> parts_strings (encode_size st2) s p = Ok (s2, q2) -> s1 = s2 /\ q1 = q2 /\ outside q2.
Proof.
  intros O E F. assert (Hf : forall s1 s2 v i fl s1' v1 s2' v2, s1 = s2 -> out v -> encode_size st1 s1 v i fl = Ok (s1', v1) -> encode_size st2 s2 v i fl = Ok (s2', v2) -> s1' = s2' /\ kept_view v1 v2).
  - clear. intros s1 s2 v i fl s1' v1 s2' v2 -> O E F. destruct s2 as [needs required]. unfold encode_size in E, F. rewrite (outside_read st1 st2 v O) in E. rewrite E in F. injection F as -> ->. split; [reflexivity|].
    step E. step E. step E. step E. injection E as _ <-. split; [reflexivity|exact O].
  - pose proof (strings_2 (encode_size st1) (encode_size st2) eq kept_view (conj eq_refl I) Hf s s p _ _ _ _ O eq_refl E F) as [A B]. apply kept_views in B. destruct B as [-> B]. auto.
Qed.
Lemma pass1_d st1 st2 s p s1 q1 s2 q2 : outside p -> parts_strings (decode_size st1) s p = Ok (s1, q1) -> parts_strings (decode_size st2) s p = Ok (s2, q2) -> s1 = s2 /\ q1 = q2 /\ outside q2.
Proof.
  intros O E F. assert (Hf : forall s1 s2 v i fl s1' v1 s2' v2, s1 = s2 -> out v -> decode_size st1 s1 v i fl = Ok (s1', v1) -> decode_size st2 s2 v i fl = Ok (s2', v2) -> s1' = s2' /\ kept_view v1 v2).
  - clear. intros s1 s2 v i fl s1' v1 s2' v2 -> O E F. destruct s2 as [[needs required] error]. unfold decode_size in E, F. rewrite (outside_read st1 st2 v O) in E. rewrite E in F. injection F as -> ->. split; [reflexivity|].
    step E. step E. destruct error; [injection E as _ <-; split; [reflexivity|exact O]|]. step E. step E. destruct a2. injection E as _ <-. split; [reflexivity|exact O].
  - pose proof (strings_2 (decode_size st1) (decode_size st2) eq kept_view (conj eq_refl I) Hf s s p _ _ _ _ O eq_refl E F) as [A B]. apply kept_views in B. destruct B as [-> B]. auto.
Qed.
Definition same_data (a b : vec) : Prop := vc_data a = vc_data b.
Lemma same_place_refl v : same_place v v.
Proof. destruct v; cbn; auto. Qed.
Lemma same_pushed grow a b t : same_data a b -> same_data (push_all grow a t) (push_all grow b t)
  /\ same_place (InStore (vc_alloc (push_all grow a t)) (length (vc_data a)) (length (vc_data (push_all grow a t)) - length (vc_data a)))
                (InStore (vc_alloc (push_all grow b t)) (length (vc_data b)) (length (vc_data (push_all grow b t)) - length (vc_data b))).
Proof. unfold same_data. intros E. cbn. rewrite !push_all_data, E. auto. Qed.
Lemma one_e grow needs s1 s2 v i fl s1' v1 s2' v2 : same_data s1 s2 -> out v -> encode_one grow needs s1 v i fl = Ok (s1', v1) -> encode_one grow needs s2 v i fl = Ok (s2', v2) -> same_data s1' s2' /\ same_place v1 v2.
Proof.
  intros HD O E F. unfold encode_one in E, F. rewrite (outside_read s1 s2 v O) in E. step E. step F. step E. step F.
  destruct ((pos_of fl i <? f_last)%N && negb (needs (pos_of fl i))); [injection E as <- <-; injection F as <- <-; split; [assumption|apply same_place_refl]|].
  step E. rewrite E4 in F. cbn [bind] in F. cbv zeta in E, F. destruct (fl =? f_host)%N.
  - step E. rewrite E5 in F. cbn [bind] in F. step E. rewrite E6 in F. cbn [bind] in F. step E. rewrite E7 in F. cbn [bind] in F. step E. step F. step E. rewrite E10 in F. cbn [bind] in F. destruct a9 as [text any].
    step E. step F. injection E as <- <-. injection F as <- <-. apply same_pushed. exact HD.
  - step E. rewrite E5 in F. cbn [bind] in F. step E. rewrite E6 in F. cbn [bind] in F. destruct ((f_last <=? pos_of fl i)%N && negb a4); [injection E as <- <-; injection F as <- <-; split; [assumption|apply same_place_refl]|].
    step E. rewrite E7 in F. cbn [bind] in F. step E. step F. step E. rewrite E10 in F. cbn [bind] in F. step E. step F. injection E as <- <-. injection F as <- <-. apply same_pushed. exact HD.
Qed.
Lemma one_d grow needs s1 s2 v i fl s1' v1 s2' v2 : same_data s1 s2 -> out v -> decode_one grow needs s1 v i fl = Ok (s1', v1) -> decode_one grow needs s2 v i fl = Ok (s2', v2) -> same_data s1' s2' /\ same_place v1 v2.
Proof.
  intros HD O E F. unfold decode_one in E, F. rewrite (outside_read s1 s2 v O) in E. step E. step F. step E. step F. step E. step F.
  destruct ((pos_of fl i <? f_last)%N && negb (needs (pos_of fl i))); [injection E as <- <-; injection F as <- <-; split; [assumption|apply same_place_refl]|].
  step E. rewrite E6 in F. cbn [bind] in F. cbv zeta in E, F. destruct (fl =? f_host)%N.
  - step E. rewrite E7 in F. cbn [bind] in F. destruct a6 as [text any]. injection E as <- <-. injection F as <- <-. apply same_pushed. exact HD.
  - step E. rewrite E7 in F. cbn [bind] in F. destruct ((f_last <=? pos_of fl i)%N && (a6 =? 0)); [injection E as <- <-; injection F as <- <-; split; [assumption|apply same_place_refl]|].
    step E. step F. step E. rewrite E10 in F. cbn [bind] in F. injection E as <- <-. injection F as <- <-. apply same_pushed. exact HD.
Qed.
Lemma same_reserve grow a b n : same_data (reserve grow (vclear a) n) (reserve grow (vclear b) n).
Proof. unfold same_data. now rewrite !reserve_data. Qed.
Lemma encode_same grow a b p st q st2 q2 : outside p -> parts_encode grow a p = Ok (st, q) -> parts_encode grow b p = Ok (st2, q2) -> same_result st q st2 q2.
Proof.
  unfold parts_encode. intros O E F. step E. step F. destruct a0 as [[n1 r1] p1], a1 as [[n2 r2] p2]. destruct (pass1_e _ _ _ _ _ _ _ _ O E0 E1) as ([= -> ->] & -> & O2).
  step E. step F. destruct a0 as [s1 w1], a1 as [s2 w2]. step E. step F. injection E as <- <-. injection F as <- <-.
  exact (strings_2 _ _ same_data same_place I (one_e grow n2) _ _ _ _ _ _ _ O2 (same_reserve grow a b r2) E2 E3).
Qed.
Lemma decode_same grow a b p st r st2 r2 : outside p -> parts_decode grow a p = Ok (st, r) -> parts_decode grow b p = Ok (st2, r2) ->
  match r, r2 with inl q, inl q2 => same_result st q st2 q2 | inr e, inr e2 => e = e2 | _, _ => False end.
Proof.
  unfold parts_decode. intros O E F. step E. step F. destruct a0 as [[[n1 c1] e1] p1], a1 as [[[n2 c2] e2] p2]. destruct (pass1_d _ _ _ _ _ _ _ _ O E0 E1) as ([= -> -> ->] & -> & O2).
  destruct e2 as [e|]; [injection E as <- <-; injection F as <- <-; reflexivity|].
  step E. step F. destruct a0 as [s1 w1], a1 as [s2 w2]. step E. step F. injection E as <- <-. injection F as <- <-.
  exact (strings_2 _ _ same_data same_place I (one_d grow n2) _ _ _ _ _ _ _ O2 (same_reserve grow a b c2) E2 E3).
Qed.
Lemma copied {A} store n (m : M A) r P n' :
  (forall k, (k < n -> (mdo _ <- allocates n store; m) k = Ok (Exc store)) /\ (n <= k < n + n' -> exists st, (mdo _ <- allocates n store; m) k = Ok (Exc st) /\ P st)
     /\ (n + n' <= k -> (mdo _ <- allocates n store; m) k = Ok (Ret r (k - (n + n'))))) ->
  forall k, k < n + n' -> exists st', (mdo _ <- allocates n store; m) k = Ok (Exc st') /\ (k < n -> st' = store) /\ (n <= k -> P st').
Proof.
  intros H k L. destruct (H k) as (H1 & H2 & _). destruct (Nat.lt_ge_cases k n) as [C|C].
  - exists store. split; [auto|]. split; [reflexivity|lia].
  - destruct (H2 (conj C L)) as (st' & E & Q). exists st'. split; [exact E|]. split; [lia|auto].
Qed.
Lemma c56_encode al grow store p : proper p ->
  exists st q n, parts_encode grow store p = Ok (st, q) /\ a_copy al p <= n
  /\ (forall k, n <= k -> parts_encode_x al grow store p k = Ok (Ret (st, q) (k - n)))
  /\ (forall k, k < n -> exists st', parts_encode_x al grow store p k = Ok (Exc st')
        /\ (k < a_copy al p -> st' = store) /\ (a_copy al p <= k -> begins (vc_data st') (vc_data st))
        /\ exists st2 q2, parts_encode grow st' p = Ok (st2, q2) /\ same_result st q st2 q2).
Proof.
  intros P. destruct (encode_all grow store p P) as (st & q & E & _). exists st, q. destruct (encode_x al grow store p st q E) as (m & -> & n & H). exists (a_copy al p + n). split; [exact E|]. split; [lia|]. split; [intros k; apply H|]. intros k L.
  destruct (copied _ _ _ _ _ _ H k L) as (st' & E' & B1 & B2). exists st'. split; [exact E'|]. split; [exact B1|]. split; [exact B2|].
  destruct (encode_all grow st' p P) as (st2 & q2 & E2 & _). exists st2, q2. split; [exact E2|]. exact (encode_same grow _ _ p _ _ _ _ (proj1 P) E E2).
Qed.
Lemma c56_decode al grow store p : proper p ->
  exists st r n, parts_decode grow store p = Ok (st, r) /\ a_copy al p <= n
  /\ (forall k, n <= k -> parts_decode_x al grow store p k = Ok (Ret (st, r) (k - n)))
  /\ (forall k, k < n -> exists st', parts_decode_x al grow store p k = Ok (Exc st')
        /\ (k < a_copy al p -> st' = store) /\ (a_copy al p <= k -> begins (vc_data st') (vc_data st))
        /\ match r with
           | inl q => exists st2 q2, parts_decode grow st' p = Ok (st2, inl q2) /\ same_result st q st2 q2
           | inr e => (a_copy al p <= k -> vc_data st' = []) /\ exists st2, parts_decode grow st' p = Ok (st2, inr e)
           end).
Proof.
  intros P. assert (T : forall store, exists st r, parts_decode grow store p = Ok (st, r) /\ match r with inr _ => vc_data st = [] | _ => True end).
  { intros s. destruct (decode_all grow s p P) as [(_ & st & q & E & _)|(_ & st & e & E & D)]; [exists st, (inl q)|exists st, (inr e)]; auto. }
  destruct (T store) as (st & r & E & D). exists st, r. destruct (decode_x al grow store p st r E) as (m & -> & n & H). exists (a_copy al p + n). split; [exact E|]. split; [lia|]. split; [intros k; apply H|]. intros k L.
  destruct (copied _ _ _ _ _ _ H k L) as (st' & E' & B1 & B2). exists st'. split; [exact E'|]. split; [exact B1|]. split; [exact B2|].
  destruct (T st') as (st2 & r2 & E2 & _). pose proof (decode_same grow _ _ p _ _ _ _ (proj1 P) E E2) as Sm. destruct r as [q|e], r2 as [q2|e2]; try contradiction.
  - exists st2, q2. auto.
  - split; [|exists st2; congruence]. intros L2. destruct (B2 L2) as [x B]. rewrite D in B. destruct (vc_data st'); [reflexivity|discriminate].
Qed.
