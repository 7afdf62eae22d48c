From Verif Require Import Base ModelUri ModelAlgo ModelParts ModelCrash.
From Verif Require ModelPct ModelPuny ModelIcu.
From Coq Require Import Lia.
Local Open Scope list_scope.

(* m gives r once enough allocations succeed, and otherwise an exception with a store satisfying P *)
Definition good {A} (m : M A) (r : A) (P : vec -> Prop) : Prop :=
  exists n, forall k, (k < n -> exists st, m k = Ok (Exc st) /\ P st) /\ (n <= k -> m k = Ok (Ret r (k - n))).
Lemma good_ret {A} (a : A) P : good (ret a) a P.
Proof. exists 0. intros k. split; [lia|]. intros _. unfold ret. now rewrite Nat.sub_0_r. Qed.
Lemma good_pure {A} (o : outcome A) a P : o = Ok a -> good (pure o) a P.
Proof. intros ->. exact (good_ret a P). Qed.
Lemma good_then {A B} (m : M A) a (f : A -> M B) b (P : vec -> Prop) : good m a P -> good (f a) b P -> good (then_ m f) b P.
Proof.
  intros [n1 H1] [n2 H2]. exists (n1 + n2). intros k. unfold then_. destruct (H1 k) as [A1 B1]. split; intros L.
  - destruct (Nat.lt_ge_cases k n1) as [C|C].
    + destruct (A1 C) as (st & -> & Q). cbn [bind]. eauto.
    + rewrite (B1 C). cbn [bind]. apply (proj1 (H2 (k - n1))). lia.
  - rewrite (B1 ltac:(lia)). cbn [bind]. rewrite (proj2 (H2 (k - n1))) by lia. do 2 f_equal. lia.
Qed.
Lemma good_mono {A} (m : M A) a (P Q : vec -> Prop) : (forall st, P st -> Q st) -> good m a P -> good m a Q.
Proof. intros I [n H]. exists n. intros k. destruct (H k) as [H1 H2]. split; [|exact H2]. intros L. destruct (H1 L) as (st & E & Hp). eauto. Qed.
Lemma good_allocate st (P : vec -> Prop) : P st -> good (allocate st) tt P.
Proof. intros H. exists 1. intros [|k]; split; intros L; try lia; cbn; [eauto|]. now rewrite Nat.sub_0_r. Qed.
Lemma good_allocates n st (P : vec -> Prop) : P st -> good (allocates n st) tt P.
Proof. intros H. induction n as [|n IH]; cbn [allocates]; [apply good_ret|]. eapply good_then; [now apply good_allocate|exact IH]. Qed.
Lemma pure_ok {A B} (o : outcome A) (f : A -> outcome B) b : (do x <- o; f x) = Ok b -> exists a, o = Ok a /\ f a = Ok b.
Proof. destruct o; cbn; try discriminate. eauto. Qed.

Lemma good_reserve grow v n (P : vec -> Prop) : P v -> good (reserve_x grow v n) (reserve grow v n) P.
Proof.
  intros H. unfold reserve_x. destruct (Nat.leb n (vc_cap v)) eqn:E.
  - unfold reserve. rewrite E. apply good_ret.
  - eapply good_then; [exact (good_allocate v P H)|apply good_ret].
Qed.
Lemma good_push grow v c : good (push_back_x grow v c) (push_back grow v c) (fun st => st = v).
Proof. unfold push_back_x. destruct (Nat.leb _ _); [apply good_ret|]. eapply good_then; [apply good_allocate; reflexivity|apply good_ret]. Qed.

(* --- sinks --- *)
Section Sink.
Variable al : allocs.
Context {K : Type}.
Variable push : K -> ascii -> M K.
Variable now : K -> vec.
Variable pk : K -> ascii -> K.
Hypothesis Hpush : forall k c, good (push k c) (pk k c) (fun st => st = now k).
Definition on_way (k : K) (w : str) (st : vec) : Prop := exists w1 w2, w = w1 ++ w2 /\ st = now (fold_left pk w1 k).
Lemma on_way_left k a b st : on_way k a st -> on_way k (a ++ b) st.
Proof. intros (w1 & w2 & -> & E). exists w1, (w2 ++ b). now rewrite app_assoc. Qed.
Lemma on_way_right k a b st : on_way (fold_left pk a k) b st -> on_way k (a ++ b) st.
Proof. intros (w1 & w2 & -> & E). exists (a ++ w1), w2. split; [now rewrite app_assoc|]. now rewrite fold_left_app. Qed.
Lemma on_way_start k w : on_way k w (now k).
Proof. exists [], w. auto. Qed.
Lemma good_pushes s : forall k, good (pushes push k s) (fold_left pk s k) (on_way k s).
Proof.
  induction s as [|c s IH]; intros k; cbn [pushes fold_left]; [apply good_ret|].
  eapply good_then; [eapply good_mono; [|apply Hpush]; intros st ->; apply on_way_start|].
  eapply good_mono; [|apply IH]. intros st H. exact (on_way_right k [c] s st H).
Qed.
Lemma encoded_loop fuel : forall range out any o any', puny_encoded_loop fuel range out any = Ok (o, any') ->
  exists w, o = out ++ w /\ forall k, good (puny_encoded_loop_x al push now fuel range k any) (fold_left pk w k, any') (on_way k w).
Proof.
  induction fuel as [|fuel IH]; intros range out any o any' E; [discriminate|]. cbn [puny_encoded_loop puny_encoded_loop_x] in *.
  destruct (take_while is_not_dot range) as [label inp]. destruct (ModelPuny.encode label true) as [[segment non]| |] eqn:Ee; cbn [bind] in E; try discriminate.
  set (pre := if non then idna_prefix else []). set (an := if non then true else any) in *.
  assert (X : forall k w' (m : K -> M (K * bool)), good (m (fold_left pk (pre ++ segment) k)) (fold_left pk w' (fold_left pk (pre ++ segment) k), any') (on_way (fold_left pk (pre ++ segment) k) w') ->
    good (mdo _ <- allocates (a_encode al label) (now k); mdo (segment, any_non_ascii) <- pure (Ok (segment, non)); mdo out <- (if any_non_ascii then pushes push k idna_prefix else ret k);
          mdo out <- pushes push out segment; m out) (fold_left pk ((pre ++ segment) ++ w') k, any') (on_way k ((pre ++ segment) ++ w'))).
  { intros k w' m G. eapply good_then; [apply good_allocates, on_way_start|]. eapply good_then; [apply good_pure; reflexivity|]. cbv beta iota.
    eapply good_then; [|eapply good_then].
    - instantiate (1 := fold_left pk pre k). subst pre. destruct non; [|apply good_ret]. eapply good_mono; [|apply good_pushes]. intros st H. rewrite <- app_assoc. now apply on_way_left.
    - eapply good_mono; [|apply good_pushes]. intros st H. rewrite <- app_assoc. apply on_way_right, on_way_left, H.
    - rewrite <- fold_left_app. rewrite (fold_left_app pk (pre ++ segment)). eapply good_mono; [|exact G]. intros st H. now apply on_way_right. }
  assert (Eo : (if non then out ++ idna_prefix else out) ++ segment = out ++ pre ++ segment) by (subst pre; destruct non; cbn [app]; [now rewrite <- app_assoc|reflexivity]).
  rewrite Eo in E. destruct inp as [|d next].
  - injection E as <- <-. exists (pre ++ segment). split; [reflexivity|]. intros k. specialize (X k [] (fun out => ret (out, an)) (good_ret _ _)). rewrite app_nil_r in X.
    rewrite <- Ee in X. subst an. revert X. destruct (ModelPuny.encode label true) as [[sg nn]| |] eqn:E2; try discriminate. injection Ee as -> ->. exact (fun x => x).
  - destruct (IH _ _ _ _ _ E) as (w & -> & G). exists ((pre ++ segment) ++ "."%char :: w). split; [now rewrite <- !app_assoc|]. intros k.
    specialize (X k ("."%char :: w) (fun out => mdo out <- push out "."%char; puny_encoded_loop_x al push now fuel next out an)).
    eapply good_mono; [intros st H; exact H|]. apply X. cbn [fold_left]. eapply good_then; [eapply good_mono; [|apply Hpush]; intros st ->; apply on_way_start|].
    eapply good_mono; [|apply G]. intros st H. exact (on_way_right _ ["."%char] w st H).
Qed.
Lemma decoded_loop fuel : forall first out any o r, puny_decoded_loop fuel first out any = Ok (o, r) ->
  exists w, o = out ++ w /\ forall k, good (puny_decoded_loop_x al push now fuel first k any) (fold_left pk w k, r) (on_way k w).
Proof.
  induction fuel as [|fuel IH]; intros first out any o r E; [discriminate|]. cbn [puny_decoded_loop puny_decoded_loop_x] in *.
  destruct (take_while (fun c => is_not_dot (code c)) first) as [label rest].
  assert (C : forall out any o r, match rest with [] => Ok (out, inl any) | _ :: next => puny_decoded_loop fuel next (out ++ ["."%char]) any end = Ok (o, r) ->
    exists w, o = out ++ w /\ forall k, good (match rest with [] => ret (k, inl any) | _ :: next => mdo out <- push k "."%char; puny_decoded_loop_x al push now fuel next out any end) (fold_left pk w k, r) (on_way k w)).
  { clear E. intros out' any2 o' r' E. destruct rest as [|d next].
    - injection E as <- <-. exists []. rewrite app_nil_r. split; [reflexivity|]. intros k. apply good_ret.
    - destruct (IH _ _ _ _ _ E) as (w & -> & G). exists ("."%char :: w). split; [now rewrite <- app_assoc|]. intros k. cbn [fold_left].
      eapply good_then; [eapply good_mono; [|apply Hpush]; intros st ->; apply on_way_start|]. eapply good_mono; [|apply G]. intros st H. exact (on_way_right _ ["."%char] w st H). }
  assert (D : forall t any' o r, match rest with [] => Ok (out ++ t, inl any') | _ :: next => puny_decoded_loop fuel next ((out ++ t) ++ ["."%char]) any' end = Ok (o, r) ->
    exists w, o = out ++ w /\ forall k, good (mdo k <- pushes push k t; match rest with [] => ret (k, inl any') | _ :: next => mdo out <- push k "."%char; puny_decoded_loop_x al push now fuel next out any' end) (fold_left pk w k, r) (on_way k w)).
  { clear E. intros t any2 o' r' E. destruct (C _ _ _ _ E) as (w & -> & G). exists (t ++ w). split; [now rewrite app_assoc|]. intros k.
    eapply good_then; [eapply good_mono; [|apply good_pushes]; intros st H; now apply on_way_left|]. rewrite fold_left_app. eapply good_mono; [|apply G]. intros st H. now apply on_way_right. }
  destruct (starts_with Ascii.eqb label idna_prefix).
  - destruct (ModelPuny.decode (skipn (length idna_prefix) label)) as [[u|erc]| |]; cbn [bind] in E; try discriminate.
    + destruct (to_utf8 u) as [t| |] eqn:Et; cbn [bind] in E; try discriminate. destruct (D _ _ _ _ E) as (w & -> & G). exists w. split; [reflexivity|]. intros k.
      eapply good_then; [apply good_allocates, on_way_start|]. eapply good_then; [apply good_pure; reflexivity|]. cbv beta iota. eapply good_then; [apply good_pure; exact Et|]. apply G.
    + injection E as <- <-. exists []. rewrite app_nil_r. split; [reflexivity|]. intros k. eapply good_then; [apply good_allocates, on_way_start|]. eapply good_then; [apply good_pure; reflexivity|]. apply good_ret.
  - exact (D _ _ _ _ E).
Qed.
End Sink.
Lemma fold_count w : forall n, fold_left (fun n (_ : ascii) => S n) w n = n + length w.
Proof. induction w as [|c w IH]; intros n; cbn; [lia|]. rewrite IH. lia. Qed.
Lemma good_count n c st : good (count_push n c) (S n) (fun st' => st' = st).
Proof. apply good_ret. Qed.
Lemma good_encoded_size al st u n : puny_encoded_size u = Ok n -> good (puny_encoded_size_x al st u) n (fun st' => st' = st).
Proof.
  unfold puny_encoded_size, puny_encoded, puny_encoded_size_x. intros E. apply pure_ok in E. destruct E as ([o any] & E & F). injection F as <-.
  destruct (encoded_loop al count_push (fun _ => st) (fun n _ => S n) (fun k c => good_count k c st) _ _ _ _ _ _ E) as (w & -> & G).
  eapply good_then; [eapply good_mono; [|apply (G 0)]; intros st' (w1 & w2 & _ & ->); reflexivity|]. cbv beta iota. rewrite fold_count. cbn [app Nat.add]. apply good_ret.
Qed.
Lemma good_decoded_size al st s r : puny_decoded_size s = Ok r -> good (puny_decoded_size_x al st s) r (fun st' => st' = st).
Proof.
  unfold puny_decoded_size, puny_decoded, puny_decoded_size_x. intros E. apply pure_ok in E. destruct E as ([o any] & E & F).
  destruct (decoded_loop al count_push (fun _ => st) (fun n _ => S n) (fun k c => good_count k c st) _ _ _ _ _ _ E) as (w & -> & G).
  eapply good_then; [eapply good_mono; [|apply (G 0)]; intros st' (w1 & w2 & _ & ->); reflexivity|]. cbv beta iota. rewrite fold_count. cbn [app Nat.add] in *.
  replace r with (match any with inl any0 => inl (if any0 then length w else 0) | inr erc => inr erc end); [apply good_ret|]. destruct any; injection F as <-; reflexivity.
Qed.

(* --- the store grows --- *)
Definition ext (a b : str) : Prop := exists s, b = a ++ s.
Definition below (st : vec) (st' : vec) : Prop := ext (vc_data st') (vc_data st).
Lemma ext_refl a : ext a a. Proof. exists []. now rewrite app_nil_r. Qed.
Lemma ext_trans a b c : ext a b -> ext b c -> ext a c.
Proof. intros [s ->] [t ->]. exists (s ++ t). now rewrite app_assoc. Qed.
Lemma push_back_data grow v c : vc_data (push_back grow v c) = vc_data v ++ [c].
Proof. unfold push_back, reserve. destruct (Nat.leb _ _); reflexivity. Qed.
Lemma push_all_data grow w : forall v, vc_data (push_all grow v w) = vc_data v ++ w.
Proof. unfold push_all. induction w as [|c w IH]; intros v; cbn [fold_left]; [now rewrite app_nil_r|]. rewrite IH, push_back_data, <- app_assoc. reflexivity. Qed.
Lemma way_below grow st w st' : on_way (fun st => st) (push_back grow) st w st' -> below (push_all grow st w) st'.
Proof. intros (w1 & w2 & -> & ->). unfold below. change (fold_left (push_back grow) w1 st) with (push_all grow st w1). rewrite !push_all_data. exists w2. now rewrite <- app_assoc. Qed.
Lemma start_below grow st w : below (push_all grow st w) st.
Proof. unfold below. rewrite push_all_data. now exists w. Qed.

Ltac step H := apply pure_ok in H; let a := fresh "a" in let E := fresh "E" in destruct H as (a & E & H).
Lemma good_encode_size al st s v i f s' v' : encode_size st s v i f = Ok (s', v') -> good (encode_size_x al st s v i f) (s', v') (fun st' => st' = st).
Proof.
  destruct s as [needs required]. unfold encode_size, encode_size_x. intros H. step H. step H. step H. step H.
  eapply good_then; [apply good_pure; eassumption|]. eapply good_then; [apply good_pure; eassumption|]. eapply good_then; [apply good_pure; eassumption|].
  eapply good_then; [|injection H as <- <-; apply good_ret]. destruct (f =? f_host)%N; [|apply good_pure; eassumption]. step E2. eapply good_then; [apply good_pure; eassumption|]. apply good_encoded_size. exact E2.
Qed.
Lemma good_decode_size al st s v i f s' v' : decode_size st s v i f = Ok (s', v') -> good (decode_size_x al st s v i f) (s', v') (fun st' => st' = st).
Proof.
  destruct s as [[needs required] error]. unfold decode_size, decode_size_x. intros H. step H. step H.
  eapply good_then; [apply good_pure; eassumption|]. eapply good_then; [apply good_pure; eassumption|]. destruct error as [e|]; [injection H as <- <-; apply good_ret|].
  step H. eapply good_then; [apply good_pure; eassumption|]. step H. destruct a2 as [extra error]. apply (good_then _ (extra, error)); [|injection H as <- <-; apply good_ret].
  destruct (f =? f_host)%N; step E2.
  - eapply good_then; [apply good_decoded_size; eassumption|]. destruct a2; injection E2 as <- <-; apply good_ret.
  - eapply good_then; [apply good_pure; eassumption|]. injection E2 as <- <-. apply good_ret.
Qed.
Lemma good_encode_one al grow needs st v i f st1 v1 : encode_one grow needs st v i f = Ok (st1, v1) -> good (encode_one_x al grow needs st v i f) (st1, v1) (below st1) /\ below st1 st.
Proof.
  unfold encode_one, encode_one_x. intros H. step H. step H.
  destruct ((pos_of f i <? f_last)%N && negb (needs (pos_of f i))).
  { injection H as <- <-. split; [|apply ext_refl]. eapply good_then; [apply good_pure; eassumption|]. eapply good_then; [apply good_pure; eassumption|]. apply good_ret. }
  step H. cbv zeta in *. destruct (f =? f_host)%N.
  - step H. step H. step H. step H. step H. destruct a6 as [text any]. step H. injection H as <- <-. split; [|apply start_below].
    eapply good_then; [apply good_pure; eassumption|]. eapply good_then; [apply good_pure; eassumption|]. eapply good_then; [apply good_pure; eassumption|]. eapply good_then; [apply good_pure; eassumption|].
    assert (B : forall m, good m a3 (fun st0 => st0 = st) -> good m a3 (below (push_all grow st text))) by (intros m; apply good_mono; intros st' ->; apply start_below).
    eapply good_then; [apply B, good_encoded_size; eassumption|]. eapply good_then; [apply good_pure; eassumption|]. eapply good_then; [apply B, good_encoded_size; eassumption|]. eapply good_then; [apply good_pure; eassumption|].
    unfold puny_encoded in E6. destruct (encoded_loop al (push_back_x grow) (fun st => st) (push_back grow) (good_push grow) _ _ _ _ _ _ E6) as (w & -> & G). cbn [app] in *.
    eapply good_then; [eapply good_mono; [|apply G]; intros st'; apply way_below|]. cbv beta iota. change (fold_left (push_back grow) w st) with (push_all grow st w).
    eapply good_then; [eapply good_mono; [|apply good_encoded_size; eassumption]; intros st' ->; apply ext_refl|]. eapply good_then; [apply good_pure; eassumption|]. apply good_ret.
  - step H. step H. destruct ((f_last <=? pos_of f i)%N && negb a2) eqn:C.
    { injection H as <- <-. split; [|apply ext_refl]. eapply good_then; [apply good_pure; eassumption|]. eapply good_then; [apply good_pure; eassumption|]. eapply good_then; [apply good_pure; eassumption|].
      eapply good_then; [apply good_pure; eassumption|]. eapply good_then; [apply good_pure; eassumption|]. cbv beta. rewrite C. apply good_ret. }
    step H. step H. step H. step H. injection H as <- <-. split; [|apply start_below].
    do 5 (eapply good_then; [apply good_pure; eassumption|]). cbv beta. rewrite C. do 3 (eapply good_then; [apply good_pure; eassumption|]).
    eapply good_then; [eapply good_mono; [|apply (good_pushes (push_back_x grow) (fun st => st) (push_back grow) (good_push grow))]; intros st'; apply way_below|]. 
    eapply good_then; [apply good_pure; eassumption|]. apply good_ret.
Qed.

Lemma good_decode_one al grow needs st v i f st1 v1 : decode_one grow needs st v i f = Ok (st1, v1) -> good (decode_one_x al grow needs st v i f) (st1, v1) (below st1) /\ below st1 st.
Proof.
  unfold decode_one, decode_one_x. intros H. step H. step H. step H.
  destruct ((pos_of f i <? f_last)%N && negb (needs (pos_of f i))).
  { injection H as <- <-. split; [|apply ext_refl]. do 3 (eapply good_then; [apply good_pure; eassumption|]). apply good_ret. }
  step H. cbv zeta in *. destruct (f =? f_host)%N.
  - step H. destruct a3 as [text any]. injection H as <- <-. split; [|apply start_below]. do 4 (eapply good_then; [apply good_pure; eassumption|]).
    unfold puny_decoded in E3. destruct (decoded_loop al (push_back_x grow) (fun st => st) (push_back grow) (good_push grow) _ _ _ _ _ _ E3) as (w & -> & G). cbn [app] in *.
    eapply good_then; [eapply good_mono; [|apply G]; intros st'; apply way_below|]. cbv beta iota. change (fold_left (push_back grow) w st) with (push_all grow st w). apply good_ret.
  - step H. destruct ((f_last <=? pos_of f i)%N && (a3 =? 0)) eqn:C.
    { injection H as <- <-. split; [|apply ext_refl]. do 5 (eapply good_then; [apply good_pure; eassumption|]). cbv beta. rewrite C. apply good_ret. }
    step H. step H. injection H as <- <-. split; [|apply start_below].
    do 5 (eapply good_then; [apply good_pure; eassumption|]). cbv beta. rewrite C. do 2 (eapply good_then; [apply good_pure; eassumption|]).
    eapply good_then; [eapply good_mono; [|apply (good_pushes (push_back_x grow) (fun st => st) (push_back grow) (good_push grow))]; intros st'; apply way_below|]. apply good_ret.
Qed.

(* --- parts_strings --- *)
Section Strings.
Context {S : Type}.
Variable f : S -> view -> N -> N -> outcome (S * view).
Variable fx : S -> view -> N -> N -> M (S * view).
(* Q s st: the store st may be found when the state is s in the end; le s s': from s one gets to s' *)
Variable Q : S -> vec -> Prop.
Variable le : S -> S -> Prop.
Hypothesis le_refl : forall s, le s s.
Hypothesis le_trans : forall a b c, le a b -> le b c -> le a c.
Hypothesis Q_le : forall a b st, le a b -> Q a st -> Q b st.
Hypothesis Hf : forall s v i fl s' v', f s v i fl = Ok (s', v') -> good (fx s v i fl) (s', v') (Q s') /\ le s s'.
Lemma view_x s v fl s' v' : on_view f s v fl = Ok (s', v') -> good (on_view_x fx s v fl) (s', v') (Q s') /\ le s s'.
Proof. destruct v; cbn [on_view on_view_x]; [|apply Hf..]. intros [= <- <-]. split; [apply good_ret|apply le_refl]. Qed.
Lemma opt_x s v fl s' v' : on_opt f s v fl = Ok (s', v') -> good (on_opt_x fx s v fl) (s', v') (Q s') /\ le s s'.
Proof.
  destruct v as [v|]; cbn [on_opt on_opt_x]; [|intros [= <- <-]; split; [apply good_ret|apply le_refl]]. intros H. step H. destruct a as [s1 v1]. injection H as <- <-.
  destruct (view_x _ _ _ _ _ E) as [G L]. split; [|exact L]. eapply good_then; [exact G|]. apply good_ret.
Qed.
Lemma segments_x l : forall s c s' l', on_segments f s l c = Ok (s', l') -> good (on_segments_x fx s l c) (s', l') (Q s') /\ le s s'.
Proof.
  induction l as [|v l IH]; intros s c s' l' H; [injection H as <- <-; split; [apply good_ret|apply le_refl]|].
  assert (D : v = Null \/ on_segments f s (v :: l) c = (do (s, v) <- f s v c f_path; do (s, l') <- on_segments f s l ((c + 1) mod 2 ^ 32)%N; Ok (s, v :: l'))
     /\ on_segments_x fx s (v :: l) c = (mdo (s, v) <- fx s v c f_path; mdo (s, l') <- on_segments_x fx s l ((c + 1) mod 2 ^ 32)%N; ret (s, v :: l'))).
  { destruct v; [left; reflexivity|right; split; reflexivity..]. }
  destruct D as [->|[D1 D2]].
  - cbn [on_segments on_segments_x] in *. step H. destruct a as [s1 l1]. injection H as <- <-. destruct (IH _ _ _ _ E) as [G L]. split; [|exact L]. eapply good_then; [exact G|]. apply good_ret.
  - rewrite D1 in H. rewrite D2. step H. destruct a as [s1 v1]. step H. destruct a as [s2 l2]. injection H as <- <-. destruct (Hf _ _ _ _ _ _ E) as [G1 L1]. destruct (IH _ _ _ _ E0) as [G2 L2].
    split; [|eapply le_trans; eassumption]. eapply good_then; [eapply good_mono; [|exact G1]; intros st; apply Q_le; exact L2|]. cbv beta iota. eapply good_then; [exact G2|]. apply good_ret.
Qed.
Lemma auth_x s a s' a' : on_auth f s a = Ok (s', a') -> good (on_auth_x fx s a) (s', a') (Q s') /\ le s s'.
Proof.
  destruct a as [a|]; cbn [on_auth on_auth_x]; [|intros [= <- <-]; split; [apply good_ret|apply le_refl]]. intros H. step H. destruct a0 as [s1 u]. step H. destruct a0 as [s2 h]. step H. destruct a0 as [s3 p]. injection H as <- <-.
  destruct (opt_x _ _ _ _ _ E) as [G1 L1]. destruct (view_x _ _ _ _ _ E0) as [G2 L2]. destruct (opt_x _ _ _ _ _ E1) as [G3 L3].
  split; [|eauto]. eapply good_then; [eapply good_mono; [|exact G1]; intros st; apply Q_le; eauto|]. cbv beta iota. eapply good_then; [eapply good_mono; [|exact G2]; intros st; apply Q_le; eauto|]. cbv beta iota.
  eapply good_then; [exact G3|]. apply good_ret.
Qed.
Lemma strings_x s p s' p' : parts_strings f s p = Ok (s', p') -> good (parts_strings_x fx s p) (s', p') (Q s') /\ le s s'.
Proof.
  unfold parts_strings, parts_strings_x. intros H. step H. destruct a as [s1 sc]. step H. destruct a as [s2 sg]. step H. destruct a as [s3 au]. step H. destruct a as [s4 q]. step H. destruct a as [s5 fr]. injection H as <- <-.
  destruct (opt_x _ _ _ _ _ E) as [G1 L1]. destruct (segments_x _ _ _ _ _ E0) as [G2 L2]. destruct (auth_x _ _ _ _ E1) as [G3 L3]. destruct (opt_x _ _ _ _ _ E2) as [G4 L4]. destruct (opt_x _ _ _ _ _ E3) as [G5 L5].
  assert (L45 : le s3 s5) by eauto. assert (L25 : le s2 s5) by eauto. assert (L15 : le s1 s5) by eauto.
  split; [|eauto]. eapply good_then; [eapply good_mono; [|exact G1]; intros st; apply Q_le; assumption|]. cbv beta iota. eapply good_then; [eapply good_mono; [|exact G2]; intros st; apply Q_le; assumption|]. cbv beta iota.
  eapply good_then; [eapply good_mono; [|exact G3]; intros st; apply Q_le; assumption|]. cbv beta iota. eapply good_then; [eapply good_mono; [|exact G4]; intros st; apply Q_le; assumption|]. cbv beta iota.
  eapply good_then; [exact G5|]. apply good_ret.
Qed.
End Strings.
Lemma size_x {S} (f : S -> view -> N -> N -> outcome (S * view)) fx st : (forall s v i fl s' v', f s v i fl = Ok (s', v') -> good (fx s v i fl) (s', v') (fun st' => st' = st)) ->
  forall s p s' p', parts_strings f s p = Ok (s', p') -> good (parts_strings_x fx s p) (s', p') (fun st' => st' = st).
Proof. intros H s p s' p' E. apply (strings_x f fx (fun _ st' => st' = st) (fun _ _ => True)) in E; auto. apply E. Qed.
Lemma one_x f fx : (forall s v i fl s' v', f s v i fl = Ok (s', v') -> good (fx s v i fl) (s', v') (below s') /\ below s' s) ->
  forall s p s' p', parts_strings f s p = Ok (s', p') -> good (parts_strings_x fx s p) (s', p') (below s') /\ below s' s.
Proof.
  intros H s p s' p' E. apply (strings_x f fx (fun s st' => below s st') (fun s s' => below s' s)) in E; auto; [intros; apply ext_refl| |].
  - intros a b c A B. exact (ext_trans _ _ _ A B).
  - intros a b st A B. exact (ext_trans _ _ _ B A).
Qed.
Lemma reserve_data grow v n : vc_data (reserve grow v n) = vc_data v.
Proof. unfold reserve. destruct (Nat.leb _ _); reflexivity. Qed.
(* n allocations that find the store as it was, and then m *)
Definition first_copy {A} (store : vec) (n : nat) (m : M A) (r : A) (P : vec -> Prop) : Prop :=
  exists n', forall k, (k < n -> (mdo _ <- allocates n store; m) k = Ok (Exc store))
    /\ (n <= k < n + n' -> exists st, (mdo _ <- allocates n store; m) k = Ok (Exc st) /\ P st) /\ (n + n' <= k -> (mdo _ <- allocates n store; m) k = Ok (Ret r (k - (n + n')))).
Lemma allocates_run n st : forall k, (k < n -> allocates n st k = Ok (Exc st)) /\ (n <= k -> allocates n st k = Ok (Ret tt (k - n))).
Proof.
  induction n as [|n IH]; intros k; cbn [allocates]; [split; [lia|]; intros _; unfold ret; now rewrite Nat.sub_0_r|]. unfold then_, allocate. destruct k as [|k]; cbn [bind]; [split; [reflexivity|lia]|].
  destruct (IH k) as [A B]. split; intros L; [rewrite A by lia|rewrite B by lia]; reflexivity.
Qed.
Lemma good_copy {A} store n (m : M A) r P : good m r P -> first_copy store n m r P.
Proof.
  intros [n' H]. exists n'. intros k. destruct (allocates_run n store k) as [A1 B1]. unfold then_. split; [|split]; intros L.
  - now rewrite A1.
  - rewrite B1 by lia. cbn [bind]. apply (proj1 (H (k - n))). lia.
  - rewrite B1 by lia. cbn [bind]. rewrite (proj2 (H (k - n))) by lia. do 2 f_equal. lia.
Qed.
Lemma encode_x al grow store p st q : parts_encode grow store p = Ok (st, q) -> exists m, parts_encode_x al grow store p = (mdo _ <- allocates (a_copy al p) store; m) /\ first_copy store (a_copy al p) m (st, q) (below st).
Proof.
  unfold parts_encode, parts_encode_x. intros H. step H. destruct a as [[needs required] p1]. step H. destruct a as [st2 p2]. step H. injection H as <- <-.
  eexists. split; [reflexivity|]. apply good_copy. cbv zeta.
  apply (size_x _ (encode_size_x al (vclear store)) (vclear store) (good_encode_size al (vclear store))) in E. destruct (one_x _ (encode_one_x al grow needs) (good_encode_one al grow needs) _ _ _ _ E0) as [G L].
  assert (B : below st2 (vclear store)) by (exists (vc_data st2); reflexivity).
  eapply good_then; [eapply good_mono; [|exact E]; intros st' ->; auto|]. cbv beta iota.
  eapply good_then; [apply good_reserve; auto|]. eapply good_then; [eapply good_mono; [|exact G]; auto|]. cbv beta iota. eapply good_then; [apply good_pure; eassumption|]. apply good_ret.
Qed.
Lemma decode_x al grow store p st r : parts_decode grow store p = Ok (st, r) -> exists m, parts_decode_x al grow store p = (mdo _ <- allocates (a_copy al p) store; m) /\ first_copy store (a_copy al p) m (st, r) (below st).
Proof.
  unfold parts_decode, parts_decode_x. intros H. step H. destruct a as [[[needs required] error] p1].
  eexists. split; [reflexivity|]. apply good_copy. cbv zeta. apply (size_x _ (decode_size_x al (vclear store)) (vclear store) (good_decode_size al (vclear store))) in E.
  assert (B : below st (vclear store)) by (exists (vc_data st); reflexivity).
  eapply good_then; [eapply good_mono; [|exact E]; intros st' ->; auto|]. cbv beta iota. eapply good_then; [apply good_reserve; auto|].
  destruct error as [e|]; [injection H as <- <-; apply good_ret|]. step H. destruct a as [st2 p2]. step H. injection H as <- <-.
  destruct (one_x _ (decode_one_x al grow needs) (good_decode_one al grow needs) _ _ _ _ E0) as [G L].
  eapply good_then; [eapply good_mono; [|exact G]; auto|]. cbv beta iota. eapply good_then; [apply good_pure; eassumption|]. apply good_ret.
Qed.
