(* Changing the components of URIs one by one, and resolving references: in which order does not matter *)
From Verif Require Import Base ModelUri PathFacts SpecStore.
Local Open Scope nat_scope.

Section Lists.
Context {X : Type} (S : X -> X -> Prop).
Lemma f2_app a a' b b' : Forall2 S a a' -> Forall2 S b b' -> Forall2 S (a ++ b) (a' ++ b').
Proof. apply Forall2_app. Qed.
Lemma f2_removelast a a' : Forall2 S a a' -> Forall2 S (removelast a) (removelast a').
Proof. induction 1 as [|x y l l' H F IH]; [constructor|]. cbn. destruct F; [constructor|]. now constructor. Qed.
Lemma f2_last a a' d d' : S d d' -> Forall2 S a a' -> S (last a d) (last a' d').
Proof. intros D. induction 1 as [|x y l l' H F IH]; [exact D|]. destruct F; [exact H|exact IH]. Qed.
Lemma f2_firstn n a a' : Forall2 S a a' -> Forall2 S (firstn n a) (firstn n a').
Proof. intros F. revert n. induction F; intros [|n]; cbn; constructor; auto. Qed.
Lemma f2_length a a' : Forall2 S a a' -> length a = length a'.
Proof. induction 1; cbn; congruence. Qed.
End Lists.

Section Commute.
Variable R : field -> str -> str -> Prop.
Hypothesis empty_related : R Segment [] [].
(* related, and not to be confused *)
Definition alike (x y : str) : Prop := R Segment x y /\ is_dot x = is_dot y /\ is_dotdot x = is_dotdot y /\ is_empty x = is_empty y.
Lemma alike_nil : alike [] []. Proof. repeat split; auto. Qed.
Lemma alike_stk l l' : Forall2 alike l l' -> forall st st', Forall2 alike st st' -> Forall2 alike (stk st l) (stk st' l').
Proof.
  induction 1 as [|x y l l' H F IH]; intros st st' G; [exact G|]. cbn [stk]. pose proof H as (_ & H2 & H3 & _). rewrite H2, H3.
  destruct (is_dot y); [now apply IH|]. destruct (is_dotdot y); apply IH; [now apply f2_removelast|apply f2_app; auto].
Qed.
Lemma alike_dirlike x y : alike x y -> dirlike x = dirlike y.
Proof. intros (_ & A & B & C). unfold dirlike. now rewrite A, B, C. Qed.
Lemma tail_alike (k k' : list str) : Forall2 alike k k' ->
  Forall2 alike (match k with [] => [[]] | _ => if is_empty (last k []) then k else k ++ [[]] end) (match k' with [] => [[]] | _ => if is_empty (last k' []) then k' else k' ++ [[]] end).
Proof.
  intros K. assert (E : is_empty (last k []) = is_empty (last k' [])) by (pose proof (f2_last _ _ _ [] [] alike_nil K) as (_ & _ & _ & E); exact E).
  rewrite E. clear E. destruct (is_empty (last k' [])).
  - destruct K; constructor; auto; try exact alike_nil.
  - destruct K as [|x y k k' H K]; [constructor; [exact alike_nil|constructor]|].
    apply (f2_app alike (x :: k) (y :: k')); [now constructor|]. constructor; [exact alike_nil|constructor].
Qed.
Lemma alike_rds l l' : Forall2 alike l l' -> Forall2 alike (rds_segments l) (rds_segments l').
Proof.
  intros F. rewrite !rds_segments_stk. cbv zeta. pose proof (alike_stk l l' F [] [] (Forall2_nil _)) as K.
  replace (match l' with [] => false | _ => dirlike (last l' []) end) with (match l with [] => false | _ => dirlike (last l []) end).
  2: { pose proof (alike_dirlike _ _ (f2_last _ _ _ [] [] alike_nil F)) as D. destruct F; [reflexivity|exact D]. }
  destruct (match l with [] => false | _ => _ end); [|exact K].
  apply tail_alike, K.
Qed.
Lemma alike_R l l' : Forall2 alike l l' -> Forall2 (R Segment) l l'.
Proof. induction 1 as [|x y l l' H F IH]; constructor; auto. apply H. Qed.
Lemma empty_alike p p' : absolute p = absolute p' -> Forall2 alike (segments p) (segments p') -> path_is_empty p = path_is_empty p'.
Proof. intros _ F. unfold path_is_empty. destruct F; reflexivity. Qed.
Definition similar (b b' : parts) : Prop := parts_rel R b b' /\ Forall2 alike (segments (p_path b)) (segments (p_path b')).
Lemma join_alike b b' r r' strict : similar b b' -> similar r r' ->
  (strict = true \/ (p_scheme r = p_scheme b <-> p_scheme r' = p_scheme b')) -> similar (join_parts b r strict) (join_parts b' r' strict).
Proof.
  intros [(B1 & B2 & B3 & B4 & B5 & B6) BS] [(R1 & R2 & R3 & R4 & R5 & R6) RS] Sch. unfold join_parts. cbv zeta.
  assert (Rds : forall p p', absolute p = absolute p' -> Forall2 alike (segments p) (segments p') ->
            absolute (remove_dot_segments p) = absolute (remove_dot_segments p') /\ Forall2 alike (segments (remove_dot_segments p)) (segments (remove_dot_segments p'))).
  { intros p p' A F. split; [exact A|]. now apply alike_rds. }
  assert (Make : forall s s' a a' p p' q q' f f', opt_rel (R Scheme) s s' -> opt_rel (auth_rel R) a a' -> absolute p = absolute p' -> Forall2 alike (segments p) (segments p') ->
            opt_rel (R Query) q q' -> opt_rel (R Fragment) f f' -> similar (mkparts s a p q f) (mkparts s' a' p' q' f')).
  { intros s s' a a' p p' q q' f f' H1 H2 H3 H4 H5 H6. split; [|exact H4]. unfold parts_rel. cbn [p_scheme p_authority p_path p_query p_fragment]. repeat (split; [assumption|]). split; [now apply alike_R|]. auto. }
  assert (C : (negb strict && opt_eqb str_eqb (p_scheme r) (p_scheme b)) = (negb strict && opt_eqb str_eqb (p_scheme r') (p_scheme b'))).
  { destruct Sch as [->|Sch]; [reflexivity|]. f_equal.
    assert (O : forall x y : option str, opt_eqb str_eqb x y = true <-> x = y).
    { intros [x|] [y|]; cbn; split; intros H; try discriminate; try reflexivity; [destruct (str_eqb_spec x y); congruence|injection H as <-; apply str_eqb_refl]. }
    destruct (opt_eqb str_eqb (p_scheme r) (p_scheme b)) eqn:E, (opt_eqb str_eqb (p_scheme r') (p_scheme b')) eqn:E'; try reflexivity.
    - apply O, Sch, O in E. congruence. - apply O, Sch, O in E'. congruence. }
  rewrite C. assert (RR : opt_rel (R Scheme) (if negb strict && opt_eqb str_eqb (p_scheme r') (p_scheme b') then None else p_scheme r)
      (if negb strict && opt_eqb str_eqb (p_scheme r') (p_scheme b') then None else p_scheme r')) by (destruct (negb strict && opt_eqb str_eqb (p_scheme r') (p_scheme b')); [constructor|exact R1]).
  destruct RR as [|s s' HS].
  2: { destruct (Rds _ _ R3 RS). apply Make; auto. now constructor. }
  destruct R2 as [|a a' HA].
  2: { destruct (Rds _ _ R3 RS). apply Make; auto. now constructor. }
  rewrite <- (empty_alike _ _ R3 RS). destruct (path_is_empty (p_path r)).
  - apply Make; auto. destruct R5 as [|q q' HQ]; [exact B5|now constructor].
  - rewrite <- R3. destruct (absolute (p_path r)) eqn:AR.
    + assert (R3' : absolute (p_path r) = absolute (p_path r')) by congruence. destruct (Rds _ _ R3' RS). apply Make; auto.
    + assert (M : absolute (merge b r) = absolute (merge b' r') /\ Forall2 alike (segments (merge b r)) (segments (merge b' r'))).
      { unfold merge. rewrite <- (empty_alike _ _ B3 BS). destruct B2, (path_is_empty (p_path b)); cbn [absolute segments]; (split; [auto|]); auto;
          (apply f2_app; [|exact RS]); rewrite <- (f2_length _ _ _ BS); (destruct (Nat.ltb 1 _); [now apply f2_firstn|exact BS]). }
      destruct M as [M1 M2]. destruct (Rds _ _ M1 M2). apply Make; auto.
Qed.
End Commute.
(* what holds of the empty text and of all segments of the base and of the reference holds of all segments of the result *)
Lemma join_segments_all (P : str -> Prop) b r strict : P [] -> Forall P (segments (p_path b)) -> Forall P (segments (p_path r)) ->
  Forall P (segments (p_path (join_parts b r strict))).
Proof.
  intros N B R. set (Q := fun f x y => x = y /\ (f = Segment -> P x)).
  assert (O : forall f (o : option str), f <> Segment -> opt_rel (Q f) o o) by (intros f [x|] H; constructor; split; [reflexivity|contradiction]).
  assert (S : forall p, Forall P (segments (p_path p)) -> similar Q p p).
  { intros p F. assert (F2 : Forall2 (alike Q) (segments (p_path p)) (segments (p_path p))).
    { clear - F. induction F as [|x l H F IH]; constructor; [|exact IH]. split; [split; auto|auto]. }
    split; [|exact F2]. split; [apply O; discriminate|]. split; [|split; [reflexivity|split; [now apply alike_R|split; apply O; discriminate]]].
    destruct (p_authority p) as [a|]; constructor. split; [apply O; discriminate|split; [split; [reflexivity|discriminate]|apply O; discriminate]]. }
  assert (J : similar Q (join_parts b r strict) (join_parts b r strict)).
  { apply join_alike; [split; auto|now apply S|now apply S|right; tauto]. }
  destruct J as [_ J]. revert J. generalize (segments (p_path (join_parts b r strict))). intros l J. induction l as [|x l IH]; [constructor|].
  inversion J as [|? ? ? ? ((_ & K) & _) F]; subst. constructor; auto.
Qed.
