(* Facts about ModelJoinWork: the counting functions compute what ModelUri's do, and what the counts are. *)
From Verif Require Import Base ModelUri SpecPath PathFacts LengthFacts ModelJoinWork SpecJoinWork.
From Coq Require Import Lia.
Local Open Scope list_scope.

Fixpoint tests (l : list str) : nat := match l with [] => 0 | s :: l' => (if is_dot s then 1 else 2) + tests l' end.
Fixpoint late (b : bool) (l : list str) : nat :=
  match l with [] => 0 | s :: l' => if dotty s then late true l' else (if b then 1 else 0) + late b l' end.
Lemma spend_assoc a b c : spend (spend a b) c = spend a (spend b c).
Proof. unfold spend. cbn. f_equal; lia. Qed.
Lemma spend_0 a : spend a (mkeffort 0 0) = a.
Proof. destruct a. unfold spend. cbn. f_equal; lia. Qed.
Lemma spend_0l a : spend (mkeffort 0 0) a = a.
Proof. now destruct a. Qed.

Lemma loop_w n : forall it outit ld segs w, outit <= it -> it + n = length segs ->
  rds_loop_w n it outit ld segs w = (rds_loop n it outit ld segs, spend w (mkeffort (tests (skipn it segs)) (late (negb (Nat.eqb outit it)) (skipn it segs)))).
Proof.
  induction n as [|n IH]; intros it outit ld segs w H1 H2; cbn [rds_loop rds_loop_w].
  - rewrite skipn_all2 by lia. cbn [tests late]. now rewrite spend_0.
  - rewrite (skipn_cons it segs []) by lia. set (cur := nth it segs []). cbn [tests late]. unfold dotty.
    destruct (is_dot cur) eqn:D1; cbn [orb].
    + rewrite IH by lia. rewrite spend_assoc. f_equal. f_equal. destruct (Nat.eqb_spec outit (S it)); [lia|]. reflexivity.
    + destruct (is_dotdot cur) eqn:D2.
      * rewrite IH by lia. rewrite !spend_assoc. f_equal. f_equal. destruct (Nat.eqb_spec (pred outit) (S it)); [lia|]. reflexivity.
      * destruct (Nat.eqb_spec outit it) as [->|Ne]; cbn [negb].
        -- rewrite IH by lia. rewrite !spend_assoc. f_equal. f_equal. rewrite Nat.eqb_refl. reflexivity.
        -- rewrite IH; [|lia|rewrite upd_length; lia]. rewrite !spend_assoc. f_equal. f_equal. rewrite upd_skipn by lia.
           destruct (Nat.eqb_spec (S outit) (S it)); [lia|]. reflexivity.
Qed.

(* whether a segment is appended at the end *)
Definition appended (l : list str) : nat :=
  match l with
  | [] => 0
  | _ => if dirlike (last l []) then (let k := stk [] l in match k with [] => 1 | _ => if is_empty (last k []) then 0 else 1 end) else 0
  end.
Lemma rds_w_eq l : rds_w l = (rds_segments l, mkeffort (tests l) (late false l + appended l)).
Proof.
  unfold rds_w, rds_segments. rewrite loop_w by (cbn; lia).
  destruct (rds_loop_stk (length l) 0 0 false l) as (o & s' & E & F); [lia|lia|]. rewrite E. cbn [skipn firstn Nat.eqb negb] in *. rewrite F, spend_0l. unfold appended.
  destruct l as [|x l]; [reflexivity|]. destruct (dirlike (last (x :: l) [])); [|now rewrite Nat.add_0_r].
  destruct (stk [] (x :: l)) as [|y k]; [unfold spend; cbn [compared written]; now rewrite Nat.add_0_r|].
  destruct (is_empty (last (y :: k) [])); [now rewrite Nat.add_0_r|]. unfold spend; cbn [compared written]; now rewrite Nat.add_0_r.
Qed.
Lemma remove_w_eq p : remove_dot_segments_w p = (remove_dot_segments p, mkeffort (tests (segments p)) (late false (segments p) + appended (segments p))).
Proof. unfold remove_dot_segments_w. now rewrite rds_w_eq. Qed.
Lemma tidied_eq p : tidied_copy_w p = (remove_dot_segments p, mkeffort (tests (segments p)) (length (segments p) + late false (segments p) + appended (segments p))).
Proof. unfold tidied_copy_w, copy_w. rewrite remove_w_eq. cbn [absolute segments]. f_equal. unfold spend. cbn [compared written]. f_equal; lia. Qed.
Lemma merge_w_eq b r : exists w, merge_w b r = (merge b r, mkeffort 0 w) /\ w = length (segments (merge b r)) /\ w <= nsegs b + nsegs r.
Proof.
  unfold merge_w, merge, nsegs. destruct (p_authority b) as [a|], (path_is_empty (p_path b)); cbn [copy_w segments absolute]; unfold spend; cbn [compared written];
    (eexists; split; [reflexivity|]); rewrite ?app_length; split; try reflexivity; try lia;
    destruct (Nat.ltb _ _); rewrite ?firstn_length; lia.
Qed.

Lemma tests_le l : tests l <= 2 * length l.
Proof. induction l as [|s l IH]; cbn [tests length]; [lia|]. destruct (is_dot s); lia. Qed.
Lemma late_le b l : late b l <= length l.
Proof. revert b. induction l as [|s l IH]; intros b; cbn [late length]; [lia|]. destruct (dotty s); [specialize (IH true); lia|specialize (IH b); destruct b; lia]. Qed.
Lemma late_false l : late false l = 0 \/ late false l < length l.
Proof. induction l as [|s l IH]; cbn [late length]; [now left|]. destruct (dotty s); [pose proof (late_le true l); lia|]. destruct IH; lia. Qed.
Lemma late_app_dots l l' : Forall (fun s => ~ is_dots s) l -> late false (l ++ l') = late false l'.
Proof. induction 1 as [|s l H _ IH]; [reflexivity|]. cbn [app late]. destruct (dotty_spec s); [contradiction|]. exact IH. Qed.
Lemma late_plain l : Forall (fun s => ~ is_dots s) l -> late false l = 0.
Proof. intros H. rewrite <- (app_nil_r l). now rewrite late_app_dots. Qed.
Lemma late_ordinary l n : ordinary l n -> late true l = n.
Proof. induction 1 as [|s l n D _ IH|s l n D _ IH]; [reflexivity| |]; cbn [late]; destruct (dotty_spec s); try contradiction; lia. Qed.
Lemma appended_le l : appended l <= 1.
Proof. unfold appended. destruct l; [lia|]. destruct (dirlike _); [|lia]. destruct (stk _ _); [lia|]. destruct (is_empty _); lia. Qed.
Lemma appended_snoc l x : appended (l ++ [x]) = if dirlike x then (let k := stk [] (l ++ [x]) in match k with [] => 1 | _ => if is_empty (last k []) then 0 else 1 end) else 0.
Proof. unfold appended. rewrite last_last. now destruct l. Qed.
Lemma appended_nodots l x : ~ is_dots x -> appended (l ++ [x]) = 0.
Proof.
  intros D. rewrite appended_snoc, stk_app. unfold dirlike. cbn [stk].
  destruct (is_dot_spec x) as [->|]; [elim D; now left|]. destruct (is_dotdot_spec x) as [->|]; [elim D; now right|]. cbn [orb].
  destruct x as [|c x]; cbn [is_empty]; [|reflexivity]. 
  enough (G : forall k : list str, match k ++ [[]] with [] => 1 | _ => if is_empty (last (k ++ [[]]) []) then 0 else 1 end = 0) by exact (G _). intros k.
  assert (L : last (k ++ [[]]) [] = @nil ascii) by now rewrite last_last.
  destruct k as [|y k]; [reflexivity|]. cbn [app]. cbn [app] in L. now rewrite L.
Qed.
Lemma appended_plain l : Forall (fun s => ~ is_dots s) l -> appended l = 0.
Proof. intros H. destruct l as [|x l _] using rev_ind; [reflexivity|]. apply Forall_app in H as [_ H]. apply appended_nodots. now inversion H. Qed.
Lemma rds_cost_le l : late false l + appended l <= length l.
Proof.
  destruct l as [|x l _] using rev_ind; [cbn; lia|]. pose proof (appended_le (l ++ [x])) as A. destruct (late_false (l ++ [x])) as [E|]; [|lia]. rewrite E, app_length. cbn [length]. lia.
Qed.

Lemma join_eq b r strict : exists c w, join_w b r strict = (join_parts b r strict, mkeffort c w) /\ c <= 2 * (nsegs b + nsegs r) /\ w <= 2 * (nsegs b + nsegs r).
Proof.
  assert (T : forall p n m, length (segments p) = n -> tests (segments p) <= 2 * (m + n) /\ length (segments p) + late false (segments p) + appended (segments p) <= 2 * (m + n)).
  { intros p n m <-. pose proof (tests_le (segments p)). pose proof (rds_cost_le (segments p)). lia. }
  unfold join_w, join_parts. destruct (if negb strict && _ then None else _) as [s|].
  { rewrite tidied_eq. do 2 eexists. split; [reflexivity|]. now apply T. }
  destruct (p_authority r) as [a|]. { rewrite tidied_eq. do 2 eexists. split; [reflexivity|]. now apply T. }
  destruct (path_is_empty (p_path r)).
  { cbn [copy_w]. exists 0, (nsegs b). split; [unfold nsegs; destruct (p_path b); reflexivity|]. lia. }
  destruct (absolute (p_path r)). { rewrite tidied_eq. do 2 eexists. split; [reflexivity|]. now apply T. }
  destruct (merge_w_eq b r) as (w & -> & E & L). rewrite remove_w_eq. unfold spend. cbn [compared written]. do 2 eexists. split; [reflexivity|].
  pose proof (tests_le (segments (merge b r))). pose proof (rds_cost_le (segments (merge b r))). unfold str in *. lia.
Qed.
Lemma join_result b r strict : fst (join_w b r strict) = join_parts b r strict.
Proof. destruct (join_eq b r strict) as (c & w & -> & _). reflexivity. Qed.
Lemma merge_nsegs b r : length (segments (merge b r)) <= nsegs b + nsegs r.
Proof. destruct (merge_w_eq b r) as (w & _ & -> & L). exact L. Qed.
Lemma join_nsegs b r strict : nsegs (join_parts b r strict) <= nsegs b + nsegs r.
Proof.
  pose proof (merge_nsegs b r) as M. pose proof (proj1 (rds_le (segments (p_path r)))) as R. pose proof (proj1 (rds_le (segments (merge b r)))) as RM.
  unfold nsegs, join_parts in *. destruct (if negb strict && _ then None else _); [cbn [p_path segments remove_dot_segments]; unfold str in *; lia|].
  destruct (p_authority r); [cbn [p_path segments remove_dot_segments]; unfold str in *; lia|].
  destruct (path_is_empty (p_path r)); [cbn [p_path]; lia|]. destruct (absolute (p_path r)); cbn [p_path segments remove_dot_segments]; unfold str in *; lia.
Qed.

(* --- chains --- *)
Lemma joins_eq rs strict : forall b, fst (joins_w b rs strict) = fold_left (fun t r => join_parts t r strict) rs b.
Proof.
  induction rs as [|r rs IH]; intros b; [reflexivity|]. cbn [joins_w fold_left]. destruct (join_eq b r strict) as (c & w & -> & _).
  rewrite <- IH. now destruct (joins_w (join_parts b r strict) rs strict).
Qed.
Lemma joins_le rs strict : forall b n, nsegs b + list_sum (map nsegs rs) <= n ->
  compared (snd (joins_w b rs strict)) <= 2 * (length rs * n) /\ written (snd (joins_w b rs strict)) <= 2 * (length rs * n).
Proof.
  induction rs as [|r rs IH]; intros b n H; [cbn; lia|]. cbn [joins_w length]. destruct (join_eq b r strict) as (c & w & -> & C & W).
  change (list_sum (map nsegs (r :: rs))) with (nsegs r + list_sum (map nsegs rs)) in H.
  pose proof (join_nsegs b r strict) as L. destruct (IH (join_parts b r strict) n) as [C' W']; [lia|].
  destruct (joins_w (join_parts b r strict) rs strict) as [u w']. cbn [snd] in *. unfold spend. cbn [compared written]. lia.
Qed.
(* "a/" again and again *)
Definition again : parts := mkparts None None (mkpath false [ss "a"; []]) None None.
Definition deep (s : str) (a : authority) (n : nat) : parts := mkparts (Some s) (Some a) (mkpath true (repeat (ss "a") n ++ [[]])) None None.
Lemma tests_app a b : tests (a ++ b) = tests a + tests b.
Proof. induction a as [|s a IH]; cbn [tests app]; [reflexivity|]. lia. Qed.
Lemma tests_a n : tests (repeat (ss "a") n) = 2 * n.
Proof. induction n; [reflexivity|]. cbn [repeat tests]. rewrite IHn. change (is_dot (ss "a")) with false. cbv iota. lia. Qed.
Lemma plain_a n : Forall (fun s => ~ is_dots s) (repeat (ss "a") n ++ [[]]).
Proof. apply Forall_app. split; [|constructor; [|constructor]; now intros []]. induction n; constructor; [now intros []|assumption]. Qed.
Lemma stk_plain l : forall st, Forall (fun s => ~ is_dots s) l -> stk st l = st ++ l.
Proof.
  induction l as [|x l IH]; intros st H; [now rewrite app_nil_r|]. inversion H as [|? ? D F]. subst. cbn [stk]. destruct (is_dot_spec x) as [->|]; [elim D; now left|].
  destruct (is_dotdot_spec x) as [->|]; [elim D; now right|]. rewrite IH by assumption. now rewrite <- app_assoc.
Qed.
Lemma rds_plain l : Forall (fun s => ~ is_dots s) l -> rds_segments l = l.
Proof.
  intros F. rewrite rds_segments_stk. cbv zeta. rewrite (stk_plain l [] F). cbn [app]. destruct l as [|x l _] using rev_ind; [reflexivity|]. rewrite last_last.
  destruct (l ++ [x]) eqn:E; [now destruct l|]. rewrite <- E in *. clear E. apply Forall_app in F as [_ F]. inversion F as [|? ? D _]. subst. unfold dirlike.
  destruct (is_dot_spec x) as [->|]; [elim D; now left|]. destruct (is_dotdot_spec x) as [->|]; [elim D; now right|]. cbn [orb]. destruct (is_empty x); reflexivity.
Qed.
Lemma again_merge s a n : 1 <= n -> merge (deep s a n) again = mkpath true (repeat (ss "a") (S n) ++ [[]]).
Proof.
  intros N. unfold merge, deep, again. cbn [p_authority p_path segments absolute path_is_empty]. replace (path_is_empty (mkpath true (repeat (ss "a") n ++ [[]]))) with false by (now destruct n).
  f_equal. rewrite app_length, repeat_length. cbn [length].
  assert (R : repeat (ss "a") (S n) ++ [[]] = repeat (ss "a") n ++ [ss "a"; []]).
  { change [ss "a"; []] with ([ss "a"] ++ [[]]). rewrite app_assoc. f_equal. change [ss "a"] with (repeat (ss "a") 1). rewrite <- repeat_app. f_equal. lia. }
  rewrite R. destruct n as [|n]; [lia|]. destruct (Nat.ltb_spec 1 (S n + 1)); [|lia]. replace (S n + 1 - 1) with (length (repeat (ss "a") (S n)) + 0) by (rewrite repeat_length; lia).
  rewrite firstn_app_2. cbn [firstn]. now rewrite app_nil_r.
Qed.
Lemma again_join s a n strict : join_w (deep s a n) again strict = (deep s a (S n), mkeffort (2 * (n + 2)) (n + 2)) \/ n = 0.
Proof.
  destruct n as [|n]; [now right|left]. set (m := S n). destruct (merge_w_eq (deep s a m) again) as (w & E1 & E2 & _). rewrite again_merge in E1, E2 by (unfold m; lia). cbn [segments] in E2.
  unfold join_w. cbn [again p_scheme p_authority p_path p_query p_fragment]. rewrite Bool.andb_comm.
  assert (Q : (if opt_eqb str_eqb None (p_scheme (deep s a m)) && negb strict then None else None) = @None str) by (now destruct (_ && _)).
  rewrite Q. change (path_is_empty (mkpath false [ss "a"; []])) with false. cbn [absolute]. cbv iota.
  fold again. rewrite E1, remove_w_eq. unfold remove_dot_segments. cbn [segments absolute]. rewrite (rds_plain _ (plain_a (S m))), (late_plain _ (plain_a (S m))), (appended_plain _ (plain_a (S m))).
  rewrite tests_app, tests_a. rewrite E2, app_length, repeat_length. cbn [length tests]. change (is_dot []) with false. cbv iota. unfold deep, spend. cbn [p_scheme p_authority compared written].
  f_equal. f_equal; lia.
Qed.
Lemma again_joins s a k strict : forall n, 1 <= n -> compared (snd (joins_w (deep s a n) (repeat again k) strict)) >= k * k /\ written (snd (joins_w (deep s a n) (repeat again k) strict)) * 2 >= k * k
  /\ fst (joins_w (deep s a n) (repeat again k) strict) = deep s a (n + k).
Proof.
  assert (G : forall n, 1 <= n -> fst (joins_w (deep s a n) (repeat again k) strict) = deep s a (n + k) /\ compared (snd (joins_w (deep s a n) (repeat again k) strict)) = k * (k + 2 * n + 3) /\ 2 * written (snd (joins_w (deep s a n) (repeat again k) strict)) = k * (k + 2 * n + 3)).
  { induction k as [|k IH]; intros n H; cbn [repeat joins_w]; [cbn; now rewrite Nat.add_0_r|]. destruct (again_join s a n strict) as [->|]; [|lia].
    destruct (IH (S n)) as (A & B & C); [lia|]. destruct (joins_w (deep s a (S n)) (repeat again k) strict) as [u w]. cbn [fst snd] in *. unfold spend. cbn [compared written].
    split; [rewrite A; f_equal; lia|]. split; [rewrite B; nia|]. nia. }
  intros n H. destruct (G n H) as (A & B & C). split; [rewrite B; nia|]. split; [nia|]. exact A.
Qed.

(* --- the kinds --- *)
Lemma kind_dot s t : same_kind s t -> is_dot s = is_dot t.
Proof. intros (A & _ & _). destruct (is_dot_spec s), (is_dot_spec t); auto; exfalso; tauto. Qed.
Lemma kind_dotdot s t : same_kind s t -> is_dotdot s = is_dotdot t.
Proof. intros (_ & A & _). destruct (is_dotdot_spec s), (is_dotdot_spec t); auto; exfalso; tauto. Qed.
Lemma kind_empty s t : same_kind s t -> is_empty s = is_empty t.
Proof. intros (_ & _ & A). destruct s, t; auto; exfalso; [assert (a :: t = []) by tauto|assert (a :: s = []) by tauto]; discriminate. Qed.
Lemma kinds_tests l l' : Forall2 same_kind l l' -> tests l = tests l'.
Proof. induction 1 as [|s t l l' K _ IH]; [reflexivity|]. cbn [tests]. now rewrite (kind_dot s t K), IH. Qed.
Lemma kinds_late l l' : Forall2 same_kind l l' -> forall b, late b l = late b l'.
Proof. induction 1 as [|s t l l' K _ IH]; intros b; [reflexivity|]. cbn [late]. unfold dotty. now rewrite (kind_dot s t K), (kind_dotdot s t K), !IH. Qed.
Lemma kinds_length l l' : Forall2 same_kind l l' -> length l = length l'.
Proof. induction 1; cbn; congruence. Qed.
Lemma kinds_last l l' : Forall2 same_kind l l' -> same_kind (last l []) (last l' []).
Proof. induction 1 as [|s t l l' K F IH]; [repeat split; auto|]. destruct F; [exact K|]. exact IH. Qed.
Lemma kinds_removelast l l' : Forall2 same_kind l l' -> Forall2 same_kind (removelast l) (removelast l').
Proof. induction 1 as [|s t l l' K F IH]; [constructor|]. destruct F; [constructor|]. now constructor. Qed.
Lemma kinds_app a b c d : Forall2 same_kind a b -> Forall2 same_kind c d -> Forall2 same_kind (a ++ c) (b ++ d).
Proof. induction 1; intros F; [exact F|]. cbn. constructor; auto. Qed.
Lemma kinds_stk l l' : Forall2 same_kind l l' -> forall k k', Forall2 same_kind k k' -> Forall2 same_kind (stk k l) (stk k' l').
Proof.
  induction 1 as [|s t l l' K _ IH]; intros k k' F; [exact F|]. cbn [stk]. rewrite (kind_dot s t K), (kind_dotdot s t K).
  destruct (is_dot t); [now apply IH|]. destruct (is_dotdot t); [apply IH; now apply kinds_removelast|]. apply IH, kinds_app; [assumption|]. now constructor.
Qed.
Lemma kinds_end k k' : Forall2 same_kind k k' ->
  (match k with [] => 1 | _ => if is_empty (last k []) then 0 else 1 end) = (match k' with [] => 1 | _ => if is_empty (last k' []) then 0 else 1 end).
Proof. intros F. pose proof (kinds_last _ _ F) as L. destruct F; [reflexivity|]. now rewrite (kind_empty _ _ L). Qed.
Lemma kinds_appended l l' : Forall2 same_kind l l' -> appended l = appended l'.
Proof.
  intros F. pose proof (kinds_last _ _ F) as L. pose proof (kinds_stk _ _ F [] [] (Forall2_nil _)) as K. unfold appended, dirlike.
  rewrite (kind_dot _ _ L), (kind_dotdot _ _ L), (kind_empty _ _ L). destruct F as [|s t l l' A F]; [reflexivity|]. destruct (_ || _ || _); [|reflexivity].
  exact (kinds_end _ _ K).
Qed.
Lemma tidied_kinds p q : Forall2 same_kind (segments p) (segments q) -> snd (tidied_copy_w p) = snd (tidied_copy_w q).
Proof. intros F. rewrite !tidied_eq. cbn [snd]. now rewrite (kinds_tests _ _ F), (kinds_late _ _ F), (kinds_appended _ _ F), (kinds_length _ _ F). Qed.
Lemma kinds_firstn n l l' : Forall2 same_kind l l' -> Forall2 same_kind (firstn n l) (firstn n l').
Proof. intros F. revert n. induction F; intros [|n]; cbn; constructor; auto. Qed.
Lemma kinds_merge b r b' r' : same_shape b b' -> same_shape r r' -> Forall2 same_kind (segments (merge b r)) (segments (merge b' r')).
Proof.
  intros (_ & A & _ & F) (_ & _ & _ & G). unfold merge, same_there in *. replace (path_is_empty (p_path b')) with (path_is_empty (p_path b)) by (unfold path_is_empty; now destruct F).
  pose proof (kinds_length _ _ F) as L. rewrite <- L.
  assert (K : Forall2 same_kind ((if Nat.ltb 1 (length (segments (p_path b))) then firstn (length (segments (p_path b)) - 1) (segments (p_path b)) else segments (p_path b)) ++ segments (p_path r))
    ((if Nat.ltb 1 (length (segments (p_path b))) then firstn (length (segments (p_path b)) - 1) (segments (p_path b')) else segments (p_path b')) ++ segments (p_path r'))).
  { apply kinds_app; [|exact G]. destruct (Nat.ltb _ _); [now apply kinds_firstn|exact F]. }
  destruct (p_authority b), (p_authority b'), (path_is_empty (p_path b)); try exact K; try exact G; exfalso;
    [assert (Some a = None) by tauto|assert (Some a = None) by tauto]; discriminate.
Qed.
Lemma join_shape b r b' r' : same_shape b b' -> same_shape r r' -> snd (join_w b r true) = snd (join_w b' r' true).
Proof.
  intros B R. pose proof (kinds_merge _ _ _ _ B R) as M. destruct B as (_ & _ & _ & FB), R as (S & A & AB & F). unfold join_w, same_there in *. cbn [negb andb].
  pose proof (tidied_kinds _ _ F) as T.
  assert (C : forall X (a b : option X), (a = None <-> b = None) -> (exists x y, a = Some x /\ b = Some y) \/ (a = None /\ b = None)).
  { intros X [x|] [y|] H; [left; eauto| | |now right]; exfalso; [assert (Some x = None) by tauto|assert (Some y = None) by tauto]; discriminate. }
  destruct (C _ _ _ S) as [(s & t & -> & ->)|[-> ->]]. { destruct (tidied_copy_w (p_path r)), (tidied_copy_w (p_path r')). exact T. }
  destruct (C _ _ _ A) as [(s & t & -> & ->)|[-> ->]]. { destruct (tidied_copy_w (p_path r)), (tidied_copy_w (p_path r')). exact T. }
  replace (path_is_empty (p_path r')) with (path_is_empty (p_path r)) by (unfold path_is_empty; now destruct F). rewrite <- AB.
  destruct (path_is_empty (p_path r)). { cbn [copy_w snd]. f_equal. now apply kinds_length. }
  destruct (absolute (p_path r)). { destruct (tidied_copy_w (p_path r)), (tidied_copy_w (p_path r')). exact T. }
  destruct (merge_w_eq b r) as (w & -> & -> & _). destruct (merge_w_eq b' r') as (w' & -> & -> & _). rewrite !remove_w_eq. cbn [snd]. unfold spend. cbn [compared written].
  rewrite (kinds_tests _ _ M), (kinds_late _ _ M), (kinds_appended _ _ M). f_equal. f_equal. now apply kinds_length.
Qed.
