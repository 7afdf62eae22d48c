(* C78: resolving references one after the other *)
From Verif Require Import Base ModelUri SpecPath SpecConfine SpecSteps PathFacts ConfineFacts.
From Coq Require Import Lia.
Local Open Scope list_scope.

Lemma rds_nonempty l : l <> [] -> rds_segments l <> [].
Proof.
  intros N. rewrite rds_segments_stk. cbn zeta. destruct l as [|y l0 _] using rev_ind; [congruence|].
  replace (match l0 ++ [y] with [] => false | _ => dirlike (last (l0 ++ [y]) []) end) with (dirlike y) by (rewrite last_snoc; destruct l0; reflexivity).
  destruct (dirlike y) eqn:D.
  - destruct (stk [] (l0 ++ [y])) as [|a k]; [discriminate|]. destruct (is_empty _); discriminate.
  - rewrite stk_app. cbn [stk]. unfold dirlike in D. apply Bool.orb_false_iff in D as [D _]. apply Bool.orb_false_iff in D as [D1 D2].
    rewrite D1, D2. intros E. now apply app_eq_nil in E.
Qed.
Lemma rds_path_idem p : remove_dot_segments (remove_dot_segments p) = remove_dot_segments p.
Proof. unfold remove_dot_segments. cbn. now rewrite rds_idem. Qed.

(* rds looks at what is left and at the last segment *)
Definition fin (k : list str) (dir : bool) : list str :=
  if dir then match k with [] => [[]] | _ => if is_empty (last k []) then k else k ++ [[]] end else k.
Lemma rds_fin l y : rds_segments (l ++ [y]) = fin (stk [] (l ++ [y])) (dirlike y).
Proof. rewrite rds_segments_stk. unfold fin. cbn zeta. rewrite last_snoc. destruct l; reflexivity. Qed.
Lemma rds_left a q : q <> [] -> rds_segments (stk [] a ++ q) = rds_segments (a ++ q).
Proof.
  intros N. destruct q as [|y q _] using rev_ind; [congruence|]. rewrite !app_assoc, !rds_fin, !stk_app. f_equal. f_equal. f_equal.
  rewrite stk_normal; [reflexivity|]. apply stk_no_dots. constructor.
Qed.
Lemma dirlike_not y : ~ is_dots y -> dirlike y = is_empty y.
Proof.
  intros H. unfold dirlike. destruct (is_dot_spec y); [elim H; now left|]. destruct (is_dotdot_spec y); [elim H; now right|]. reflexivity.
Qed.
Lemma fin_empty k : fin (k ++ [[]]) true = k ++ [[]].
Proof. unfold fin. rewrite last_snoc. cbn. destruct k; reflexivity. Qed.
Lemma rds_right s l k : inside l k -> l <> [] -> k <> [] \/ (forall k', ~ resolves s (k' ++ [[]])) ->
  rds_segments (s ++ rds_segments l) = rds_segments (s ++ l).
Proof.
  intros I N C. destruct l as [|y l _] using rev_ind; [congruence|].
  rewrite (rds_fin l y), (inside_stk _ _ I []). rewrite (app_assoc s l [y]), (rds_fin (s ++ l) y), <- app_assoc, stk_app, (inside_stk _ _ I). cbn [app].
  assert (ND : Forall (fun s => ~ is_dots s) k). { generalize (stk_no_dots [] (l ++ [y]) ltac:(constructor)). now rewrite (inside_stk _ _ I []). }
  assert (L : forall m, Forall (fun s => ~ is_dots s) m -> m <> [] ->
    rds_segments (s ++ m) = fin (stk [] s ++ m) (is_empty (last m []))).
  { intros m M1 M2. destruct m as [|z m _] using rev_ind; [congruence|]. rewrite last_snoc. rewrite app_assoc, rds_fin, <- app_assoc, stk_app, stk_normal by exact M1.
    f_equal. apply dirlike_not. apply Forall_app in M1 as [_ M1]. exact (Forall_inv M1). }
  destruct (dotty_spec y) as [Y|Y].
  - assert (dirlike y = true) as -> by (destruct Y as [->| ->]; reflexivity).
    destruct k as [|z k _] using rev_ind.
    + cbn [fin]. rewrite L by (repeat constructor; discriminate || apply nil_not_dots). cbn [last is_empty]. rewrite fin_empty, app_nil_r. unfold fin.
      destruct C as [C|C]; [congruence|]. specialize (fun k' => C k'). setoid_rewrite resolves_iff in C.
      destruct (stk [] s) as [|z S _] using rev_ind; [reflexivity|]. rewrite last_snoc.
      destruct (is_empty_spec z) as [->|Z]; [elim (C S); reflexivity|]. destruct S; reflexivity.
    + assert (E : fin (k ++ [z]) true = if is_empty z then k ++ [z] else (k ++ [z]) ++ [[]]).
      { unfold fin. rewrite last_snoc. destruct k; reflexivity. }
      rewrite E. assert (E' : fin (stk [] s ++ k ++ [z]) true = if is_empty z then stk [] s ++ k ++ [z] else (stk [] s ++ k ++ [z]) ++ [[]]).
      { unfold fin. rewrite app_assoc, last_snoc. destruct (stk [] s ++ k) eqn:X; reflexivity. }
      rewrite E'. destruct (is_empty_spec z) as [->|Z].
      * rewrite L; [|exact ND|destruct k; discriminate]. rewrite last_snoc. cbn [is_empty]. rewrite app_assoc. apply fin_empty.
      * rewrite L; [|apply Forall_app; split; [exact ND|repeat constructor; apply nil_not_dots]|destruct k; discriminate].
        rewrite last_snoc. cbn [is_empty]. rewrite !app_assoc. apply fin_empty.
  - rewrite (dirlike_not _ Y). assert (K : exists k0, k = k0 ++ [y]).
    { generalize (inside_stk _ _ I []). rewrite stk_app. cbn [stk app]. destruct (is_dot_spec y); [elim Y; now left|]. destruct (is_dotdot_spec y); [elim Y; now right|]. eauto. }
    destruct K as [k0 ->]. assert (F : forall q, fin (q ++ [y]) (is_empty y) = q ++ [y]).
    { intros q. destruct (is_empty_spec y) as [->|]; [apply fin_empty|reflexivity]. }
    rewrite F, L; [|exact ND|destruct k0; discriminate]. rewrite last_snoc, !app_assoc. reflexivity.
Qed.

(* what merge keeps of the base *)
Lemma merge_directory b r : merge b r =
  mkpath (match p_authority b, segments (p_path b) with Some _, [] => true | _, _ => absolute (p_path b) end) (directory (p_path b) ++ segments (p_path r)).
Proof.
  assert (F : forall (x y : str) (l : list str), (if Nat.ltb 1 (length (x :: y :: l)) then firstn (length (x :: y :: l) - 1) (x :: y :: l) else x :: y :: l) = removelast (x :: y :: l)).
  { intros x y l. rewrite removelast_firstn_len. reflexivity. }
  unfold merge, path_is_empty, directory. destruct (p_authority b), (segments (p_path b)) as [|x [|y l]] eqn:E; try reflexivity; now rewrite F.
Qed.

Lemma join_scheme t r s : p_scheme r = Some s -> join_parts t r true = mkparts (Some s) (p_authority r) (remove_dot_segments (p_path r)) (p_query r) (p_fragment r).
Proof. intros S. unfold join_parts. cbn [negb andb]. now rewrite S. Qed.
Lemma join_authority t r a : p_scheme r = None -> p_authority r = Some a ->
  join_parts t r true = mkparts (p_scheme t) (Some a) (remove_dot_segments (p_path r)) (p_query r) (p_fragment r).
Proof. intros S A. unfold join_parts. cbn [negb andb]. now rewrite S, A. Qed.
Lemma join_same t r : p_scheme r = None -> p_authority r = None -> segments (p_path r) = [] ->
  join_parts t r true = mkparts (p_scheme t) (p_authority t) (p_path t) (match p_query r with Some q => Some q | None => p_query t end) (p_fragment r).
Proof. intros S A P. unfold join_parts, path_is_empty. cbn [negb andb]. now rewrite S, A, P. Qed.
Lemma join_root t r : p_scheme r = None -> p_authority r = None -> segments (p_path r) <> [] -> absolute (p_path r) = true ->
  join_parts t r true = mkparts (p_scheme t) (p_authority t) (remove_dot_segments (p_path r)) (p_query r) (p_fragment r).
Proof. intros S A P B. unfold join_parts, path_is_empty. cbn [negb andb]. rewrite S, A. destruct (segments (p_path r)); [congruence|]. now rewrite B. Qed.
(* a reference is of one of five kinds *)
Lemma join_rest t r : p_scheme r = None -> p_authority r = None -> segments (p_path r) <> [] -> absolute (p_path r) = false ->
  join_parts t r true = mkparts (p_scheme t) (p_authority t) (remove_dot_segments (merge t r)) (p_query r) (p_fragment r).
Proof. intros S A P B. unfold join_parts, path_is_empty. cbn [negb andb]. rewrite S, A. destruct (segments (p_path r)); [congruence|]. now rewrite B. Qed.
Lemma merge_ext t r r' : p_path r = p_path r' -> merge t r = merge t r'.
Proof. intros E. unfold merge. now rewrite E. Qed.
Lemma steps_settled b r1 r2 : settled r2 -> join_parts (join_parts b r1 true) r2 true = join_parts b (join_parts r1 r2 true) true.
Proof.
  intros S. destruct (p_scheme r2) as [s2|] eqn:E1.
  { rewrite !(join_scheme _ r2 s2 E1). rewrite (join_scheme b _ s2) by reflexivity. cbn. now rewrite rds_path_idem. }
  destruct (p_authority r2) as [a2|] eqn:E2.
  { rewrite !(join_authority _ r2 a2 E1 E2). destruct (p_scheme r1) as [s1|] eqn:F1.
    - rewrite (join_scheme b r1 s1 F1), (join_scheme b _ s1) by (exact F1 || reflexivity). cbn. now rewrite rds_path_idem.
    - rewrite (join_authority b (mkparts _ _ _ _ _) a2) by reflexivity. cbn [p_scheme p_authority p_path p_query p_fragment]. rewrite rds_path_idem. f_equal.
      unfold join_parts. cbn [negb andb]. rewrite F1. destruct (p_authority r1); [reflexivity|]. destruct (path_is_empty _); [reflexivity|]. destruct (absolute _); reflexivity. }
  destruct (segments (p_path r2)) as [|x l] eqn:E3.
  { rewrite !(join_same _ r2 E1 E2 E3). destruct (p_scheme r1) as [s1|] eqn:F1.
    { rewrite (join_scheme b _ s1), (join_scheme b _ s1) by (exact F1 || reflexivity). reflexivity. }
    destruct (p_authority r1) as [a1|] eqn:F2.
    { rewrite (join_authority b _ a1), (join_authority b _ a1) by (assumption || reflexivity). reflexivity. }
    destruct (segments (p_path r1)) as [|y m] eqn:F3.
    { rewrite (join_same b r1), (join_same b _) by (assumption || reflexivity). cbn. destruct (p_query r2); reflexivity. }
    assert (N : segments (p_path r1) <> []) by congruence.
    destruct (absolute (p_path r1)) eqn:F4.
    { rewrite (join_root b r1), (join_root b _) by (assumption || reflexivity). reflexivity. }
    rewrite (join_rest b r1), (join_rest b _) by (assumption || reflexivity). cbn [p_scheme p_authority p_path p_query p_fragment]. f_equal. }
  destruct S as [S|[S|[S|S]]]; try congruence. assert (N : segments (p_path r2) <> []) by congruence.
  assert (NE : segments (remove_dot_segments (p_path r2)) <> []) by (apply rds_nonempty, N).
  rewrite !(join_root _ r2 E1 E2 N S). destruct (p_scheme r1) as [s1|] eqn:F1.
  { rewrite (join_scheme b _ s1), (join_scheme b _ s1) by (exact F1 || reflexivity). cbn. now rewrite rds_path_idem. }
  destruct (p_authority r1) as [a1|] eqn:F2.
  { rewrite (join_authority b _ a1), (join_authority b _ a1) by (assumption || reflexivity). cbn. now rewrite rds_path_idem. }
  rewrite (join_root b (mkparts _ _ _ _ _)) by (assumption || reflexivity). cbn [p_scheme p_authority p_path p_query p_fragment]. rewrite rds_path_idem.
  unfold join_parts. cbn [negb andb]. rewrite F1, F2. destruct (path_is_empty _); [reflexivity|]. destruct (absolute (p_path r1)); reflexivity.
Qed.
Lemma steps_chain b r rs : Forall settled rs ->
  fold_left (fun t x => join_parts t x true) rs (join_parts b r true) = join_parts b (fold_left (fun t x => join_parts t x true) rs r) true.
Proof.
  intros H. revert r. induction H as [|x rs S _ IH]; intros r; [reflexivity|]. cbn [fold_left]. rewrite steps_settled by exact S. apply IH.
Qed.
Lemma steps_rooted b r1 r2 : p_scheme r1 = None -> p_authority r1 = None -> rooted r2 ->
  join_parts (join_parts b r1 true) r2 true = join_parts b r2 true.
Proof.
  intros S1 A1 R. assert (K : forall t, p_scheme t = p_scheme b -> p_authority t = p_authority b -> join_parts t r2 true = join_parts b r2 true).
  { intros t T1 T2. unfold join_parts. cbn [negb andb]. destruct (p_scheme r2) eqn:E1; [reflexivity|]. destruct (p_authority r2) eqn:E2; [now rewrite T1|].
    destruct R as [R|[R|[R1 R2]]]; [congruence|congruence|]. unfold path_is_empty. destruct (segments (p_path r2)); [congruence|]. rewrite R2, T1, T2. reflexivity. }
  apply K; unfold join_parts; cbn [negb andb]; rewrite S1, A1; destruct (path_is_empty (p_path r1)); try reflexivity; destruct (absolute (p_path r1)); reflexivity.
Qed.
Lemma continues_inv r : continues r -> p_scheme r = None /\ p_authority r = None /\ segments (p_path r) <> [] /\ absolute (p_path r) = false.
Proof.
  unfold continues, settled. intros H. destruct (p_scheme r); [elim H; left; discriminate|]. destruct (p_authority r); [elim H; right; left; discriminate|].
  destruct (segments (p_path r)) eqn:E; [elim H; auto|]. destruct (absolute (p_path r)); [elim H; auto|]. repeat split; congruence.
Qed.
Lemma join_continues b r : continues r -> join_parts b r true =
  mkparts (p_scheme b) (p_authority b)
    (mkpath (match p_authority b, segments (p_path b) with Some _, [] => true | _, _ => absolute (p_path b) end)
            (rds_segments (directory (p_path b) ++ segments (p_path r)))) (p_query r) (p_fragment r).
Proof.
  intros C. apply continues_inv in C as (S & A & N & Ab). unfold join_parts. cbn [negb andb]. rewrite S, A, Ab. unfold path_is_empty.
  destruct (segments (p_path r)) eqn:E; [congruence|]. rewrite merge_directory, E. reflexivity.
Qed.
Lemma directory_document (m : path) d x : segments m = rds_segments (d ++ [x]) -> ~ is_dots x -> ~ resolves d [] -> directory m = stk [] d.
Proof.
  intros E X N. assert (K : rds_segments (d ++ [x]) = stk [] d ++ [x]).
  { rewrite rds_fin, (dirlike_not _ X), stk_app. cbn [stk]. destruct (is_dot_spec x); [elim X; now left|]. destruct (is_dotdot_spec x); [elim X; now right|].
    destruct (is_empty_spec x) as [->|]; [apply fin_empty|reflexivity]. }
  unfold directory. rewrite E, K. rewrite resolves_iff in N. destruct (stk [] d) as [|y l]; [congruence|]. cbn [app]. destruct (l ++ [x]) eqn:Z; [destruct l; discriminate|].
  rewrite <- Z. exact (removelast_snoc (y :: l) x).
Qed.
Lemma directory_snoc (m : path) d x : segments m = d ++ [x] -> d <> [] -> directory m = d.
Proof.
  intros E N. unfold directory. rewrite E. destruct d as [|y l]; [congruence|]. cbn [app]. destruct (l ++ [x]) eqn:Z; [destruct l; discriminate|].
  rewrite <- Z. exact (removelast_snoc (y :: l) x).
Qed.

Lemma steps_rooted_first b r1 r2 : rooted r1 -> continues r2 ->
  segments (p_path r1) = [] \/ (exists x, segments (p_path r1) = [x] /\ ~ is_dots x) \/ (exists d, document_in (segments (p_path r1)) d) ->
  join_parts (join_parts b r1 true) r2 true = join_parts b (join_parts r1 r2 true) true.
Proof.
  intros R C D. assert (C' := C). apply continues_inv in C' as (S2 & A2 & N2 & Ab2).
  (* the first step *)
  assert (T : exists s a, join_parts b r1 true = mkparts s a (remove_dot_segments (p_path r1)) (p_query r1) (p_fragment r1)
    /\ forall x, p_scheme x = p_scheme r1 -> p_authority x = p_authority r1 -> (rooted r1 -> p_scheme r1 <> None \/ p_authority r1 <> None \/ (segments (p_path x) <> [] /\ absolute (p_path x) = true)) ->
       join_parts b x true = mkparts s a (remove_dot_segments (p_path x)) (p_query x) (p_fragment x)
    /\ (p_authority r1 = a \/ segments (p_path r1) <> [])).
  { destruct (p_scheme r1) as [s1|] eqn:E1; [exists (Some s1), (p_authority r1); split; [unfold join_parts; rewrite E1; reflexivity|];
      intros x X1 X2 _; split; [unfold join_parts; rewrite X1, X2; reflexivity|now left]|].
    destruct (p_authority r1) as [a1|] eqn:E2; [exists (p_scheme b), (Some a1); split; [unfold join_parts; rewrite E1, E2; reflexivity|];
      intros x X1 X2 _; split; [unfold join_parts; rewrite X1, X2; reflexivity|now left]|].
    exists (p_scheme b), (p_authority b). split.
    - unfold join_parts. rewrite E1, E2. cbn. unfold path_is_empty. destruct R as [R|[R|[R1 R2]]]; try congruence. destruct (segments (p_path r1)) eqn:E; [congruence|]. now rewrite R2.
    - intros x X1 X2 X3. split.
      + unfold join_parts. rewrite X1, X2. cbn. unfold path_is_empty. destruct (X3 R) as [X|[X|[Y1 Y2]]]; try congruence. destruct (segments (p_path x)) eqn:E; [congruence|]. now rewrite Y2.
      + right. destruct R as [R|[R|[R1 R2]]]; congruence. }
  destruct T as (s & a & T1 & T2).
  assert (I : join_parts r1 r2 true = mkparts (p_scheme r1) (p_authority r1)
    (mkpath (match p_authority r1, segments (p_path r1) with Some _, [] => true | _, _ => absolute (p_path r1) end)
            (rds_segments (directory (p_path r1) ++ segments (p_path r2)))) (p_query r2) (p_fragment r2)) by now apply join_continues.
  destruct (T2 (join_parts r1 r2 true)) as [T3 T4].
  { rewrite I. reflexivity. } { rewrite I. reflexivity. }
  { intros [R'|[R'|[R1 R2]]]; [auto|auto|]. right. right. rewrite I. cbn. split.
    - apply rds_nonempty. intros E. apply app_eq_nil in E as [_ E]. congruence.
    - destruct (p_authority r1); [|exact R2]. destruct (segments (p_path r1)); [congruence|exact R2]. }
  rewrite T3, T1, join_continues by exact C. rewrite I. cbn [p_scheme p_authority p_path p_query p_fragment]. f_equal.
  unfold remove_dot_segments. cbn [absolute segments]. rewrite rds_idem.
  assert (RN : segments (p_path r1) <> [] -> rds_segments (segments (p_path r1)) <> []) by apply rds_nonempty.
  f_equal.
  - destruct (segments (p_path r1)) as [|y l] eqn:E.
    + destruct T4 as [T4|T4]; [|congruence]. rewrite <- T4. reflexivity.
    + destruct (rds_segments (y :: l)) eqn:E'; [elim RN; congruence|]. destruct a, (p_authority r1); reflexivity.
  - destruct D as [D|[(x & D & X)|(d & x & k & D & X & Rk & K)]].
    + assert (E : segments (p_path r1) = [] -> directory (mkpath (absolute (p_path r1)) (rds_segments (segments (p_path r1)))) = directory (p_path r1)).
      { intros E. unfold directory. cbn [segments]. rewrite E. reflexivity. }
      rewrite E by exact D. reflexivity.
    + assert (E : rds_segments [x] = [x]) by (apply rds_normal; repeat constructor; exact X).
      unfold directory. cbn [segments]. rewrite D, E. reflexivity.
    + assert (NR : ~ resolves d []) by (intros H; apply resolves_iff in H; apply resolves_iff in Rk; congruence).
      rewrite (directory_document _ d x) by (cbn [segments]; rewrite ?D; auto).
      rewrite (directory_snoc _ d x D); [apply rds_left; exact N2|]. intros ->. apply NR. constructor.
Qed.

Lemma steps_relative b r1 r2 k : ~ rooted r1 -> absolute (p_path r1) = false -> continues r2 -> below r1 r2 k -> k <> [] \/ no_double_slash b ->
  segments (p_path r1) = [] \/ (exists d x, segments (p_path r1) = d ++ [x] /\ d <> [] /\ ~ is_dots x /\ ~ resolves (directory (p_path b) ++ d) []) ->
  join_parts (join_parts b r1 true) r2 true = join_parts b (join_parts r1 r2 true) true.
Proof.
  intros NR Ab C B K D. assert (C' := C). apply continues_inv in C' as (S2 & A2 & N2 & Ab2).
  assert (S1 : p_scheme r1 = None) by (destruct (p_scheme r1) eqn:Z; [elim NR; left; congruence|reflexivity]).
  assert (A1 : p_authority r1 = None) by (destruct (p_authority r1) eqn:Z; [elim NR; right; left; congruence|reflexivity]).
  assert (I : join_parts r1 r2 true = mkparts None None (mkpath false (rds_segments (directory (p_path r1) ++ segments (p_path r2)))) (p_query r2) (p_fragment r2)).
  { rewrite join_continues by exact C. rewrite S1, A1, Ab. reflexivity. }
  assert (IC : continues (join_parts r1 r2 true)).
  { rewrite I. intros [H|[H|[H|H]]]; cbn in H; try congruence. revert H. apply rds_nonempty. intros E. apply app_eq_nil in E as [_ E]. congruence. }
  rewrite (join_continues b _ IC), I. cbn [segments p_path p_query p_fragment].
  assert (IR : rds_segments (directory (p_path b) ++ rds_segments (removelast (segments (p_path r1)) ++ segments (p_path r2)))
    = rds_segments (directory (p_path b) ++ removelast (segments (p_path r1)) ++ segments (p_path r2))).
  { apply rds_right with k; [exact B| |exact K]. intros E. apply app_eq_nil in E as [_ E]. congruence. }
  destruct D as [D|(d & x & D & Dn & X & DR)].
  - assert (T : join_parts b r1 true = mkparts (p_scheme b) (p_authority b) (p_path b) (match p_query r1 with Some q => Some q | None => p_query b end) (p_fragment r1)).
    { unfold join_parts. rewrite S1, A1. cbn. unfold path_is_empty. now rewrite D. }
    rewrite T, join_continues by exact C. cbn [p_scheme p_authority p_path]. f_equal. f_equal. unfold directory at 3. rewrite D in *. cbn [removelast app] in *. symmetry. exact IR.
  - assert (C1 : continues r1).
    { intros [H|[H|[H|H]]]; try congruence. rewrite D in H. destruct d; discriminate. }
    rewrite (join_continues b r1 C1), join_continues by exact C. cbn [p_scheme p_authority p_path absolute segments]. f_equal.
    assert (NE : rds_segments (directory (p_path b) ++ segments (p_path r1)) <> []).
    { apply rds_nonempty. rewrite D. intros E. apply app_eq_nil in E as [_ E]. destruct d; discriminate. }
    f_equal.
    + destruct (rds_segments (directory (p_path b) ++ segments (p_path r1))); [congruence|]. destruct (p_authority b); reflexivity.
    + rewrite (directory_document _ (directory (p_path b) ++ d) x) by (cbn [segments]; rewrite ?D, ?app_assoc; auto).
      rewrite rds_left by exact N2. rewrite (directory_snoc (p_path r1) d x D Dn). rewrite D, removelast_snoc in IR. rewrite IR, app_assoc. reflexivity.
Qed.
