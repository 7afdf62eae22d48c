(* Reading from a source that throws *)
From Verif Require Import Base ModelPct ModelIcu ModelHist ModelSrcThrow SpecPct PctFacts HistPct.
Local Open Scope list_scope.

(* a throwing call made the operation that threw as its last one *)
Definition at_fault (fails : nat -> bool) (k k' : nat) : Prop := k < k' /\ fails (k' - 1) = true.
Lemma at_fault_le fails j k k' : j <= k -> at_fault fails k k' -> at_fault fails j k'.
Proof. intros H [A B]. split; [lia|exact B]. Qed.
Lemma at_fault_here fails k : fails k = true -> at_fault fails k (S k).
Proof. intros H. split; [lia|]. replace (S k - 1) with k by lia. exact H. Qed.
Lemma at_fault_last fails K k k' : (forall n, K <= n -> fails n = false) -> at_fault fails k k' -> k < K /\ k' <= K.
Proof. intros H [A B]. destruct (Nat.le_gt_cases K (k' - 1)) as [L|L]; [rewrite H in B by exact L; discriminate|lia]. Qed.

Section V.
Variables (fails : nat -> bool) (T : tcdr) (cap : nat) (base : list N).
Lemma loop_cases fuel : forall k next t acc r, fill_loop T cap base fuel next t acc = Ok r ->
  (exists k', k <= k' /\ fill_loop_x fails T cap base fuel k next t acc = Ok (Done k' r))
  \/ (exists k' b, at_fault fails k k' /\ fill_loop_x fails T cap base fuel k next t acc = Ok (Threw k' b)).
Proof.
  induction fuel as [|fuel IH]; intros k next t acc r; cbn [fill_loop fill_loop_x]; destruct acc as [|a acc]; try (intros H; injection H as <-; left; exists k; split; [lia|reflexivity]).
  - destruct (nth_error base next); [discriminate|]. intros H; injection H as <-. left; exists k. split; [lia|reflexivity].
  - destruct (nth_error base next) as [u|]; [|intros H; injection H as <-; left; exists k; split; [lia|reflexivity]].
    destruct (fails k) eqn:F1.
    { intros _. right. exists (S k), (next, t). split; [apply at_fault_here; exact F1|reflexivity]. }
    destruct (tc_op T t u) as [[t' w]| |]; cbn [bind]; try discriminate. cbn [app].
    destruct (Nat.ltb cap (length w)); [discriminate|].
    destruct (fails (S k)) eqn:F2.
    { intros _. right. exists (S (S k)), (next, t'). split; [apply (at_fault_le _ _ (S k)); [lia|]; apply at_fault_here; exact F2|reflexivity]. }
    intros H. destruct (IH (S (S k)) (S next) t' w r H) as [(k' & L & E)|(k' & b & L & E)].
    + left. exists k'. split; [lia|exact E].
    + right. exists k', b. split; [apply (at_fault_le _ _ (S (S k))); [lia|exact L]|exact E].
Qed.
Lemma fill_cases fuel k it wf r : fill T cap base fuel it wf = Ok r ->
  (exists k', k <= k' /\ fill_x fails T cap base fuel k it wf = Ok (Done k' r))
  \/ (exists k' it', at_fault fails k k' /\ fill_x fails T cap base fuel k it wf = Ok (Threw k' (it', wf))).
Proof.
  unfold fill, fill_x. destruct (negb _); [discriminate|].
  destruct (fill_loop T cap base fuel (v_next T it) (v_tc T it) []) as [[[next t] out]| |] eqn:E; cbn [bind]; try discriminate.
  intros H. destruct (loop_cases fuel k _ _ _ _ E) as [(k' & L & ->)|(k' & [nx t'] & L & ->)]; cbn [bind].
  - left. exists k'. split; [exact L|].
    destruct (Nat.eqb next (length base)).
    + destruct (tc_end T t) as [[t' w]| |]; cbn [bind] in H |- *; try discriminate. destruct (Nat.ltb cap (length (out ++ w))); [discriminate|]. injection H as <-. reflexivity.
    + cbn [bind] in H |- *. destruct (Nat.ltb cap (length out)); [discriminate|]. injection H as <-. reflexivity.
  - right. exists k'. eexists. split; [exact L|reflexivity].
Qed.
Lemma next_cases k it wf r : vnext T cap base (length base) it wf = Ok r ->
  (exists k', k <= k' /\ vnext_x fails T cap base k it wf = Ok (Done k' r))
  \/ (exists k' it', at_fault fails k k' /\ vnext_x fails T cap base k it wf = Ok (Threw k' (it', wf))).
Proof.
  unfold vnext, vnext_x. destruct (_ =? _)%N; [discriminate|]. cbn [v_first v_last].
  destruct (_ =? _)%N; [apply fill_cases|]. intros H. injection H as <-. left. exists k. split; [lia|reflexivity].
Qed.
Lemma begin_cases k wf r : vbegin T cap base (length base) wf = Ok r ->
  (exists k', k <= k' /\ vbegin_x fails T cap base k wf = Ok (Done k' r))
  \/ (exists k', at_fault fails k k' /\ vbegin_x fails T cap base k wf = Ok (Threw k' wf)).
Proof.
  unfold vbegin, vbegin_x. destruct (Nat.eqb 0 (length base)).
  - intros H. injection H as <-. left. exists k. split; [lia|reflexivity].
  - intros H. destruct (fill_cases _ k _ _ _ H) as [(k' & L & ->)|(k' & it' & L & ->)]; cbn [bind]; [left|right]; exists k'; split; try exact L; reflexivity.
Qed.

(* with a copy *)
Variable K : nat.
Hypothesis HK : forall n, K <= n -> fails n = false.
Lemma next_copy it wf r : vnext T cap base (length base) it wf = Ok r -> forall tries k, K - k < tries ->
  exists k', next_from_copy fails T cap base tries k it wf = Ok (k', r) /\ k <= k'.
Proof.
  intros H. induction tries as [|tries IH]; intros k L; [lia|]. cbn [next_from_copy].
  destruct (next_cases k it wf r H) as [(k' & L' & ->)|(k' & it' & L' & ->)]; cbn [bind].
  - exists k'. split; [reflexivity|exact L'].
  - destruct (at_fault_last _ _ _ _ HK L') as [A B]. destruct L' as [L' _].
    destruct (IH k' ltac:(lia)) as (k2 & E & L2). exists k2. split; [exact E|lia].
Qed.
Lemma begin_copy wf r : vbegin T cap base (length base) wf = Ok r -> forall tries k, K - k < tries ->
  exists k', begin_again fails T cap base tries k wf = Ok (k', r) /\ k <= k'.
Proof.
  intros H. induction tries as [|tries IH]; intros k L; [lia|]. cbn [begin_again].
  destruct (begin_cases k wf r H) as [(k' & L' & ->)|(k' & L' & ->)]; cbn [bind].
  - exists k'. split; [reflexivity|exact L'].
  - destruct (at_fault_last _ _ _ _ HK L') as [A B]. destruct L' as [L' _].
    destruct (IH k' ltac:(lia)) as (k2 & E & L2). exists k2. split; [exact E|lia].
Qed.
Lemma patient tries : K < tries -> forall fuel k it wf r, vcollect T cap base fuel it wf = Ok r ->
  patient_for fails T cap base tries fuel k it wf = Ok r.
Proof.
  intros HT. induction fuel as [|fuel IH]; intros k it wf r; cbn [vcollect patient_for]; [discriminate|].
  destruct (vdone T base it); [auto|].
  destruct (vderef T it) as [u| |]; cbn [bind]; try discriminate.
  destruct (vnext T cap base (length base) it wf) as [[it' wf']| |] eqn:E; cbn [bind]; try discriminate.
  destruct (next_copy it wf _ E tries k ltac:(lia)) as (k' & -> & _). cbn [bind].
  destruct (vcollect T cap base fuel it' wf') as [[us ok]| |] eqn:C; cbn [bind]; try discriminate.
  rewrite (IH k' it' wf' _ C). cbn [bind]. auto.
Qed.
Lemma view_patient tries fuel r : K < tries -> view_iterate T cap base fuel = Ok r -> view_patient_for fails T cap base tries fuel = Ok r.
Proof.
  intros HT. unfold view_iterate, view_patient_for.
  destruct (vbegin T cap base (length base) true) as [[it wf]| |] eqn:E; cbn [bind]; try discriminate.
  destruct (begin_copy true _ E tries 0 ltac:(lia)) as (k' & -> & _). cbn [bind]. apply patient. exact HT.
Qed.
End V.

(* whatever the source does, and however often it is tried: what comes out of the patient loop, if anything, is right *)
Section Any.
Variables (fails : nat -> bool) (T : tcdr) (cap : nat) (base : list N).
Lemma next_copy_any it wf r : vnext T cap base (length base) it wf = Ok r -> forall tries k,
  next_from_copy fails T cap base tries k it wf = Diverge \/ exists k', next_from_copy fails T cap base tries k it wf = Ok (k', r).
Proof.
  intros H. induction tries as [|tries IH]; intros k; [left; reflexivity|]. cbn [next_from_copy].
  destruct (next_cases fails T cap base k it wf r H) as [(k' & _ & ->)|(k' & it' & _ & ->)]; cbn [bind]; [right; exists k'; reflexivity|apply IH].
Qed.
Lemma begin_copy_any wf r : vbegin T cap base (length base) wf = Ok r -> forall tries k,
  begin_again fails T cap base tries k wf = Diverge \/ exists k', begin_again fails T cap base tries k wf = Ok (k', r).
Proof.
  intros H. induction tries as [|tries IH]; intros k; [left; reflexivity|]. cbn [begin_again].
  destruct (begin_cases fails T cap base k wf r H) as [(k' & _ & ->)|(k' & _ & ->)]; cbn [bind]; [right; exists k'; reflexivity|apply IH].
Qed.
Lemma patient_any tries : forall fuel k it wf r, vcollect T cap base fuel it wf = Ok r ->
  patient_for fails T cap base tries fuel k it wf = Diverge \/ patient_for fails T cap base tries fuel k it wf = Ok r.
Proof.
  induction fuel as [|fuel IH]; intros k it wf r; cbn [vcollect patient_for]; [discriminate|].
  destruct (vdone T base it); [auto|].
  destruct (vderef T it) as [u| |]; cbn [bind]; try discriminate.
  destruct (vnext T cap base (length base) it wf) as [[it' wf']| |] eqn:E; cbn [bind]; try discriminate.
  destruct (next_copy_any it wf _ E tries k) as [->|(k' & ->)]; cbn [bind]; [left; reflexivity|].
  destruct (vcollect T cap base fuel it' wf') as [[us ok]| |] eqn:C; cbn [bind]; try discriminate.
  destruct (IH k' it' wf' _ C) as [->| ->]; cbn [bind]; [left; reflexivity|]. auto.
Qed.
Lemma view_patient_any tries fuel r : view_iterate T cap base fuel = Ok r ->
  view_patient_for fails T cap base tries fuel = Diverge \/ view_patient_for fails T cap base tries fuel = Ok r.
Proof.
  unfold view_iterate, view_patient_for.
  destruct (vbegin T cap base (length base) true) as [[it wf]| |] eqn:E; cbn [bind]; try discriminate.
  destruct (begin_copy_any true _ E tries 0) as [->|(k' & ->)]; cbn [bind]; [left; reflexivity|]. apply patient_any.
Qed.
(* the iterator out of whose operator++ an exception came *)
Lemma stuck k it wf k' it' wf' : vnext_x fails T cap base k it wf = Ok (Threw k' (it', wf')) ->
  wf' = wf /\ v_current T it' = v_current T it /\ vderef T it' = Fault assert_failed
  /\ forall j b, vnext_x fails T cap base j it' b = Fault assert_failed.
Proof.
  intros H. unfold vnext_x in H. destruct (v_first T it =? v_last T it)%N eqn:E0; [discriminate|]. cbn [v_first v_last] in H.
  destruct ((v_first T it + 1) mod 2 ^ 4 =? v_last T it)%N eqn:E1; [|discriminate]. unfold fill_x in H.
  cbn [v_first v_last v_next v_tc v_out v_current] in H. rewrite E1 in H. cbn [negb] in H.
  destruct (fill_loop_x _ _ _ _ _ _ _ _ _) as [[k1 [[next t] out]|k1 [next t]]| |]; cbn [bind] in H; try discriminate.
  - destruct (Nat.eqb next (length base)); [destruct (tc_end T t) as [[t' w]| |]|]; cbn [bind] in H; try discriminate; destruct (Nat.ltb _ _); discriminate.
  - injection H as <- <- <-. split; [reflexivity|]. split; [reflexivity|]. unfold vderef, vnext_x. cbn [v_first v_last]. change (2 ^ 4)%N with (N.pos (2 ^ 4)) in E1. rewrite E1. split; [reflexivity|]. intros; reflexivity.
Qed.
End Any.
