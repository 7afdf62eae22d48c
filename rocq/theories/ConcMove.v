(* Which accesses are made in a run of several threads, whatever the operations are. *)
From Verif Require Import Base ModelHist HistFacts ModelConc SpecConc.
From Coq Require Import Lia.
Local Open Scope list_scope.

Section Move.
Context {V : Type}.
Variables (C : iclass V) (dw : ic_it C -> bool).

Lemma step_length o m m' x : step C o m = Ok (m', x) -> length (m_objs C m') = length (m_objs C m) + makes o.
Proof.
  intros E. destruct o; cbn [step] in E;
  repeat match type of E with
  | bind ?e _ = _ => let X := fresh "X" in destruct e as [| |] eqn:X; cbn [bind] in E; try discriminate
  | (let (_, _) := ?p in _) = _ => destruct p
  | match ?e with _ => _ end = _ => let X := fresh "Y" in destruct e eqn:X; cbn [bind] in E; try discriminate
  end; injection E as <- <-; cbn [m_objs fresh store makes]; rewrite ?app_length, ?put_length; cbn [length]; lia.
Qed.
Lemma steps_to_length ops : forall m m', steps_to C ops m = Ok m' -> length (m_objs C m') = length (m_objs C m) + made ops.
Proof.
  induction ops as [|o ops IH]; intros m m' E; cbn [steps_to] in *.
  - cbn. injection E as <-. lia.
  - destruct (step C o m) as [[m1 x]| |] eqn:E1; cbn [bind] in E; try discriminate. cbn [made fold_right]. fold (made ops). apply step_length in E1. apply IH in E. lia.
Qed.
Lemma thread_step_length i o w w' x ev : thread_step C dw i o w = Ok (w', x, ev) -> length (w_shared C w') = length (w_shared C w).
Proof.
  unfold thread_step. intros E. destruct (step C o (view_of_thread C w i)) as [[m' y]| |] eqn:E1; cbn [bind] in E; try discriminate.
  injection E as <- <- <-. cbn [w_shared]. apply step_length in E1. cbn [view_of_thread m_objs] in E1. rewrite app_length in E1. rewrite firstn_length. lia.
Qed.
Lemma threads_accesses g : forall w obs evs i o, threads C dw g w = Ok (obs, evs) -> In (i, o) g ->
  exists m, incl (accesses C dw i (length (w_shared C w)) o m) evs.
Proof.
  induction g as [|[j p] g IH]; intros w obs evs i o E I; [destruct I|]. cbn [threads] in E.
  destruct (thread_step C dw j p w) as [[[w' x] ev]| |] eqn:E1; cbn [bind] in E; try discriminate.
  destruct (threads C dw g w') as [[y ev']| |] eqn:E2; cbn [bind] in E; try discriminate. injection E as <- <-.
  destruct I as [I|I].
  - injection I as -> ->. unfold thread_step in E1. destruct (step C o (view_of_thread C w i)) as [[m' z]| |]; cbn [bind] in E1; try discriminate.
    injection E1 as _ _ <-. exists (view_of_thread C w i). apply incl_appl, incl_refl.
  - destruct (IH _ _ _ _ _ E2 I) as (m & K). rewrite (thread_step_length _ _ _ _ _ _ E1) in K. exists m. apply incl_appr. exact K.
Qed.
Lemma run_accesses setup g obs evs i o : run_threads C dw setup g = Ok (obs, evs) -> In (i, o) g ->
  exists m, incl (accesses C dw i (made setup) o m) evs.
Proof.
  unfold run_threads. intros E I. destruct (steps_to C setup (Machine C [] [] true)) as [m| |] eqn:E1; cbn [bind] in E; try discriminate.
  apply steps_to_length in E1. cbn in E1. destruct (threads_accesses _ _ _ _ _ _ E I) as (m1 & K). cbn [start w_shared] in K. rewrite E1 in K. exists m1. exact K.
Qed.
Lemma run_touches setup g obs evs i o k b : run_threads C dw setup g = Ok (obs, evs) -> In (i, o) g -> k < made setup ->
  (forall m, In (k, b) (touches C dw o m)) -> In (Event i (SharedIterator k) b) evs.
Proof.
  intros E I L T. destruct (run_accesses _ _ _ _ _ _ E I) as (m & K). apply K. unfold accesses. apply in_or_app. left.
  apply in_map_iff. exists (k, b). split; [reflexivity|]. apply filter_In. split; [apply T|]. apply Nat.ltb_lt. exact L.
Qed.
Lemma moved_race setup g obs evs i j k o o' : run_threads C dw setup g = Ok (obs, evs) -> In (i, o) g -> In (j, o') g -> i <> j -> k < made setup ->
  moves k o -> uses k o' -> race evs.
Proof.
  intros E I J N L M U. exists (Event i (SharedIterator k) true).
  assert (exists b, In (Event j (SharedIterator k) b) evs) as (b & B).
  { destruct o' as [| |l|l l'|l|l|l|l|r|l l'|]; cbn [uses] in U; try contradiction; try (destruct U as [U|U]); subst;
      first [exists false; eapply run_touches; [exact E|exact J|exact L|]; intros m; cbn [touches]; auto using in_eq, in_cons; fail
            |exists true; eapply run_touches; [exact E|exact J|exact L|]; intros m; cbn [touches]; auto using in_eq, in_cons; fail]. }
  exists (Event j (SharedIterator k) b). split; [|split; [exact B|split; [exact N|split; [reflexivity|left; reflexivity]]]].
  eapply run_touches; [exact E|exact I|exact L|]. intros m. destruct o as [| |l|l l'|l|l|l|l|r|l l'|]; cbn [moves] in M; try contradiction; subst; cbn [touches]; auto using in_eq, in_cons.
Qed.
Lemma flag_read setup g obs evs i : run_threads C dw setup g = Ok (obs, evs) -> In (i, Flag) g -> In (Event i WellFormedFlag false) evs.
Proof.
  intros E I. destruct (run_accesses _ _ _ _ _ _ E I) as (m & K). apply K. unfold accesses. apply in_or_app. right. apply in_or_app. left. left. reflexivity.
Qed.
End Move.
