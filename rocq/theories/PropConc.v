(* PROPERTY THEOREMS: several threads use one const view (C51).  [setup] is run before the threads start; the
   iterators it makes (the first [made setup] of them) are shared.  g is any interleaving: a list of (thread,
   operation).  The hypothesis on thread i is about that thread alone: after the setup, its own operations are in
   order and it would see x i (cursor_run, SpecHist.v).  The conclusion is about the interleaving. *)
From Verif Require Import Base ModelPct ModelIcu IcuProps ModelHist ModelConc ConcInst ConcMove.
From Verif Require Import SpecPct SpecIcu SpecHist SpecConc.
Local Open Scope list_scope.

(* --- percent-decoding views ------------------------------------------------------------------------------ *)
(* the threads share the view and may copy and compare shared iterators, but apply operator* to their own only: there
   is no race *)
Theorem C51_pct_race_free s t setup g y x : decodes s t ->
  cursor_run t true any_two setup = Some y -> (forall i, cursor_run t true any_two (setup ++ of_thread i g) = Some (y ++ x i)) ->
  Forall (fun z => const_use (made setup) (snd z)) g -> Forall (fun z => no_deref (made setup) (snd z)) g ->
  exists obs evs, pct_threads s setup g = Ok (obs, evs) /\ ~ race evs.
Proof. intros D S R U N. apply (pct_threads_race s t D setup g y x S U (or_introl N) R). Qed.
Print Assumptions C51_pct_race_free.
(* nor is there one when shared iterators are dereferenced too, if the text has no '%' *)
Theorem C51_pct_plain_race_free s setup g y x : ~ In percent s ->
  cursor_run s true any_two setup = Some y -> (forall i, cursor_run s true any_two (setup ++ of_thread i g) = Some (y ++ x i)) ->
  Forall (fun z => const_use (made setup) (snd z)) g ->
  exists obs evs, pct_threads s setup g = Ok (obs, evs) /\ ~ race evs.
Proof.
  intros N S R U. assert (D : decodes s s).
  { clear - N. induction s as [|c s IH]; [constructor|]. constructor; [|apply IH; intros H; apply N; right; exact H].
    intros b r (h & l & a & d & E & _). apply N. left. injection E as -> _. reflexivity. }
  apply (pct_threads_race s s D setup g y x S U (or_intror (plain_quiet s N)) R).
Qed.
Print Assumptions C51_pct_plain_race_free.
(* in every interleaving each thread sees exactly what it would see alone *)
Theorem C51_pct_independent s t setup g y x : decodes s t ->
  cursor_run t true any_two setup = Some y -> (forall i, cursor_run t true any_two (setup ++ of_thread i g) = Some (y ++ x i)) ->
  Forall (fun z => const_use (made setup) (snd z)) g ->
  exists obs evs, pct_threads s setup g = Ok (obs, evs) /\ forall i, of_thread i obs = x i.
Proof. intros D S R U. apply (pct_threads_see s t D setup g y x S U R). Qed.
Print Assumptions C51_pct_independent.

(* two threads, each with its own copy of a shared iterator, one of them one step ahead *)
Definition C51_setup : list op := [Begin; End].
Definition C51_one : list op := [Copy 0; Deref 2; Read 0; Inc 2; Deref 2; Read 1; Equal 2 0; Flag].
Definition C51_two : list op := [Begin; Inc 2; Deref 2; Read 0; PostInc 2; Equal 2 1; Equal 3 0].
Definition C51_g : list (nat * op) :=
  [(0, Copy 0); (1, Begin); (1, Inc 2); (0, Deref 2); (1, Deref 2); (0, Read 0); (1, Read 0); (1, PostInc 2); (0, Inc 2); (0, Deref 2); (1, Equal 2 1);
   (0, Read 1); (0, Equal 2 0); (1, Equal 3 0); (0, Flag)].
Definition C51_x (i : nat) : list (obs ascii) :=
  match i with
  | 0 => [Val "A"%char; Val "b"%char; Bool false; Bool true]
  | 1 => [Val "b"%char; Bool true; Bool false]
  | _ => []
  end.
Example C51_pct_ex : decodes (ss "%41b") (ss "Ab") /\ of_thread 0 C51_g = C51_one /\ of_thread 1 C51_g = C51_two
  /\ cursor_run (ss "Ab") true any_two C51_setup = Some []
  /\ (forall i, cursor_run (ss "Ab") true any_two (C51_setup ++ of_thread i C51_g) = Some ([] ++ C51_x i))
  /\ Forall (fun z => const_use (made C51_setup) (snd z)) C51_g /\ Forall (fun z => no_deref (made C51_setup) (snd z)) C51_g.
Proof.
  split; [apply PctFacts.pctdecode_iff; reflexivity|]. repeat split.
  - intros [|[|i]]; [reflexivity|reflexivity|]. reflexivity.
  - unfold C51_g. cbn. repeat constructor.
  - unfold C51_g. cbn. repeat constructor.
Qed.

(* The iterators are not safe for concurrent const use, which the C++ standard library promises of its own classes:
   operator* const at an escape writes to the iterator, and so does not go together with another thread's
   operator*, nor with its copying or reading. *)
Theorem C51_shared_iterator_refuted :
  (exists evs, pct_threads (ss "%41") [Begin] [(0, Deref 0); (0, Read 0); (1, Deref 0); (1, Read 0)]
     = Ok ([(0, Val "A"%char); (1, Val "A"%char)], evs) /\ race evs)
  /\ (exists evs, pct_threads (ss "%41") [Begin] [(0, Deref 0); (1, Copy 0)] = Ok ([], evs) /\ race evs)
  /\ (forall i, cursor_run (ss "A") true any_two ([Begin] ++ of_thread i [(0, Deref 0); (1, Copy 0)]) = Some []).
Proof.
  split; [|split].
  - exists [Event 0 (SharedIterator 0) true; Event 0 (SharedIterator 0) false; Event 1 (SharedIterator 0) true; Event 1 (SharedIterator 0) false]. split; [reflexivity|].
    exists (Event 0 (SharedIterator 0) true), (Event 1 (SharedIterator 0) true). cbn. split; [auto 10|]. split; [auto 10|]. split; [discriminate|auto].
  - exists [Event 0 (SharedIterator 0) true; Event 1 (SharedIterator 0) false]. split; [reflexivity|]. exists (Event 0 (SharedIterator 0) true), (Event 1 (SharedIterator 0) false). cbn. split; [auto 10|]. split; [auto 10|]. split; [discriminate|auto].
  - intros [|[|i]]; reflexivity.
Qed.
Print Assumptions C51_shared_iterator_refuted.

(* --- transcode views ----------------------------------------------------------------------------------------- *)
Theorem C51_transcode_race_free T cap bound l out setup g y x : view_of T cap bound -> Forall (fun u => (u < bound)%N) l ->
  transcode T l = Ok (out, true) ->                                             (* the input is well formed *)
  cursor_run out true (same_or_end (length out)) setup = Some y ->
  (forall i, cursor_run out true (same_or_end (length out)) (setup ++ of_thread i g) = Some (y ++ x i)) ->
  Forall (fun z => const_use (made setup) (snd z)) g ->
  exists obs evs, view_threads T cap l setup g = Ok (obs, evs) /\ ~ race evs.
Proof.
  intros V F E S R U. destruct (view_conc T cap bound l out true setup g y x V F E S U R) as (obs & evs & A & _ & B & _).
  exists obs, evs. split; [exact A|]. apply B. reflexivity.
Qed.
Print Assumptions C51_transcode_race_free.
(* well formed or not, in every interleaving each thread sees exactly what it would see alone *)
Theorem C51_transcode_independent T cap bound l out ok setup g y x : view_of T cap bound -> Forall (fun u => (u < bound)%N) l ->
  transcode T l = Ok (out, ok) ->
  cursor_run out ok (same_or_end (length out)) setup = Some y ->
  (forall i, cursor_run out ok (same_or_end (length out)) (setup ++ of_thread i g) = Some (y ++ x i)) ->
  Forall (fun z => const_use (made setup) (snd z)) g ->
  exists obs evs, view_threads T cap l setup g = Ok (obs, evs) /\ forall i, of_thread i obs = x i.
Proof.
  intros V F E S R U. destruct (view_conc T cap bound l out ok setup g y x V F E S U R) as (obs & evs & A & B & _).
  exists obs, evs. split; [exact A|exact B].
Qed.
Print Assumptions C51_transcode_independent.
(* The view is not safe for concurrent const use when its input is ill formed: whenever two threads get to the end,
   each with its own iterators and whatever else they do, there is a race on the view's mutable flag. *)
Theorem C51_transcode_ill_formed_race T cap bound l out setup g y x i j : view_of T cap bound -> Forall (fun u => (u < bound)%N) l ->
  transcode T l = Ok (out, false) ->
  cursor_run out false (same_or_end (length out)) setup = Some y ->
  (forall i, cursor_run out false (same_or_end (length out)) (setup ++ of_thread i g) = Some (y ++ x i)) ->
  Forall (fun z => const_use (made setup) (snd z)) g ->
  i <> j -> ~ at_end out false (same_or_end (length out)) setup ->
  at_end out false (same_or_end (length out)) (setup ++ of_thread i g) -> at_end out false (same_or_end (length out)) (setup ++ of_thread j g) ->
  exists obs evs, view_threads T cap l setup g = Ok (obs, evs) /\ race evs.
Proof.
  intros V F E S R U N A0 A1 A2. destruct (view_conc T cap bound l out false setup g y x V F E S U R) as (obs & evs & A & _ & _ & B & _).
  exists obs, evs. split; [exact A|]. apply (B eq_refl i j N A0 A1 A2).
Qed.
Print Assumptions C51_transcode_ill_formed_race.

(* nor may one thread ask well_formed () while another one gets to the end of ill-formed input *)
Theorem C51_transcode_flag_race T cap bound l out setup g y x i j : view_of T cap bound -> Forall (fun u => (u < bound)%N) l ->
  transcode T l = Ok (out, false) ->
  cursor_run out false (same_or_end (length out)) setup = Some y ->
  (forall i, cursor_run out false (same_or_end (length out)) (setup ++ of_thread i g) = Some (y ++ x i)) ->
  Forall (fun z => const_use (made setup) (snd z)) g ->
  i <> j -> ~ at_end out false (same_or_end (length out)) setup ->
  at_end out false (same_or_end (length out)) (setup ++ of_thread i g) -> In (j, Flag) g ->
  exists obs evs, view_threads T cap l setup g = Ok (obs, evs) /\ race evs.
Proof.
  intros V F E S R U N A0 A1 A2. destruct (view_conc T cap bound l out false setup g y x V F E S U R) as (obs & evs & A & _ & _ & _ & B).
  exists obs, evs. split; [exact A|]. apply (B eq_refl i j N A0 A1 A2).
Qed.
Print Assumptions C51_transcode_flag_race.

Definition C51_v : list (nat * op) :=
  [(0, Copy 0); (0, Deref 0); (1, Begin); (1, Inc 2); (0, Deref 2); (1, Deref 0); (0, Read 0); (1, Read 0); (0, Inc 2); (1, Inc 2); (1, Inc 2); (1, Equal 2 1); (0, Inc 2); (0, Inc 2); (0, Flag)].
Definition C51_vx (ok : bool) (i : nat) : list (obs N) :=
  match i with 0 => [Val 0xEF%N; Bool ok] | 1 => [Val 0xEF%N; Bool true] | _ => [] end.
Example C51_transcode_ex : view_of t16_8 max_output_16_8 (2 ^ 16)
  (* U+FFFC, well formed *)
  /\ transcode t16_8 [0xFFFC]%N = Ok ([0xEF; 0xBF; 0xBC]%N, true)
  /\ cursor_run [0xEF; 0xBF; 0xBC]%N true (same_or_end 3) C51_setup = Some []
  /\ (forall i, cursor_run [0xEF; 0xBF; 0xBC]%N true (same_or_end 3) (C51_setup ++ of_thread i C51_v) = Some ([] ++ C51_vx true i))
  (* a lone surrogate: the replacement character, ill formed *)
  /\ transcode t16_8 [0xD800]%N = Ok ([0xEF; 0xBF; 0xBD]%N, false)
  /\ cursor_run [0xEF; 0xBF; 0xBD]%N false (same_or_end 3) C51_setup = Some []
  /\ (forall i, cursor_run [0xEF; 0xBF; 0xBD]%N false (same_or_end 3) (C51_setup ++ of_thread i C51_v) = Some ([] ++ C51_vx false i))
  /\ ~ at_end [0xEF; 0xBF; 0xBD]%N false (same_or_end 3) C51_setup
  /\ at_end [0xEF; 0xBF; 0xBD]%N false (same_or_end 3) (C51_setup ++ of_thread 0 C51_v)
  /\ at_end [0xEF; 0xBF; 0xBD]%N false (same_or_end 3) (C51_setup ++ of_thread 1 C51_v)
  /\ In (0, Flag) C51_v
  /\ Forall (fun z => const_use (made C51_setup) (snd z)) C51_v.
Proof.
  split; [constructor|]. split; [vm_compute; reflexivity|]. split; [reflexivity|]. split; [intros [|[|i]]; reflexivity|].
  split; [vm_compute; reflexivity|]. split; [reflexivity|]. split; [intros [|[|i]]; reflexivity|].
  split; [intros (c & E & H); injection E as <-; discriminate|]. split; [eexists; split; reflexivity|]. split; [eexists; split; reflexivity|]. split; [cbn; tauto|].
  unfold C51_v. cbn. repeat constructor.
Qed.

(* --- the restriction to const use is needed ------------------------------------------------------------------- *)
(* if one thread moves, assigns to or destroys a shared iterator and another one uses it, there is a race, whatever
   the view, the input and the rest of the program *)
Theorem C51_pct_moved_race s setup g obs evs i j k o o' : pct_threads s setup g = Ok (obs, evs) ->
  In (i, o) g -> In (j, o') g -> i <> j -> k < made setup -> moves k o -> uses k o' -> race evs.
Proof. apply moved_race. Qed.
Print Assumptions C51_pct_moved_race.
Theorem C51_transcode_moved_race T cap l setup g obs evs i j k o o' : view_threads T cap l setup g = Ok (obs, evs) ->
  In (i, o) g -> In (j, o') g -> i <> j -> k < made setup -> moves k o -> uses k o' -> race evs.
Proof. apply moved_race. Qed.
Print Assumptions C51_transcode_moved_race.
(* for instance a thread that increments a shared iterator and another one that copies it *)
Definition C51_mg : list (nat * op) := [(0, Inc 0); (1, Copy 0); (1, Equal 2 1)].
Example C51_moved_ex : (exists obs evs, pct_threads (ss "%41b") C51_setup C51_mg = Ok (obs, evs))
  /\ (exists obs evs, view_threads t16_8 max_output_16_8 [0xFFFC]%N C51_setup C51_mg = Ok (obs, evs))
  /\ In (0, Inc 0) C51_mg /\ In (1, Copy 0) C51_mg /\ 0 < made C51_setup /\ moves 0 (Inc 0) /\ uses 0 (Copy 0).
Proof.
  split; [do 2 eexists; vm_compute; reflexivity|]. split; [do 2 eexists; vm_compute; reflexivity|].
  split; [left; reflexivity|]. split; [right; left; reflexivity|]. split; [cbn; auto|]. split; reflexivity.
Qed.
