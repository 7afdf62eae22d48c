(* PROPERTY THEOREMS: transcoding to a destination that throws (C57).  calls refuses T p s d makes the calls p (Some u is
   operator() (u), None is end_cp) on a transcoder in the state s, catching what they throw, refuses telling which of the
   assignments through dest throw; it gives how each call ended, the transcoder's state, how many assignments were tried
   and what the destination received.  Vocabulary: SpecThrow.v. *)
From Verif Require Import Base ModelIcu ModelThrow SpecThrow ThrowFacts.
From Coq Require Import Lia.
Local Open Scope N_scope.
Local Open Scope list_scope.

Definition all_of_them : list xtcdr := [x_8_8; x_8_16; x_8_32; x_16_8; x_16_16; x_16_32; x_32_8; x_32_16; x_32_32; x_b_8; x_b_16; x_b_32].
(* none of the output is refused: the outcome is the one that C22, C23, C29, C30 and C36-C38 speak about *)
Theorem C57_same refuses T l out ok : In T all_of_them -> transcode (x_tc T) l = Ok (out, ok) -> (forall i, i < length out -> refuses i = false)%nat ->
  exists es s, calls refuses T (map Some l ++ [None]) (tc_init (x_tc T)) (Dest 0 []) = Ok (es, s, Dest (length out) out)
  /\ Forall (eq Returned) es /\ length es = S (length l) /\ tc_wf (x_tc T) s = ok.
Proof. intros H. exact (same_run refuses T l out ok (steps_all T H)). Qed.
Print Assumptions C57_same.

(* Out of UTF-8 or UTF-32, into UTF-32: the exception comes out of operator(), the unit it was about is lost, and
   nothing else is: the rest of the text, well_formed() and partial() are as if nothing had been refused. *)
Theorem C57_go_on refuses T l s out : In T [x_8_32; x_32_32] -> feed (x_tc T) (tc_init (x_tc T)) l = Ok (s, out) ->
  exists es, calls refuses T (map Some l) (tc_init (x_tc T)) (Dest 0 []) = Ok (es, s, Dest (length out) (kept refuses 0 out))
  /\ length es = length l /\ ~ In Terminated es /\ length (filter (fun e => match e with Threw => true | _ => false end) es) = refusals refuses 0 (length out).
Proof. exact (go_on refuses T l s out). Qed.
Print Assumptions C57_go_on.

(* Everywhere else operator() is noexcept, or calls one that is: the first assignment that throws ends the program.  The
   destination has what came before it. *)
Theorem C57_terminates refuses T l out ok k : In T [x_8_8; x_8_16; x_16_8; x_16_16; x_32_8; x_32_16; x_b_8; x_b_16; x_b_32] ->
  transcode (x_tc T) l = Ok (out, ok) -> first_refused refuses k -> (k < length out)%nat ->
  exists es s, calls refuses T (map Some l ++ [None]) (tc_init (x_tc T)) (Dest 0 []) = Ok (es ++ [Terminated], s, Dest (S k) (firstn k out))
  /\ Forall (eq Returned) es.
Proof. exact (terminates refuses T l out ok k). Qed.
Print Assumptions C57_terminates.
(* of the transcoder from UTF-16 to UTF-32, operator() is noexcept and end_cp is not *)
Theorem C57_terminates_16_32 refuses l s out k : feed t16_32 (tc_init t16_32) l = Ok (s, out) -> first_refused refuses k -> (k < length out)%nat ->
  exists es s', calls refuses x_16_32 (map Some l) (tc_init t16_32) (Dest 0 []) = Ok (es ++ [Terminated], s', Dest (S k) (firstn k out))
  /\ Forall (eq Returned) es.
Proof. exact (terminates_16_32 refuses l s out k). Qed.
Print Assumptions C57_terminates_16_32.

(* When end_cp throws the destination has received nothing from it, and end_cp can be called again: it does what it
   would have done. *)
Theorem C57_end refuses T s d s' d' : In T all_of_them -> call_end refuses T s d = Ok (Threw, s', d') ->
  d_received d' = d_received d /\ tc_end (x_tc T) s' = tc_end (x_tc T) s /\ tc_partial (x_tc T) s' = tc_partial (x_tc T) s.
Proof. exact (end_again refuses T s d s' d'). Qed.
Print Assumptions C57_end.
(* but not well_formed(): until end_cp has returned it says that a text that was cut off is well formed *)
Theorem C57_end_refuted : let refuses n := Nat.eqb n 0 in
  transcode t8_32 [0xE2; 0x82] = Ok ([0xFFFD], false) /\ transcode t16_32 [0xD83D] = Ok ([0xFFFD], false)
  /\ (exists s, calls refuses x_8_32 [Some 0xE2; Some 0x82; None] (tc_init t8_32) (Dest 0 []) = Ok ([Returned; Returned; Threw], s, Dest 1 []) /\ tc_wf t8_32 s = true)
  /\ (exists s, calls refuses x_16_32 [Some 0xD83D; None] (tc_init t16_32) (Dest 0 []) = Ok ([Returned; Threw], s, Dest 1 []) /\ tc_wf t16_32 s = true)
  /\ (exists s, calls refuses x_8_32 [Some 0xE2; Some 0x82; None; None] (tc_init t8_32) (Dest 0 []) = Ok ([Returned; Returned; Threw; Returned], s, Dest 2 [0xFFFD]) /\ tc_wf t8_32 s = false).
Proof. repeat split; try (eexists; split); vm_compute; reflexivity. Qed.
Print Assumptions C57_end_refuted.

(* A unit of UTF-32 may be passed again when operator() has thrown; the state is then as if it had not been passed yet. *)
Theorem C57_again refuses s u d s' d' : call refuses x_32_32 s u d = Ok (Threw, s', d') ->
  d_received d' = d_received d /\ tc_op t32_32 s' u = tc_op t32_32 s u.
Proof. exact (again_32 refuses s u d s' d'). Qed.
Print Assumptions C57_again.
(* A byte of UTF-8 may not: it has been consumed. *)
Theorem C57_again_refuted : let refuses n := Nat.eqb n 0 in
  transcode t8_32 [0xE2; 0x82; 0xAC] = Ok ([0x20AC], true)
  /\ exists s, calls refuses x_8_32 [Some 0xE2; Some 0x82; Some 0xAC; Some 0xAC; None] (tc_init t8_32) (Dest 0 [])
       = Ok ([Returned; Returned; Threw; Returned; Returned], s, Dest 2 [0xFFFD]) /\ tc_wf t8_32 s = false.
Proof. split; [|eexists; split]; vm_compute; reflexivity. Qed.
Print Assumptions C57_again_refuted.

Example C57_ex : let refuses n := Nat.eqb n 1 || Nat.eqb n 3 in
  feed t8_32 (tc_init t8_32) [0x41; 0xE2; 0x82; 0xAC; 0xFF; 0x42; 0x43] = Ok (S8 0x43 false 0, [0x41; 0x20AC; 0xFFFD; 0x42; 0x43])
  /\ calls refuses x_8_32 (map Some [0x41; 0xE2; 0x82; 0xAC; 0xFF; 0x42; 0x43]) (tc_init t8_32) (Dest 0 [])
     = Ok ([Returned; Returned; Returned; Threw; Returned; Threw; Returned], S8 0x43 false 0, Dest 5 [0x41; 0xFFFD; 0x43])
  /\ first_refused refuses 1
  /\ match calls refuses x_8_8 (map Some [0x41; 0xE2; 0x82; 0xAC; 0xFF; 0x42; 0x43] ++ [None]) (tc_init t8_8) (Dest 0 []) with
     | Ok (es, _, d) => es = [Returned; Returned; Returned; Terminated] /\ d = Dest 2 [0x41] | _ => False end.
Proof.
  split; [vm_compute; reflexivity|]. split; [vm_compute; reflexivity|]. split; [|vm_compute; split; reflexivity].
  split; [reflexivity|]. intros [|i] H; [reflexivity|lia].
Qed.
