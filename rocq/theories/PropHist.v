(* PROPERTY THEOREMS: programs that use many iterators over one view (C44, C45).  A program is a list of the
   operations of ModelHist.op, and run is what the classes do; cursor_run (SpecHist.v) is what cursors over a
   sequence do, and None for a program which steps over the end, dereferences there, uses an object after its
   lifetime, or uses a reference after its iterator was moved, assigned to or destroyed. *)
From Verif Require Import Base ModelPct ModelIcu IcuProps ModelHist HistFacts HistPct HistView.
From Verif Require Import SpecPct SpecIcu SpecHist.
Local Open Scope list_scope.

(* --- C44: the percent-decoding iterators ------------------------------------------------------------- *)
(* every program over the iterators of a pctdecoder or pctdecode_view sees the decoded text t *)
Theorem C44_cursors s t ops x : decodes s t -> cursor_run t true any_two ops = Some x -> run (pct_class s) ops = Ok x.
Proof. intros D. apply pct_run. exact D. Qed.
Print Assumptions C44_cursors.
(* a program which obeys the rules for some text does so for the decoded one: the hypotheses are met *)
Definition C44_program : list op :=
  [Begin; End; Copy 0; Inc 2; Equal 0 2; Deref 0; Deref 2; Read 0; Read 1; PostInc 2; Deref 3; Read 2; Deref 2; Read 3; Read 0;
   Inc 2; Equal 2 1; Assign 2 0; Equal 0 2; Deref 2; Read 4; Destroy 0; Deref 2; Read 5; Read 4; Flag].
Example C44_ex : decodes (ss "%41%4z") (ss "A%4z") /\ decodes (ss "a%2Fb") (ss "a/b")
  /\ cursor_run (ss "a/b") true any_two C44_program
     = Some [Bool false; Val "a"%char; Val "/"%char; Val "/"%char; Val "b"%char; Val "a"%char; Bool true; Bool true; Val "a"%char; Val "a"%char; Val "a"%char; Bool true]
  /\ run (pct_class (ss "a%2Fb")) C44_program
     = Ok [Bool false; Val "a"%char; Val "/"%char; Val "/"%char; Val "b"%char; Val "a"%char; Bool true; Bool true; Val "a"%char; Val "a"%char; Val "a"%char; Bool true].
Proof.
  split; [apply PctFacts.pctdecode_iff; reflexivity|]. split; [apply PctFacts.pctdecode_iff; reflexivity|]. split; reflexivity.
Qed.

(* The classes call themselves forward iterators, whose references stay good as long as the range.  At an
   escape they do not: after a move and another dereference the old reference shows the new byte, and the
   reference from *it++ is gone with the temporary.  Unescaped text has neither. *)
Theorem C44_reference_refuted :
  run (pct_class (ss "%41%42")) [Begin; Deref 0; Inc 0; Deref 0; Read 0] = Ok [Val "B"%char]
  /\ run (pct_class (ss "%41%42")) [Begin; PostInc 0; Deref 1; Destroy 1; Read 0] = Fault dangling_view
  /\ run (pct_class (ss "AB")) [Begin; Deref 0; Inc 0; Deref 0; Read 0] = Ok [Val "A"%char]
  /\ run (pct_class (ss "AB")) [Begin; PostInc 0; Deref 1; Destroy 1; Read 0] = Ok [Val "A"%char].
Proof. repeat split; reflexivity. Qed.
Print Assumptions C44_reference_refuted.
(* Writing through a view over a range that can be written to: a byte that was not escaped is replaced, the
   write to an escaped one is lost; iter_swap exchanges the '%' signs, or puts one where it does not belong. *)
Theorem C44_write_refuted :
  pit_write (ss "ab") (Pit 0 (chr 0)) "c" = Ok (ss "cb") /\ pit_write (ss "%61b") (Pit 0 (chr 0)) "c" = Ok (ss "%61b")
  /\ pit_swap (ss "ab") (Pit 0 (chr 0)) (Pit 1 (chr 0)) = Ok (ss "ba")
  /\ pit_swap (ss "%61b") (Pit 0 (chr 0)) (Pit 3 (chr 0)) = Ok (ss "b61%") /\ decodes (ss "%61b") (ss "ab") /\ decodes (ss "b61%") (ss "b61%").
Proof. repeat match goal with |- _ /\ _ => split end; try reflexivity; apply PctFacts.pctdecode_iff; reflexivity. Qed.
Print Assumptions C44_write_refuted.

(* --- C45: the iterators of a transcode view ------------------------------------------------------------ *)
(* every program over the iterators of a transcode view sees what the transcoder makes of the input, and
   well_formed () says so once some iterator has reached the end *)
Theorem C45_cursors T cap bound l out ok ops x : view_of T cap bound -> Forall (fun u => (u < bound)%N) l -> transcode T l = Ok (out, ok) ->
  cursor_run out ok (same_or_end (length out)) ops = Some x -> run (view_class T cap l) ops = Ok x.
Proof. intros V F E R. eapply view_history; eassumption. Qed.
Print Assumptions C45_cursors.
Definition C45_program : list op :=
  [Begin; End; Copy 0; Equal 0 2; Equal 0 1; Inc 2; Inc 2; Deref 0; Deref 2; Read 0; Read 1; PostInc 2; Deref 3; Read 2; Inc 2; Equal 2 1; Flag;
   Assign 2 0; Begin; Equal 0 4; Inc 4; Deref 2; Deref 4; Read 3; Read 4; Read 0].
Example C45_ex : view_of t16_8 max_output_16_8 (2 ^ 16) /\ transcode t16_8 [0x20AC; 0xD800]%N = Ok ([0xE2; 0x82; 0xAC; 0xEF; 0xBF; 0xBD]%N, false)
  /\ cursor_run [0xE2; 0x82; 0xAC; 0x41]%N true (same_or_end 4) C45_program
     = Some [Bool true; Bool false; Val 0xE2; Val 0xAC; Val 0xAC; Bool true; Bool true; Bool true; Val 0xE2; Val 0x82; Val 0xE2]%N
  /\ run (view_class t16_8 max_output_16_8 [0x20AC; 0x41]%N) C45_program
     = Ok [Bool true; Bool false; Val 0xE2; Val 0xAC; Val 0xAC; Bool true; Bool true; Bool true; Val 0xE2; Val 0x82; Val 0xE2]%N
  /\ run (view_class t32_8 max_output_8 [0xD800]%N) [Begin; Inc 0; Inc 0; Inc 0; Flag] = Ok [Bool false].
Proof. split; [constructor|]. repeat split; vm_compute; reflexivity. Qed.

(* Iterators at different units of one code point compare equal although they are not interchangeable, and a
   reference shows what its iterator has moved on to. *)
Theorem C45_equal_refuted :
  transcode t32_8 [0x20AC]%N = Ok ([0xE2; 0x82; 0xAC]%N, true)
  /\ run (view_class t32_8 max_output_8 [0x20AC]%N) [Begin; Begin; Inc 1; Equal 0 1; Deref 0; Deref 1; Read 0; Read 1] = Ok [Bool true; Val 0xE2; Val 0x82]%N
  /\ cursor_run [0xE2; 0x82; 0xAC]%N true any_two [Begin; Begin; Inc 1; Equal 0 1; Deref 0; Deref 1; Read 0; Read 1] = Some [Bool false; Val 0xE2; Val 0x82]%N.
Proof. repeat split; vm_compute; reflexivity. Qed.
Print Assumptions C45_equal_refuted.
Theorem C45_reference_refuted :
  run (view_class t32_32 max_output_32 [0x41; 0x42]%N) [Begin; Deref 0; Inc 0; Read 0] = Ok [Val 0x42]%N
  /\ run (view_class t32_32 max_output_32 [0x41; 0x42]%N) [Begin; PostInc 0; Deref 1; Destroy 1; Read 0] = Fault dangling_view.
Proof. repeat split; vm_compute; reflexivity. Qed.
Print Assumptions C45_reference_refuted.
