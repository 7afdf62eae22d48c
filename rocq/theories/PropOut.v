(* PROPERTY THEOREMS: writing through icubaby::iterator (C46).  A program is a list of the statements of
   ModelOut.oop; orun T i mem ops k runs it on an iterator made of a new transcoder T and the output iterator i,
   calls end_cp (it_k) and gives what the container or array mem has become, and well_formed ().  Vocabulary:
   SpecOut.v. *)
From Verif Require Import Base ModelIcu IcuProps SpecIcu ModelHist ModelOut SpecOut OutFacts.
Local Open Scope list_scope.

(* Into a container that is appended to, any program at all: the units written, transcoded. *)
Theorem C46_append T mem ops k out ok : named ops 1 -> k < iterators ops 1 -> transcode T (written ops) = Ok (out, ok) ->
  orun T Appends mem ops k = Ok (mem ++ out, ok).
Proof. exact (append_run T mem ops k out ok). Qed.
Print Assumptions C46_append.
(* Into an array, a program which keeps to one line of iterators: the output is at the position the iterator
   had, and nothing else is touched; an array too small is overrun, as the caller must expect. *)
Theorem C46_array T p mem ops k out ok : in_line ops [true] k -> transcode T (written ops) = Ok (out, ok) -> p + length out <= length mem ->
  orun T (Points p) mem ops k = Ok (firstn p mem ++ out ++ skipn (p + length out) mem, ok).
Proof. intros L E H. rewrite (point_run T p mem ops k out ok L E). rewrite (proj2 (Nat.leb_le _ _) H). reflexivity. Qed.
Print Assumptions C46_array.
Theorem C46_array_too_small T p mem ops k out ok : in_line ops [true] k -> transcode T (written ops) = Ok (out, ok) -> p + length out > length mem -> out <> [] ->
  orun T (Points p) mem ops k = Fault buffer_overflow.
Proof.
  intros L E H N. rewrite (point_run T p mem ops k out ok L E). rewrite (proj2 (Nat.leb_gt _ _) H). destruct out; [contradiction|reflexivity].
Qed.
Print Assumptions C46_array_too_small.
(* the documented use, t.end_cp (std::copy (first, last, out)), in both of the ways std::copy can be written *)
Theorem C46_copy T mem l out ok : transcode T l = Ok (out, ok) ->
  orun T Appends mem (copies l) 0 = Ok (mem ++ out, ok) /\ orun T Appends mem (copies_postfix l) 0 = Ok (mem ++ out, ok)
  /\ forall p, p + length out <= length mem -> orun T (Points p) mem (copies l) 0 = Ok (firstn p mem ++ out ++ skipn (p + length out) mem, ok).
Proof.
  intros E. destruct (named_copies l) as [N1 K1], (named_postfix l) as [N2 K2].
  split; [apply C46_append; [exact N1|rewrite K1; auto|now rewrite written_copies]|].
  split; [apply C46_append; [exact N2|rewrite K2; auto|now rewrite written_postfix]|].
  intros p H. apply C46_array; [apply line_copies|now rewrite written_copies|exact H].
Qed.
Print Assumptions C46_copy.
(* *out++ = u into an array: what it++ returns is a copy, so the position of it stays and every output is put
   where the first was.  C++ asks of an output iterator that *r++ = o be the same as *r = o; ++r. *)
Theorem C46_postfix_refuted :
  transcode t32_8 [0x41; 0x42]%N = Ok ([0x41; 0x42]%N, true)
  /\ orun t32_8 (Points 0) [0; 0]%N (copies [0x41; 0x42]%N) 0 = Ok ([0x41; 0x42]%N, true)
  /\ orun t32_8 (Points 0) [0; 0]%N (copies_postfix [0x41; 0x42]%N) 0 = Ok ([0x42; 0]%N, true).
Proof. repeat split; vm_compute; reflexivity. Qed.
Print Assumptions C46_postfix_refuted.

Definition C46_program : list oop := [OWrite 0 0xD83D; OCopy 0; OInc 1; OWrite 1 0xDE00; OAssign 0 1; OCopy 1; OWrite 0 0x20AC; OInc 0; OCopy 0; OWrite 3 0xD800; OAssign 2 3]%N.
Example C46_ex : in_line C46_program [true] 2 /\ named C46_program 1 /\ iterators C46_program 1 = 4
  /\ written C46_program = [0xD83D; 0xDE00; 0x20AC; 0xD800]%N
  /\ transcode t16_8 [0xD83D; 0xDE00; 0x20AC; 0xD800]%N = Ok ([0xF0; 0x9F; 0x98; 0x80; 0xE2; 0x82; 0xAC; 0xEF; 0xBF; 0xBD]%N, false)
  /\ orun t16_8 (Points 1) (repeat 7%N 12) C46_program 2 = Ok ([7; 0xF0; 0x9F; 0x98; 0x80; 0xE2; 0x82; 0xAC; 0xEF; 0xBF; 0xBD; 7]%N, false)
  /\ orun t16_8 Appends [7]%N C46_program 1 = Ok ([7; 0xF0; 0x9F; 0x98; 0x80; 0xE2; 0x82; 0xAC; 0xEF; 0xBF; 0xBD]%N, false).
Proof.
  split; [cbn; repeat match goal with |- _ /\ _ => split | |- exists b, Some _ = Some b /\ _ => eexists end; try reflexivity; auto|].
  split; [cbn; repeat split; auto|]. repeat split; vm_compute; reflexivity.
Qed.
