(* Model of icubaby::iterator (icubaby.hpp:608-692), the output iterator which sends what is written to it
   through a transcoder.  An iterator object holds a pointer to the transcoder, which all copies share, and an
   output iterator out_ of its own. *)
From Verif Require Import Base ModelIcu ModelHist.
Local Open Scope list_scope.

(* out_: either an iterator which appends to a container wherever it was copied from (std::back_inserter,
   std::ostream_iterator), or a position in a fixed array (a pointer, or an iterator of a container) *)
Inductive sink := Appends | Points (pos : nat).
(* *out++ = u, as the transcoders write; [mem] is the container or the array *)
Definition put_unit (k : sink) (mem : list N) (u : N) : outcome (sink * list N) :=
  match k with
  | Appends => Ok (Appends, mem ++ [u])
  | Points p => if Nat.ltb p (length mem) then Ok (Points (S p), put mem p u) else Fault buffer_overflow
  end.
Fixpoint put_units (k : sink) (mem : list N) (us : list N) : outcome (sink * list N) :=
  match us with
  | [] => Ok (k, mem)
  | u :: us' => do (k', mem') <- put_unit k mem u; put_units k' mem' us'
  end.

(* the statements of a program over iterators it_0, it_1, ...; it_0 is there from the start *)
Inductive oop :=
| OCopy (k : nat)                   (* auto it = it_k; also it_k++ whose result is kept: 672-674 *)
| OAssign (k j : nat)               (* it_k = it_j: 662-663 *)
| OInc (k : nat)                    (* ++it_k, or it_k++ whose result is not used: 668-674 *)
| OWrite (k : nat) (u : N)          (* *it_k = u, or it_k = u: 655-660, 666 *)
| OWriteInc (k : nat) (u : N).      (* *it_k++ = u: the copy which it_k++ returns (672-674) is written to *)

Section Out.
Variable T : tcdr.
Record omachine := OMachine { o_its : list sink; o_tc : tc_st T; o_mem : list N }.
Definition oit (m : omachine) (k : nat) : outcome sink := match nth_error (o_its m) k with Some i => Ok i | None => Fault dangling_view end.
(* icubaby.hpp:655-660 operator= (value): the new out_ *)
Definition owrite (m : omachine) (i : sink) (u : N) : outcome (sink * omachine) :=
  do (t, w) <- tc_op T (o_tc m) u; do (i', mem) <- put_units i (o_mem m) w; Ok (i', OMachine (o_its m) t mem).
Definition ostep (o : oop) (m : omachine) : outcome omachine :=
  match o with
  | OCopy k => do i <- oit m k; Ok (OMachine (o_its m ++ [i]) (o_tc m) (o_mem m))
  | OAssign k j => do _ <- oit m k; do i <- oit m j; Ok (OMachine (put (o_its m) k i) (o_tc m) (o_mem m))
  | OInc k => do _ <- oit m k; Ok m
  | OWrite k u => do i <- oit m k; do (i', m') <- owrite m i u; Ok (OMachine (put (o_its m') k i') (o_tc m') (o_mem m'))
  | OWriteInc k u => do i <- oit m k; do (_, m') <- owrite m i u; Ok m'
  end.
Fixpoint osteps (ops : list oop) (m : omachine) : outcome omachine :=
  match ops with [] => Ok m | o :: ops' => do m' <- ostep o m; osteps ops' m' end.
(* the program, then end_cp (it_k) (icubaby.hpp:755-759 and its like in every transcoder): what the container
   or array holds, and well_formed () *)
Definition orun (i : sink) (mem : list N) (ops : list oop) (k : nat) : outcome (list N * bool) :=
  do m <- osteps ops (OMachine [i] (tc_init T) mem);
  do i' <- oit m k;
  do (t, w) <- tc_end T (o_tc m);
  do (_, mem') <- put_units i' (o_mem m) w;
  Ok (mem', tc_wf T t).
End Out.
