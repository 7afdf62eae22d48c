(* SPECIFICATION for programs that write through icubaby::iterator: what was written, in order, and which
   programs keep to one line of iterators.  The language of programs is ModelOut.oop. *)
From Verif Require Import Base ModelHist ModelOut.
Local Open Scope list_scope.

(* the code units a program writes *)
Fixpoint written (ops : list oop) : list N :=
  match ops with
  | [] => []
  | OWrite _ u :: ops' | OWriteInc _ u :: ops' => u :: written ops'
  | _ :: ops' => written ops'
  end.
(* every iterator the program names exists: n is how many there are to begin with *)
Fixpoint named (ops : list oop) (n : nat) : Prop :=
  match ops with
  | [] => True
  | OCopy k :: ops' => k < n /\ named ops' (S n)
  | OAssign k j :: ops' => k < n /\ j < n /\ named ops' n
  | OInc k :: ops' | OWrite k _ :: ops' | OWriteInc k _ :: ops' => k < n /\ named ops' n
  end.
Fixpoint iterators (ops : list oop) (n : nat) : nat :=
  match ops with [] => n | OCopy _ :: ops' => iterators ops' (S n) | _ :: ops' => iterators ops' n end.

(* A position is passed on from the iterator a unit was written through to its copies.  fresh says of each
   iterator whether it is the one last written through, or has been copied or assigned from that one since.
   in_line: only such iterators are written through, and k is such a one in the end. *)
Fixpoint in_line (ops : list oop) (fresh : list bool) (k : nat) : Prop :=
  match ops with
  | [] => nth_error fresh k = Some true
  | OCopy j :: ops' => exists b, nth_error fresh j = Some b /\ in_line ops' (fresh ++ [b]) k
  | OAssign i j :: ops' => i < length fresh /\ exists b, nth_error fresh j = Some b /\ in_line ops' (put fresh i b) k
  | OInc j :: ops' => j < length fresh /\ in_line ops' fresh k
  | OWrite j _ :: ops' => nth_error fresh j = Some true /\ in_line ops' (put (map (fun _ => false) fresh) j true) k
  | OWriteInc j _ :: ops' => False
  end.
(* std::copy to an iterator: for (; first != last; ++first, ++out) *out = *first *)
Definition copies (l : list N) : list oop := flat_map (fun u => [OWrite 0 u; OInc 0]) l.
(* ... and for (; first != last;) *out++ = *first++ *)
Definition copies_postfix (l : list N) : list oop := map (OWriteInc 0) l.
(* the array: units w at position p *)
Definition overwritten (mem : list N) (p : nat) (w : list N) : list N := firstn p mem ++ w ++ skipn (p + length w) mem.
