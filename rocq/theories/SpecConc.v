(* SPECIFICATION for concurrent use of a view.  From the model: the language of programs (ModelHist.op), and events. *)
From Verif Require Import Base ModelHist ModelConc SpecHist.
Local Open Scope list_scope.

(* the part of thread i in an interleaving, and in what was observed *)
Definition of_thread {A} (i : nat) (g : list (nat * A)) : list A := map snd (filter (fun x => Nat.eqb (fst x) i) g).
(* how many iterators a program makes *)
Definition makes (o : op) : nat := match o with Begin | End | Copy _ | PostInc _ => 1 | _ => 0 end.
Definition made (ops : list op) : nat := fold_right (fun o n => makes o + n) 0 ops.
(* an operation which uses the first n iterators only as const objects: it does not move, assign to or destroy them *)
Definition const_use (n : nat) (o : op) : Prop :=
  match o with Assign k _ | Inc k | PostInc k | Destroy k => n <= k | _ => True end.
(* ... and does not apply operator* to them either *)
Definition no_deref (n : nat) (o : op) : Prop := match o with Deref k => n <= k | _ => True end.
(* Two threads access the same memory and one of them writes.  No thread ever waits for another, so nothing
   orders the two accesses: this is a data race ([intro.races] of the C++ standard), and undefined. *)
Definition race (evs : list event) : Prop :=
  exists a b, In a evs /\ In b evs /\ e_thread a <> e_thread b /\ e_at a = e_at b /\ (e_write a = true \/ e_write b = true).

(* the cursors (SpecHist.v) after a program, and whether one of them got to the end of the sequence *)
Section After.
Context {V : Type}.
Variables (out : list V) (ok : bool) (comparable : nat -> nat -> bool).
Fixpoint cursors_after (ops : list op) (c : cursors (V := V)) : option cursors :=
  match ops with
  | [] => Some c
  | o :: ops' => match cursor_step out ok comparable o c with Some (c', _) => cursors_after ops' c' | None => None end
  end.
Definition at_end (ops : list op) : Prop :=
  exists c, cursors_after ops (Cursors [] [] false) = Some c /\ c_end_reached c = true.
End After.

(* an operation which changes iterator k, and one which uses it at all *)
Definition moves (k : nat) (o : op) : Prop :=
  match o with Assign l _ | Inc l | PostInc l | Destroy l => l = k | _ => False end.
Definition uses (k : nat) (o : op) : Prop :=
  match o with
  | Copy l | Inc l | PostInc l | Destroy l => l = k
  | Assign l j | Equal l j => l = k \/ j = k
  | _ => False
  end.
