(* SPECIFICATION of a family of forward iterators over a sequence [out] of values: each is a cursor, a number
   between 0 and the length of out.  Only the language of programs (ModelHist.op) is taken from the model. *)
From Verif Require Import Base ModelHist.
Local Open Scope list_scope.

Section Spec.
Context {V : Type}.
Variable out : list V.                         (* what the iterators run over *)
Variable ok : bool.                            (* what well_formed () has to say in the end *)
Variable comparable : nat -> nat -> bool.      (* which cursors the program may compare *)

(* A reference is known by the iterator it was obtained from and the value it had; it goes out of use when
   that iterator is moved, assigned to or destroyed. *)
Record reference := Reference { r_of : nat; r_value : V; r_valid : bool }.
Record cursors := Cursors { c_at : list (option nat); c_refs : list reference; c_end_reached : bool }.
Definition drop_refs (k : nat) (l : list reference) : list reference :=
  map (fun r => if Nat.eqb (r_of r) k then Reference (r_of r) (r_value r) false else r) l.
Definition cursor (c : cursors) (k : nat) : option nat := match nth_error (c_at c) k with Some (Some i) => Some i | _ => None end.

(* None: the program does something it has no right to *)
Definition cursor_step (o : op) (c : cursors) : option (cursors * list (obs V)) :=
  let add i := Cursors (c_at c ++ [Some i]) (c_refs c) (c_end_reached c) in
  match o with
  | Begin => Some (Cursors (c_at c ++ [Some 0]) (c_refs c) (c_end_reached c || Nat.eqb 0 (length out)), [])
  | End => Some (add (length out), [])
  | Copy k => match cursor c k with Some i => Some (add i, []) | None => None end
  | Assign k j =>
      match cursor c k, cursor c j with
      | Some _, Some i => Some (Cursors (put (c_at c) k (Some i)) (drop_refs k (c_refs c)) (c_end_reached c), [])
      | _, _ => None
      end
  | Inc k =>
      match cursor c k with
      | Some i => if Nat.ltb i (length out)
                  then Some (Cursors (put (c_at c) k (Some (S i))) (drop_refs k (c_refs c)) (c_end_reached c || Nat.eqb (S i) (length out)), [])
                  else None
      | None => None
      end
  | PostInc k =>
      match cursor c k with
      | Some i => if Nat.ltb i (length out)
                  then Some (Cursors (put (c_at c) k (Some (S i)) ++ [Some i]) (drop_refs k (c_refs c)) (c_end_reached c || Nat.eqb (S i) (length out)), [])
                  else None
      | None => None
      end
  | Destroy k => match cursor c k with Some _ => Some (Cursors (put (c_at c) k None) (drop_refs k (c_refs c)) (c_end_reached c), []) | None => None end
  | Deref k =>
      match cursor c k with
      | Some i => match nth_error out i with
                  | Some v => Some (Cursors (c_at c) (c_refs c ++ [Reference k v true]) (c_end_reached c), [])
                  | None => None
                  end
      | None => None
      end
  | Read r => match nth_error (c_refs c) r with Some (Reference _ v true) => Some (c, [Val v]) | _ => None end
  | Equal k j =>
      match cursor c k, cursor c j with
      | Some a, Some b => if comparable a b then Some (c, [Bool (Nat.eqb a b)]) else None
      | _, _ => None
      end
  | Flag => if ok || c_end_reached c then Some (c, [Bool ok]) else None
  end.
Fixpoint cursor_steps (ops : list op) (c : cursors) : option (list (obs V)) :=
  match ops with
  | [] => Some []
  | o :: ops' => match cursor_step o c with
                 | Some (c', x) => match cursor_steps ops' c' with Some y => Some (x ++ y) | None => None end
                 | None => None
                 end
  end.
Definition cursor_run (ops : list op) : option (list (obs V)) := cursor_steps ops (Cursors [] [] false).
End Spec.

(* The comparisons the C++ rules for an input iterator ask for: of an iterator with one at the same position,
   or with the end (n is the length of the sequence). *)
Definition same_or_end (n i j : nat) : bool := Nat.eqb i j || Nat.eqb i n || Nat.eqb j n.
(* ... and those they ask for of a forward iterator *)
Definition any_two (i j : nat) : bool := true.
