(* Model of programs that use several iterators of one class: copies, assignments, increments, references
   obtained from operator*, comparisons, in any order.  An iterator is an object with an identity; a
   reference may point into the underlying range or into the iterator object it came from.  The classes
   modelled are uri::pctdecode_iterator / uri::pctdecode_view::iterator and icubaby::transcode_view::iterator. *)
From Verif Require Import Base ModelPct ModelIcu.
Local Open Scope list_scope.

(* where a reference returned by operator* points *)
Inductive place := InRange (offset : nat) | InObject (slot : nat).

(* what a class of iterators offers; [bool] is the view's mutable flag well_formed_ *)
Record iclass (V : Type) := IClass {
  ic_it : Type;
  ic_begin : bool -> outcome (ic_it * bool);
  ic_end : ic_it;
  ic_next : ic_it -> bool -> outcome (ic_it * bool);
  ic_deref : ic_it -> outcome (ic_it * place);      (* operator* const: mutable members may change *)
  ic_inside : ic_it -> nat -> outcome V;            (* the value in a slot of the object *)
  ic_range : nat -> outcome V;                      (* the value at an offset of the underlying range *)
  ic_eq : ic_it -> ic_it -> bool }.
Arguments ic_it {V}. Arguments ic_begin {V}. Arguments ic_end {V}. Arguments ic_next {V}. Arguments ic_deref {V}.
Arguments ic_inside {V}. Arguments ic_range {V}. Arguments ic_eq {V}.

(* One step of a program.  Objects and references are numbered in the order in which they come about. *)
Inductive op :=
| Begin                      (* auto it = view.begin () *)
| End                        (* auto it = view.end () *)
| Copy (k : nat)             (* auto it = it_k *)
| Assign (k j : nat)         (* it_k = it_j *)
| Inc (k : nat)              (* ++it_k *)
| PostInc (k : nat)          (* auto it = it_k++ *)
| Destroy (k : nat)          (* the end of the lifetime of it_k *)
| Deref (k : nat)            (* auto const& r = *it_k *)
| Read (r : nat)             (* the value of r *)
| Equal (k j : nat)          (* it_k == it_j *)
| Flag.                      (* view.well_formed () *)
Inductive obs (V : Type) := Val (v : V) | Bool (b : bool).
Arguments Val {V}. Arguments Bool {V}.

Fixpoint put {A} (l : list A) (k : nat) (a : A) : list A :=
  match l, k with
  | [], _ => []
  | _ :: l', O => a :: l'
  | x :: l', S k => x :: put l' k a
  end.

Section Machine.
Context {V : Type}.
Variable C : iclass V.
Record machine := Machine { m_objs : list (option (ic_it C)); m_refs : list (nat * place); m_flag : bool }.

(* use of an object outside its lifetime is undefined *)
Definition object (m : machine) (k : nat) : outcome (ic_it C) :=
  match nth_error (m_objs m) k with Some (Some it) => Ok it | _ => Fault dangling_view end.
Definition fresh (m : machine) (it : ic_it C) (flag : bool) : machine := Machine (m_objs m ++ [Some it]) (m_refs m) flag.
Definition store (m : machine) (k : nat) (it : option (ic_it C)) (flag : bool) : machine := Machine (put (m_objs m) k it) (m_refs m) flag.

Definition step (o : op) (m : machine) : outcome (machine * list (obs V)) :=
  match o with
  | Begin => do (it, fl) <- ic_begin C (m_flag m); Ok (fresh m it fl, [])
  | End => Ok (fresh m (ic_end C) (m_flag m), [])
  | Copy k => do it <- object m k; Ok (fresh m it (m_flag m), [])
  | Assign k j => do _ <- object m k; do it <- object m j; Ok (store m k (Some it) (m_flag m), [])
  | Inc k => do it <- object m k; do (it', fl) <- ic_next C it (m_flag m); Ok (store m k (Some it') fl, [])
  (* auto old = *this; ++*this; return old;  pctdecode.hpp:170-174, 279-283, icubaby.hpp:2115-2119 *)
  | PostInc k => do it <- object m k; do (it', fl) <- ic_next C it (m_flag m); Ok (fresh (store m k (Some it') fl) it fl, [])
  | Destroy k => do _ <- object m k; Ok (store m k None (m_flag m), [])
  | Deref k =>
      do it <- object m k; do (it', p) <- ic_deref C it;
      Ok (Machine (put (m_objs m) k (Some it')) (m_refs m ++ [(k, p)]) (m_flag m), [])
  | Read r =>
      match nth_error (m_refs m) r with
      | Some (_, InRange i) => do v <- ic_range C i; Ok (m, [Val v])
      | Some (k, InObject j) => do it <- object m k; do v <- ic_inside C it j; Ok (m, [Val v])
      | None => Fault dangling_view
      end
  | Equal k j => do a <- object m k; do b <- object m j; Ok (m, [Bool (ic_eq C a b)])
  | Flag => Ok (m, [Bool (m_flag m)])
  end.
Fixpoint steps (ops : list op) (m : machine) : outcome (list (obs V)) :=
  match ops with
  | [] => Ok []
  | o :: ops' => do (m', x) <- step o m; do y <- steps ops' m'; Ok (x ++ y)
  end.
Definition run (ops : list op) : outcome (list (obs V)) := steps ops (Machine [] [] true).
End Machine.

(* --- pctdecode_iterator (pctdecode.hpp:250-289) and pctdecode_view::iterator (126-203): pos_ and the mutable
   hex_.  end_ (or parent_->base_) is the end of s; the flag is not used. *)
Record pit := Pit { i_pos : nat; i_hex : ascii }.
Section Pct.
Variable s : str.
Definition char_at (i : nat) : outcome ascii := match nth_error s i with Some c => Ok c | None => Fault assert_failed end.
(* pctdecode.hpp:60-74 increment (pos, end): the new position *)
Definition pit_next (it : pit) (fl : bool) : outcome (pit * bool) :=
  let pos := i_pos it in
  let remaining := length s - pos in
  if Nat.eqb remaining 0 then Fault assert_failed
  else
    do c <- char_at pos;
    do three <- (if (3 <=? remaining)%nat && Ascii.eqb c "%" then
                   do h <- char_at (pos + 1); do l <- char_at (pos + 2); Ok (negb (either_bad (hex2dec h) (hex2dec l)))
                 else Ok false);
    Ok (Pit (pos + if three then 3 else 1) (i_hex it), fl).
(* pctdecode.hpp:76-91 deref: a reference to *pos, or to hex_ after storing the decoded value there *)
Definition pit_deref (it : pit) : outcome (pit * place) :=
  let pos := i_pos it in
  do c <- char_at pos;
  if negb (Ascii.eqb c "%") || (length s - pos <? 3)%nat then Ok (it, InRange pos)
  else
    do h <- char_at (pos + 1); do l <- char_at (pos + 2);
    let nhi := hex2dec h in
    let nlo := hex2dec l in
    if either_bad nhi nlo then Ok (it, InRange pos)
    else Ok (Pit pos (chr (N.lor (N.land (N.shiftl nhi 4) 255) nlo)), InObject 0).
(* begin and end: pctdecode.hpp:117-126, 291-299; ==: 176-180, 264-268 (end_ is the same for all of them) *)
Definition pct_class : iclass ascii :=
  IClass ascii pit (fun fl => Ok (Pit 0 (chr 0), fl)) (Pit (length s) (chr 0)) pit_next pit_deref
    (fun it _ => Ok (i_hex it)) char_at (fun a b => Nat.eqb (i_pos a) (i_pos b)).
(* *it = c for an iterator of pctdecode_view over a range of char that can be written to (128-203): what the
   range holds afterwards; hex_ takes the write when the reference is to it *)
Definition pit_write (it : pit) (c : ascii) : outcome str :=
  do (_, p) <- pit_deref it;
  match p with InRange i => Ok (put s i c) | InObject _ => Ok s end.
(* pctdecode.hpp:190-197 iter_swap (x, y): std::ranges::iter_swap (x.pos_, y.pos_) *)
Definition pit_swap (x y : pit) : outcome str :=
  do a <- char_at (i_pos x); do b <- char_at (i_pos y); Ok (put (put s (i_pos x) b) (i_pos y) a).
End Pct.

(* --- transcode_view::iterator (icubaby.hpp:2070-2180), with the operations of ModelIcu.v *)
Section View.
Variable T : tcdr.
Variable cap : nat.
Variable base : list N.
(* icubaby.hpp:2103 operator* with state::front (2139-2142): a reference to out_[first_] *)
Definition vit_deref (it : vit T) : outcome (vit T * place) :=
  if (v_first T it =? v_last T it)%N then Fault assert_failed else Ok (it, InObject (N.to_nat (v_first T it))).
(* a slot of out_; only the part that has been written is modelled *)
Definition vit_inside (it : vit T) (j : nat) : outcome N :=
  match nth_error (v_out T it) j with Some u => Ok u | None => Fault assert_failed end.
(* end(): icubaby.hpp:2088-2096 for the end of the base, no fill; ==: 2121-2125 (all have the same parent_) *)
Definition view_class : iclass N :=
  IClass N (vit T) (vbegin T cap base (length base)) (Vit T (length base) (length base) [] (tc_init T) 0 0)
    (vnext T cap base (length base)) vit_deref vit_inside (fun _ => Fault assert_failed)
    (fun a b => Nat.eqb (v_current T a) (v_current T b)).
End View.

(* --- where an iterator of a transcode view is in the input --- *)
Section At.
Variable T : tcdr.
Variable cap : nat.
Variable base : list N.
(* icubaby.hpp:2098-2101 base (): the offset in the input of the iterator it returns *)
Definition vit_base (it : vit T) : nat := v_current T it.
(* auto it = view.begin (); then i times ++it *)
Fixpoint view_at (i : nat) : outcome (vit T) :=
  match i with
  | O => do (it, _) <- vbegin T cap base (length base) true; Ok it
  | S i => do it <- view_at i; do (it', _) <- vnext T cap base (length base) it true; Ok it'
  end.
End At.
