(* Model of include/uri/find_last.hpp and include/uri/starts_with.hpp, generic in the element type.
   A range is a list; an iterator into it is a position 0..length.  [f x] stands for
   std::invoke (proj, x) == value. *)
From Verif Require Import Base.

Section Algo.
  Context {A : Type}.

  (* find_last.hpp:31-44  find_last_forward: the returned subrange as (begin, end) *)
  Fixpoint flf_loop (f : A -> bool) (l : list A) (first : nat) (found : option nat) : nat * option nat :=
    match l with
    | [] => (first, found)                                     (* first == last *)
    | x :: l' => flf_loop f l' (S first) (if f x then Some first else found)
    end.
  Definition find_last_forward (f : A -> bool) (l : list A) : nat * nat :=
    match flf_loop f l 0 None with
    | (first, None) => (first, first)
    | (_, Some p) => (p, length l)
    end.

  (* std::ranges::find: the position of the first element satisfying f, or the end *)
  Fixpoint ranges_find (f : A -> bool) (l : list A) : nat :=
    match l with [] => 0 | x :: l' => if f x then 0 else S (ranges_find f l') end.

  (* find_last.hpp:46-69  find_last_bidi.  The reverse iterator at distance d from rbegin has
     base () == last - d; std::prev of the first position is undefined. *)
  Definition find_last_bidi (f : A -> bool) (l : list A) : outcome (nat * nat) :=
    match l with
    | [] => Ok (0, 0)
    | _ =>
      let rb := ranges_find f (rev l) in
      let base := length l - rb in
      if Nat.eqb rb (length l) then Ok (length l, length l)      (* next (rb.base (), last) == last *)
      else match base with
           | O => Fault assert_failed
           | S p =>
             let fwd := find_last_forward f l in                  (* the asserts under !NDEBUG *)
             if Nat.eqb (fst fwd) p && Nat.eqb (snd fwd) (length l) then Ok (p, length l)
             else Fault assert_failed
           end
    end.

End Algo.

(* starts_with.hpp:36-47  std::ranges::mismatch (...).in2 == last2.  [pred a b] is
   pred (proj1 a, proj2 b). *)
Fixpoint mismatch {A B} (pred : A -> B -> bool) (l1 : list A) (l2 : list B) : nat * nat :=
  match l1, l2 with
  | a :: l1', b :: l2' => if pred a b then let (i, j) := mismatch pred l1' l2' in (S i, S j) else (0, 0)
  | _, _ => (0, 0)
  end.
Definition starts_with {A B} (pred : A -> B -> bool) (l1 : list A) (l2 : list B) : bool :=
  Nat.eqb (snd (mismatch pred l1 l2)) (length l2).
