(* SPECIFICATION for destinations that throw: which of the units offered are received. *)
From Verif Require Import Base.
Local Open Scope list_scope.

(* of the units l, offered one after the other, assignment number n being the first: those not refused *)
Fixpoint kept (refuses : nat -> bool) (n : nat) (l : list N) : list N :=
  match l with
  | [] => []
  | u :: l' => if refuses n then kept refuses (S n) l' else u :: kept refuses (S n) l'
  end.
(* how many of the assignments n, n + 1, ..., n + k - 1 are refused *)
Fixpoint refusals (refuses : nat -> bool) (n k : nat) : nat :=
  match k with O => O | S k' => (if refuses n then 1 else 0) + refusals refuses (S n) k' end.
(* assignment number k is refused, and none before it *)
Definition first_refused (refuses : nat -> bool) (k : nat) : Prop := refuses k = true /\ forall i, i < k -> refuses i = false.
