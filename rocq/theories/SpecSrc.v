(* What it means that a source fails, for C79: the operations a program makes on it are numbered from 0, and [fails k] says
   whether operation k throws. *)
From Verif Require Import Base.
(* it throws for the first time at operation m *)
Definition first_failure (fails : nat -> bool) (m : nat) : Prop := fails m = true /\ forall j, j < m -> fails j = false.
(* it does not throw any more from operation K on *)
Definition recovers (fails : nat -> bool) (K : nat) : Prop := forall n, K <= n -> fails n = false.
