(* What the work of resolving a reference depends on. *)
From Verif Require Import Base ModelUri SpecPath ModelJoinWork.
Local Open Scope list_scope.

(* segments of the same kind: ".", "..", "" or something else *)
Definition same_kind (s t : str) : Prop := (s = dot <-> t = dot) /\ (s = dotdot <-> t = dotdot) /\ (s = [] <-> t = []).
(* URIs of the same shape: the same components are there, the paths have the same number of segments, of the same kinds *)
Definition same_there {X} (a b : option X) : Prop := a = None <-> b = None.
Definition same_shape (p q : parts) : Prop :=
  same_there (p_scheme p) (p_scheme q) /\ same_there (p_authority p) (p_authority q) /\
  absolute (p_path p) = absolute (p_path q) /\ Forall2 same_kind (segments (p_path p)) (segments (p_path q)).
(* how many segments a path has *)
Definition nsegs (p : parts) : nat := length (segments (p_path p)).
(* how many segments of a list are neither "." nor ".." *)
Inductive ordinary : list str -> nat -> Prop :=
| ord_nil : ordinary [] 0
| ord_dots s l n : is_dots s -> ordinary l n -> ordinary (s :: l) n
| ord_other s l n : ~ is_dots s -> ordinary l n -> ordinary (s :: l) (S n).
