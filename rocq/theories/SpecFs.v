(* SPECIFICATION of the two forms of a path: texts joined by "/". *)
From Verif Require Import Base SpecStore.
Local Open Scope list_scope.

Definition slash : ascii := "/"%char.
(* the texts of a list with "/" between them *)
Definition slashed (l : list str) : str := match l with [] => [] | s :: l' => joined slash s l' end.
Definition slash_free (l : list str) : Prop := Forall (fun s => ~ In slash s) l.
Definition nonempty (s : str) : bool := match s with [] => false | _ => true end.
(* the last of a list is the empty text *)
Definition ends_empty (l : list str) : Prop := exists l', l = l' ++ [[]].
