(* SPECIFICATION for C58: escapes and cuts. *)
From Verif Require Import Base SpecPct.

Definition hexadecimal (c : ascii) : Prop := exists x, hexval c = Some x.
(* between s and t runs a cut that has one part of an escape on its left and the rest on its right *)
Definition cut_in_escape (s t : str) : Prop :=
  exists before h l after, hexadecimal h /\ hexadecimal l /\ (s = before ++ [percent] /\ t = h :: l :: after \/ s = before ++ [percent; h] /\ t = l :: after).
(* somewhere in s there is an escape *)
Definition has_escape (s : str) : Prop := exists before h l after, hexadecimal h /\ hexadecimal l /\ s = before ++ percent :: h :: l :: after.
