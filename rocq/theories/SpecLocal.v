(* SPECIFICATION vocabulary for C50. *)
From Verif Require Import Base SpecIcu.
Local Open Scope N_scope.

(* the ASCII characters of a text in UTF-8, UTF-16 or UTF-32 *)
Definition asciis (l : list N) : list N := filter (fun u => u <? 0x80) l.
(* the bytes do not end in the middle of a UTF-8 form *)
Definition no_incomplete_end (l : list N) : Prop := forall j p, l = j ++ p -> p <> [] -> ~ incomplete8 p.
(* the last unit is a high surrogate *)
Definition ends_high (l : list N) : Prop := exists l' a, l = l' ++ [a] /\ high_surrogate a.
