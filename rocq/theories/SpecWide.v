(* SPECIFICATION of percent-encoding for characters of any width, given by their numbers. *)
From Verif Require Import Base SpecPct.
Local Open Scope N_scope.

Definition cp (c : ascii) : N := code c.
(* a hexadecimal digit *)
Definition digit_value (u v : N) : Prop := exists c, u = cp c /\ hexval c = Some v.
(* s begins with an escape for the number b *)
Definition escaped_wide (s : list N) (b : N) (rest : list N) : Prop :=
  exists h l x y, s = cp "%" :: h :: l :: rest /\ digit_value h x /\ digit_value l y /\ b = 16 * x + y.
Inductive decodes_wide : list N -> list N -> Prop :=
| dw_nil : decodes_wide [] []
| dw_escape s b rest t : escaped_wide s b rest -> decodes_wide rest t -> decodes_wide s (b :: t)
| dw_copy c s t : (forall b rest, ~ escaped_wide (c :: s) b rest) -> decodes_wide s t -> decodes_wide (c :: s) (c :: t).
