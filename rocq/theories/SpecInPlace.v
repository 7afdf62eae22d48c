(* SPECIFICATION vocabulary for C65: the first escape of a text, and what std::copy makes of a text that it decodes into
   itself. *)
From Verif Require Import Base SpecPct.
Local Open Scope list_scope.

(* the first escape of s stands for the byte b *)
Inductive first_escape : str -> ascii -> Prop :=
| fe_here s b r : escaped_at s b r -> first_escape s b
| fe_later c s b : (forall x r, ~ escaped_at (c :: s) x r) -> first_escape s b -> first_escape (c :: s) b.

(* up to and including the first escape that stands for "%", the two digits of every escape are left behind its byte;
   after it the text is decoded *)
Inductive garbled : str -> str -> Prop :=
| gb_nil : garbled [] []
| gb_copy c s g : (forall x r, ~ escaped_at (c :: s) x r) -> garbled s g -> garbled (c :: s) (c :: g)
| gb_escape h l b r g : escaped_at ("%"%char :: h :: l :: r) b r -> b <> "%"%char -> garbled r g -> garbled ("%"%char :: h :: l :: r) (b :: h :: l :: g)
| gb_percent s r t : escaped_at s "%"%char r -> decodes r t -> garbled s ("%"%char :: t).
