(* SPECIFICATION vocabulary for C85: texts that differ in the case of letters only *)
From Verif Require Import Base ModelUri Rfc3986 SpecPct SpecStore.
Local Open Scope list_scope.

(* the same letter, in upper or in lower case (RFC 5234 2.3: only the letters A-Z have a case), or the same character *)
Definition same_letter (a b : ascii) : Prop := lower a = lower b.
Definition same_text (s t : str) : Prop := Forall2 same_letter s t.
(* the same components, each but for the case of letters *)
Definition same_parts (p q : parts) : Prop := parts_rel (fun _ => same_text) p q.
(* two calls end alike: both return, and what they return is related; or both run into the same undefined behaviour; or
   neither returns *)
Inductive same_answer {A} (R : A -> A -> Prop) : outcome A -> outcome A -> Prop :=
| both_return a b : R a b -> same_answer R (Ok a) (Ok b)
| both_fault e : same_answer R (Fault e) (Fault e)
| both_diverge : same_answer R Diverge Diverge.
(* both succeed, and with related results; or both report the same error *)
Definition sum_rel {A E} (R : A -> A -> Prop) (x y : A + E) : Prop :=
  match x, y with inl a, inl b => R a b | inr e, inr e' => e = e' | _, _ => False end.
(* two texts that differ in the case of the digits of their escapes only (RFC 3986 2.1: "%3A" and "%3a" are equivalent) *)
Inductive same_escapes : str -> str -> Prop :=
| se_nil : same_escapes [] []
| se_char c s t : same_escapes s t -> same_escapes (c :: s) (c :: t)
| se_escape a b a' b' s t : hexval a <> None -> hexval b <> None -> same_letter a a' -> same_letter b b' -> same_escapes s t ->
    same_escapes (percent :: a :: b :: s) (percent :: a' :: b' :: t).
(* the same for code points *)
Definition lower_point (c : N) : N := if (65 <=? c)%N && (c <=? 90)%N then (c + 32)%N else c.
Definition same_points (u v : list N) : Prop := Forall2 (fun a b => lower_point a = lower_point b) u v.
(* the labels of the two texts begin with "xn--" (in lower case) in the same places *)
Definition same_marks (s t : str) : Prop := forall ls ms, labels dot s ls -> labels dot t ms -> Forall2 (fun x y => has_prefix xn x <-> has_prefix xn y) ls ms.
Definition same_host_marks (p q : parts) : Prop :=
  forall a b, p_authority p = Some a -> p_authority q = Some b -> same_marks (ModelUri.host a) (ModelUri.host b).
