(* SPECIFICATION vocabulary for C82: when the order of decoding and resolving does not matter *)
From Verif Require Import Base ModelUri SpecPct SpecPath SpecStore.
Local Open Scope list_scope.

(* the scheme has no "%" and no character that encode would replace; so it is in every valid URI *)
Definition plain_scheme (p : parts) : Prop := forall s, p_scheme p = Some s -> Forall (fun c => ~ field_set Scheme c /\ c <> percent) s.
(* no path segment is "." or ".." in disguise ("%2E", ".%2e", ...) *)
Definition no_hidden_dots (p : parts) : Prop := forall s t, In s (segments (p_path p)) -> decodes s t -> is_dots t -> is_dots s.
