(* SPECIFICATION vocabulary for C63 and C64: where a reference can lead, told from the texts alone. *)
From Verif Require Import Base Rfc3986 SpecPath.
Local Open Scope list_scope.

(* the characters that end an authority *)
Definition ender (c : ascii) : Prop := In c (ss "/?#").
Definition ends (s : str) : Prop := s = [] \/ exists c r, s = c :: r /\ ender c.

(* s begins with scheme "://" authority, and o is that beginning: "http://h:80/a?b" begins with "http://h:80" *)
Definition origin_of (sch au : str) : str := sch ++ ss "://" ++ au.
Definition origin (s o : str) : Prop :=
  exists sch au rest, o = origin_of sch au /\ s = o ++ rest
    /\ Forall (fun c => c <> ":"%char /\ ~ ender c) sch /\ Forall (fun c => ~ ender c) au /\ ends rest.

(* a reference that names neither scheme nor authority: there is no ":" before the first "/", "?" or "#", and it
   does not begin with "//" *)
Definition local_reference (ref : str) : Prop :=
  (forall x r, ref = x ++ ss ":" ++ r -> exists c, In c x /\ ender c) /\ (forall r, ref <> ss "//" ++ r).

(* a list of segments read one after the other never leads above where it starts; k is what is left of it *)
Inductive inside : list str -> list str -> Prop :=
| in_nil : inside [] []
| in_dot l k : inside l k -> inside (l ++ [dot]) k
| in_dotdot l k x : inside l (k ++ [x]) -> inside (l ++ [dotdot]) k
| in_seg l k x : x <> dot -> x <> dotdot -> inside l k -> inside (l ++ [x]) (k ++ [x]).
(* ... and that begins with a path segment: not with "/", "?" or "#", and not empty *)
Definition starts_with_segment (ref : str) : Prop := exists c r, ref = c :: r /\ ~ ender c.
