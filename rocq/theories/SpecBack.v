(* SPECIFICATION: the IRI that a URI stands for, RFC 3987 section 3.2, for a component in ASCII: an escape is converted if it is one of those of a character
   that may appear there (the unreserved ones of ASCII, and those of section 2.2 beyond ASCII); the others ("%", the reserved and the forbidden characters, what is
   not UTF-8, private characters outside a query) are kept as they are.  k counts what is kept. *)
From Verif Require Import Base Rfc3986 SpecPct SpecIcu SpecStore SpecIri.
Local Open Scope list_scope.

Definition shown (f : field) (c : N) : Prop :=
  (exists a, code a = c /\ L unreserved [a]) \/ ucschar c \/ (f = Query /\ iprivate c).
(* e begins with the escapes of the octets bs, then comes rest *)
Inductive escapes : str -> str -> str -> Prop :=
| esc_nil e : escapes e [] e
| esc_cons e b r bs rest : escaped_at e b r -> escapes r bs rest -> escapes e (b :: bs) rest.
(* e begins with the escapes of a character that may appear *)
Definition convertible (f : field) (e : str) (c : N) (rest : str) : Prop :=
  shown f c /\ exists bs, utf8_of c (map code bs) /\ escapes e bs rest.
Inductive from_uri (f : field) : str -> list N -> nat -> Prop :=
| fu_nil : from_uri f [] [] 0
| fu_char c e u k : (forall b rest, ~ escaped_at (c :: e) b rest) -> from_uri f e u k -> from_uri f (c :: e) (code c :: u) k
| fu_convert e c rest u k : convertible f e c rest -> from_uri f rest u k -> from_uri f e (c :: u) k
| fu_keep h l rest b u k : escaped_at (percent :: h :: l :: rest) b rest -> (forall c r, ~ convertible f (percent :: h :: l :: rest) c r) ->
    from_uri f rest u k -> from_uri f (percent :: h :: l :: rest) (code percent :: code h :: code l :: u) (S k).
