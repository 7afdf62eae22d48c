(* SPECIFICATION: Internationalized Resource Identifiers, RFC 3987: the components of an IRI (section 2.2) and
   the URI an IRI stands for (section 3.1, with the domain name written as in RFC 3490's ToASCII, but without Nameprep).
   Texts are sequences of code points; parts hold them as UTF-8. *)
From Verif Require Import Base ModelUri Rfc3986 SpecPct SpecPuny SpecIcu SpecStore SpecHost SpecUri.
Local Open Scope list_scope.

(* RFC 3987 2.2 *)
Definition in_ranges (l : list (N * N)) (c : N) : Prop := exists a b, In (a, b) l /\ (a <= c <= b)%N.
Definition ucschar (c : N) : Prop :=
  in_ranges [(0xA0, 0xD7FF); (0xF900, 0xFDCF); (0xFDF0, 0xFFEF); (0x10000, 0x1FFFD); (0x20000, 0x2FFFD); (0x30000, 0x3FFFD); (0x40000, 0x4FFFD);
             (0x50000, 0x5FFFD); (0x60000, 0x6FFFD); (0x70000, 0x7FFFD); (0x80000, 0x8FFFD); (0x90000, 0x9FFFD); (0xA0000, 0xAFFFD);
             (0xB0000, 0xBFFFD); (0xC0000, 0xCFFFD); (0xD0000, 0xDFFFD); (0xE1000, 0xEFFFD)]%N c.
Definition iprivate (c : N) : Prop := in_ranges [(0xE000, 0xF8FF); (0xF0000, 0xFFFFD); (0x100000, 0x10FFFD)]%N c.
(* the ASCII characters that may stand for themselves *)
Definition plain_rule (f : field) : abnf :=
  match f with
  | Userinfo => (unreserved / sub_delims / Lit ":"%string)%abnf
  | Segment => (unreserved / sub_delims / Lit ":"%string / Lit "@"%string)%abnf
  | Query | Fragment => (unreserved / sub_delims / Lit ":"%string / Lit "@"%string / Lit "/"%string / Lit "?"%string)%abnf
  | Scheme | Host | Port => (unreserved / sub_delims)%abnf
  end.
Definition ichar (f : field) (c : N) : Prop :=
  (exists a, code a = c /\ L (plain_rule f) [a]) \/ ucschar c \/ (f = Query /\ iprivate c).
Definition hexdig (c : N) : Prop := exists a, code a = c /\ L HEXDIG [a].
(* iuserinfo, isegment, iquery, ifragment, ireg-name: characters and escapes *)
Inductive itext (f : field) : list N -> Prop :=
| it_nil : itext f []
| it_char c u : ichar f c -> itext f u -> itext f (c :: u)
| it_escape h l u : hexdig h -> hexdig l -> itext f u -> itext f (0x25%N :: h :: l :: u).
(* a component of an IRI, in UTF-8 *)
Definition iri_component (f : field) (s : str) : Prop :=
  match f with
  | Scheme => L scheme s
  | Port => L port s
  | Host => L host s \/ exists u, text utf8_of u (map code s) /\ itext Host u
  | _ => exists u, text utf8_of u (map code s) /\ itext f u
  end.

(* RFC 3987 3.1 step 2: what is not ASCII becomes the escapes of its UTF-8 octets.  (Some of the ASCII characters may be escaped also: "also".) *)
Inductive to_uri (also : ascii -> Prop) : list N -> str -> Prop :=
| tu_nil : to_uri also [] []
| tu_ascii a u e : (code a < 0x80)%N -> ~ also a -> to_uri also u e -> to_uri also (code a :: u) (a :: e)
| tu_also a u e : (code a < 0x80)%N -> also a -> to_uri also u e -> to_uri also (code a :: u) (escape a ++ e)
| tu_other c bs u e : (0x80 <= c)%N -> utf8_of c (map code bs) -> to_uri also u e -> to_uri also (c :: u) (flat_map escape bs ++ e).
Definition rfc3987_uri : list N -> str -> Prop := to_uri (fun _ => False).
(* the domain name, label by label *)
Definition to_domain (u : list N) (e : str) : Prop :=
  exists us es, labels dot32 u us /\ labels SpecStore.dot e es /\ Forall2 label_encoded us es.

(* the characters that encode escapes although RFC 3987 leaves them alone *)
Definition escaped_again (f : field) (c : ascii) : Prop := c = percent \/ (f = Userinfo /\ In c (ss ":;=")).
(* a component of the URI for a component of an IRI *)
Definition component_to_uri (f : field) (s e : str) : Prop :=
  exists u, text utf8_of u (map code s) /\ match f with Host => to_domain u e | _ => to_uri (escaped_again f) u e end.
(* an IRI whose parts can be told apart in its text *)
Definition iri (p : parts) : Prop := parts_all iri_component p /\ p_scheme p <> None /\ representable p.
Definition no_escapes (p : parts) : Prop := parts_all (fun _ s => ~ In percent s) p.
(* the host does not begin with an IPv4 address (or is one), and no label begins with "xn--" *)
Definition ordinary_host (p : parts) : Prop :=
  forall a, p_authority p = Some a -> host_unambiguous (ModelUri.host a) /\ forall ls l, labels SpecStore.dot (ModelUri.host a) ls -> In l ls -> ~ has_prefix xn l.
