(* SPECIFICATION of percent-encoding, from RFC 3986 2.1 and the WHATWG URL standard 1.3 (not from the code). *)
From Verif Require Import Base Rfc3986.

(* HEXDIG values (RFC 3986 2.1, either case) *)
Fixpoint index_of (c : ascii) (l : str) : option N :=
  match l with
  | [] => None
  | x :: l' => if Ascii.eqb c x then Some 0%N else option_map N.succ (index_of c l')
  end.
Definition hexval (c : ascii) : option N :=
  match index_of c (ss "0123456789ABCDEF") with Some n => Some n | None => index_of c (ss "0123456789abcdef") end.
Definition upper_hex (n : N) : ascii := nth (N.to_nat n) (ss "0123456789ABCDEF") "0"%char.

(* "%" and the two upper-case hexadecimal digits of a byte *)
Definition escape (c : ascii) : str := ["%"%char; upper_hex (code c / 16); upper_hex (code c mod 16)].

(* s begins with an escape for the byte b, followed by rest *)
Definition escaped_at (s : str) (b : ascii) (rest : str) : Prop :=
  exists h l x y, s = "%"%char :: h :: l :: rest /\ hexval h = Some x /\ hexval l = Some y /\ b = chr (16 * x + y).

(* left-to-right decoding; anything that is not an escape is copied *)
Inductive decodes : str -> str -> Prop :=
| dec_nil : decodes [] []
| dec_escape s b rest t : escaped_at s b rest -> decodes rest t -> decodes s (b :: t)
| dec_copy c s t : (forall b rest, ~ escaped_at (c :: s) b rest) -> decodes s t -> decodes (c :: s) (c :: t).

(* encoding by a set of bytes *)
Inductive encodes (member : ascii -> Prop) : str -> str -> Prop :=
| enc_nil : encodes member [] []
| enc_escape c s t : member c -> encodes member s t -> encodes member (c :: s) (escape c ++ t)
| enc_copy c s t : ~ member c -> encodes member s t -> encodes member (c :: s) (c :: t).

(* WHATWG URL 1.3 percent-encode sets.  (The path set is that of the standard until 2023; it then gained "^".) *)
Definition one_of (l : string) (c : ascii) : Prop := In c (ss l).
Definition c0_control_set (c : ascii) : Prop := (code c <= 0x1F)%N \/ (code c > 0x7E)%N.
Definition backquote : ascii := chr 0x60.
Definition dquote : ascii := chr 0x22.
Definition fragment_set c := c0_control_set c \/ one_of " <>" c \/ c = dquote \/ c = backquote.
Definition query_set c := c0_control_set c \/ one_of " #<>" c \/ c = dquote.
Definition special_query_set c := query_set c \/ one_of "'" c.
Definition path_set c := query_set c \/ one_of "?{}" c \/ c = backquote.
Definition userinfo_set c := path_set c \/ one_of "/:;=@[\]^|" c.
Definition component_set c := userinfo_set c \/ one_of "$%&+," c.
Definition form_urlencoded_set c := component_set c \/ one_of "!'()~" c.

Definition percent : ascii := "%"%char.
