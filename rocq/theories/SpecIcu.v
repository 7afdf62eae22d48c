(* SPECIFICATION: Unicode encoding forms (The Unicode Standard, chapter 3.9), over plain numbers.
   Nothing here refers to the model. *)
From Verif Require Import Base.
Local Open Scope N_scope.
Local Open Scope list_scope.

(* D76: a Unicode scalar value is a code point that is not a surrogate *)
Definition scalar (c : N) : Prop := c < 0xD800 \/ (0xE000 <= c /\ c < 0x110000).
Definition high_surrogate (u : N) : Prop := 0xD800 <= u /\ u < 0xDC00.
Definition low_surrogate (u : N) : Prop := 0xDC00 <= u /\ u < 0xE000.
Definition fffd : N := 0xFFFD.

(* D92 and table 3-6: the UTF-8 form of a scalar value *)
Inductive utf8_of : N -> list N -> Prop :=
| utf8_1 c : c < 0x80 -> utf8_of c [c]
| utf8_2 c : 0x80 <= c -> c < 0x800 -> utf8_of c [0xC0 + c / 2 ^ 6; 0x80 + c mod 2 ^ 6]
| utf8_3 c : 0x800 <= c -> c < 0x10000 -> scalar c ->
    utf8_of c [0xE0 + c / 2 ^ 12; 0x80 + c / 2 ^ 6 mod 2 ^ 6; 0x80 + c mod 2 ^ 6]
| utf8_4 c : 0x10000 <= c -> c < 0x110000 ->
    utf8_of c [0xF0 + c / 2 ^ 18; 0x80 + c / 2 ^ 12 mod 2 ^ 6; 0x80 + c / 2 ^ 6 mod 2 ^ 6; 0x80 + c mod 2 ^ 6].
(* D91 and table 3-5: the UTF-16 form *)
Inductive utf16_of : N -> list N -> Prop :=
| utf16_1 c : c < 0x10000 -> scalar c -> utf16_of c [c]
| utf16_2 c : 0x10000 <= c -> c < 0x110000 ->
    utf16_of c [0xD800 + (c - 0x10000) / 2 ^ 10; 0xDC00 + (c - 0x10000) mod 2 ^ 10].
(* D90: the UTF-32 form *)
Inductive utf32_of : N -> list N -> Prop :=
| utf32_1 c : scalar c -> utf32_of c [c].

(* D85, D86: well-formed text, the forms of its scalar values one after the other *)
Inductive text (form : N -> list N -> Prop) : list N -> list N -> Prop :=
| text_nil : text form [] []
| text_cons c w cs us : form c w -> text form cs us -> text form (c :: cs) (w ++ us).

(* table 3-7: well-formed UTF-8 byte sequences *)
Definition between (a b x : N) : Prop := a <= x /\ x <= b.
Inductive table_3_7 : list N -> Prop :=
| row1 a : between 0x00 0x7F a -> table_3_7 [a]
| row2 a b : between 0xC2 0xDF a -> between 0x80 0xBF b -> table_3_7 [a; b]
| row3 b c : between 0xA0 0xBF b -> between 0x80 0xBF c -> table_3_7 [0xE0; b; c]
| row4 a b c : between 0xE1 0xEC a -> between 0x80 0xBF b -> between 0x80 0xBF c -> table_3_7 [a; b; c]
| row5 b c : between 0x80 0x9F b -> between 0x80 0xBF c -> table_3_7 [0xED; b; c]
| row6 a b c : between 0xEE 0xEF a -> between 0x80 0xBF b -> between 0x80 0xBF c -> table_3_7 [a; b; c]
| row7 b c d : between 0x90 0xBF b -> between 0x80 0xBF c -> between 0x80 0xBF d -> table_3_7 [0xF0; b; c; d]
| row8 a b c d : between 0xF1 0xF3 a -> between 0x80 0xBF b -> between 0x80 0xBF c -> between 0x80 0xBF d -> table_3_7 [a; b; c; d]
| row9 b c d : between 0x80 0x8F b -> between 0x80 0xBF c -> between 0x80 0xBF d -> table_3_7 [0xF4; b; c; d].

(* --- reading any sequence of code units: the scalar values it stands for, U+FFFD in place of what is
   ill-formed, and whether all of it was well-formed ------------------------------------------------- *)

(* some, but not all, of the UTF-8 form of a scalar value *)
Definition incomplete8 (p : list N) : Prop := exists c v, v <> [] /\ utf8_of c (p ++ v).
(* UTF-8: an ill-formed piece is a (possibly empty) incomplete form together with the first byte that
   cannot continue it, or an incomplete form at the end of the input *)
Inductive reads8 : list N -> list N -> bool -> Prop :=
| r8_nil : reads8 [] [] true
| r8_good c w us cs ok : utf8_of c w -> reads8 us cs ok -> reads8 (w ++ us) (c :: cs) ok
| r8_bad p b us cs ok :
    p = [] \/ incomplete8 p ->
    ~ incomplete8 (p ++ [b]) -> ~ (exists c, utf8_of c (p ++ [b])) ->
    reads8 us cs ok -> reads8 (p ++ b :: us) (fffd :: cs) false
| r8_truncated p : p <> [] -> incomplete8 p -> reads8 p [fffd] false.

(* UTF-16: every surrogate that is not part of a pair is ill-formed by itself *)
Definition starts_low (us : list N) : Prop := exists u r, us = u :: r /\ low_surrogate u.
Inductive reads16 : list N -> list N -> bool -> Prop :=
| r16_nil : reads16 [] [] true
| r16_good c w us cs ok : utf16_of c w -> reads16 us cs ok -> reads16 (w ++ us) (c :: cs) ok
| r16_low u us cs ok : low_surrogate u -> reads16 us cs ok -> reads16 (u :: us) (fffd :: cs) false
| r16_high u us cs ok : high_surrogate u -> ~ starts_low us -> reads16 us cs ok -> reads16 (u :: us) (fffd :: cs) false.

(* UTF-32 *)
Inductive reads32 : list N -> list N -> bool -> Prop :=
| r32_nil : reads32 [] [] true
| r32_good c us cs ok : scalar c -> reads32 us cs ok -> reads32 (c :: us) (c :: cs) ok
| r32_bad c us cs ok : ~ scalar c -> reads32 us cs ok -> reads32 (c :: us) (fffd :: cs) false.

(* The Unicode Standard's practice for UTF-8 (U+FFFD substitution of maximal subparts): the byte that
   cannot continue an incomplete form is not part of the ill-formed piece *)
Inductive reads8_maximal : list N -> list N -> Prop :=
| m8_nil : reads8_maximal [] []
| m8_good c w us cs : utf8_of c w -> reads8_maximal us cs -> reads8_maximal (w ++ us) (c :: cs)
| m8_subpart p us cs : p <> [] -> incomplete8 p ->
    (forall b r, us = b :: r -> ~ incomplete8 (p ++ [b]) /\ ~ exists c, utf8_of c (p ++ [b])) ->
    reads8_maximal us cs -> reads8_maximal (p ++ us) (fffd :: cs)
| m8_byte b us cs : ~ incomplete8 [b] -> ~ (exists c, utf8_of c [b]) ->
    reads8_maximal us cs -> reads8_maximal (b :: us) (fffd :: cs).

(* --- byte order marks ------------------------------------------------------------------------------------ *)
(* code units from bytes; what is left over at the end does not make a unit *)
Fixpoint units16 (unit : N -> N -> N) (bs : list N) : list N :=
  match bs with a :: b :: r => unit a b :: units16 unit r | _ => [] end.
Fixpoint units32 (unit : N -> N -> N -> N -> N) (bs : list N) : list N :=
  match bs with a :: b :: c :: d :: r => unit a b c d :: units32 unit r | _ => [] end.
Definition be16 (a b : N) : N := a * 2 ^ 8 + b.
Definition le16 (a b : N) : N := b * 2 ^ 8 + a.
Definition be32 (a b c d : N) : N := a * 2 ^ 24 + b * 2 ^ 16 + c * 2 ^ 8 + d.
Definition le32 (a b c d : N) : N := d * 2 ^ 24 + c * 2 ^ 16 + b * 2 ^ 8 + a.
Definition bom8 : list N := [0xEF; 0xBB; 0xBF].
Definition bom16be : list N := [0xFE; 0xFF].
Definition bom16le : list N := [0xFF; 0xFE].
Definition bom32be : list N := [0x00; 0x00; 0xFE; 0xFF].
Definition bom32le : list N := [0xFF; 0xFE; 0x00; 0x00].
Definition all_boms : list (list N) := [bom8; bom16be; bom16le; bom32be; bom32le].
Definition prefix_of (a b : list N) : Prop := exists c, b = a ++ c.

(* what a sequence of bytes stands for: the byte order mark, if there is one, says how to read the rest;
   without one it is UTF-8.  FF FE 00 00 is the mark of UTF-32LE, not that of UTF-16LE. *)
Inductive reads_bytes : list N -> list N -> bool -> Prop :=
| rb_8 r cs ok : reads8 r cs ok -> reads_bytes (bom8 ++ r) cs ok
| rb_16be r cs ok : reads16 (units16 be16 r) cs ok -> reads_bytes (bom16be ++ r) cs ok
| rb_16le r cs ok : ~ prefix_of bom32le (bom16le ++ r) ->
    reads16 (units16 le16 r) cs ok -> reads_bytes (bom16le ++ r) cs ok
| rb_32be r cs ok : reads32 (units32 be32 r) cs ok -> reads_bytes (bom32be ++ r) cs ok
| rb_32le r cs ok : reads32 (units32 le32 r) cs ok -> reads_bytes (bom32le ++ r) cs ok
| rb_plain l cs ok : (forall m, In m all_boms -> ~ prefix_of m l) -> reads8 l cs ok -> reads_bytes l cs ok.

(* the three kinds of input on which icubaby departs from reads_bytes:
   the input ends within a byte order mark (the whole mark of UTF-16LE counts: it begins that of UTF-32LE) *)
Definition ends_in_bom (l : list N) : Prop := l <> [] /\ exists m c, In m all_boms /\ c <> [] /\ m = l ++ c.
(* UTF-16LE text whose first code unit is a multiple of 256 (other than U+0000) *)
Definition le16_then_zero (l : list N) : Prop := exists b r, b <> 0 /\ l = bom16le ++ 0 :: b :: r.
(* UTF-32LE text with a code unit of 2^24 or more *)
Definition le32_large (l : list N) : Prop := exists r u, l = bom32le ++ r /\ In u (units32 le32 r) /\ 2 ^ 24 <= u.
