(* SPECIFICATION: what can be said of the first part of a text (C70).  Nothing here refers to the model. *)
From Verif Require Import Base SpecIcu.
Local Open Scope N_scope.
Local Open Scope list_scope.

(* well-formed text can begin with these code units *)
Definition begins (form : N -> list N -> Prop) (l : list N) : Prop := exists more cs, text form cs (l ++ more).
(* the same for bytes, which may begin with a byte order mark and are read in whole code units *)
Inductive begins_bytes : list N -> Prop :=
| bb_mark l : l = [] \/ ends_in_bom l -> begins_bytes l
| bb_8 r : begins utf8_of r -> begins_bytes (bom8 ++ r)
| bb_16be r : begins utf16_of (units16 be16 r) -> begins_bytes (bom16be ++ r)
| bb_16le r : ~ prefix_of bom32le (bom16le ++ r) -> begins utf16_of (units16 le16 r) -> begins_bytes (bom16le ++ r)
| bb_32be r : begins utf32_of (units32 be32 r) -> begins_bytes (bom32be ++ r)
| bb_32le r : begins utf32_of (units32 le32 r) -> begins_bytes (bom32le ++ r)
| bb_plain l : (forall m, In m all_boms -> ~ prefix_of m l) -> begins utf8_of l -> begins_bytes l.
