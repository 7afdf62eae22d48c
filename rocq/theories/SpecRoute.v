(* SPECIFICATION vocabulary for C60-C62: the three encoding forms, transcoders between any two of them, how much room a
   transcoded text needs, and the order of texts.  From the model only the names of the nine transcoders. *)
From Verif Require Import Base ModelIcu SpecIcu.
Local Open Scope N_scope.
Local Open Scope list_scope.

Inductive enc := U8 | U16 | U32.
(* the transcoder from a to b, icubaby.hpp: t8_16, say, is transcoder<char8, char16_t> *)
Definition tc (a b : enc) : tcdr :=
  match a, b with
  | U8, U8 => t8_8 | U8, U16 => t8_16 | U8, U32 => t8_32
  | U16, U8 => t16_8 | U16, U16 => t16_16 | U16, U32 => t16_32
  | U32, U8 => t32_8 | U32, U16 => t32_16 | U32, U32 => t32_32
  end.
(* values of the type of the code units *)
Definition bits (a : enc) : N := match a with U8 => 8 | U16 => 16 | U32 => 32 end.
Definition units (a : enc) (l : list N) : Prop := Forall (fun u => u < 2 ^ bits a) l.
Definition form (a : enc) : N -> list N -> Prop := match a with U8 => utf8_of | U16 => utf16_of | U32 => utf32_of end.

(* n units of a become at most most a b * n units of b; and k units of b come from at most
   (num / den) * k units of a *)
Definition most (a b : enc) : nat :=
  match a, b with
  | U8, U8 => 3 | U8, U16 => 1 | U8, U32 => 1
  | U16, U8 => 3 | U16, U16 => 1 | U16, U32 => 1
  | U32, U8 => 4 | U32, U16 => 2 | U32, U32 => 1
  end.
Definition least (a b : enc) : nat * nat :=
  match a, b with
  | U8, U8 => (4, 3) | U8, U16 => (4, 1) | U8, U32 => (4, 1)
  | U16, U8 => (1, 1) | U16, U16 => (1, 1) | U16, U32 => (2, 1)
  | U32, _ => (1, 1)
  end%nat.

(* l comes before m: the lexicographic order of the dictionary *)
Inductive before : list N -> list N -> Prop :=
| bf_nil a l : before [] (a :: l)
| bf_less a b l m : a < b -> before (a :: l) (b :: m)
| bf_same a l m : before l m -> before (a :: l) (a :: m).
