(* Model of lib/uri/punycode.cpp and of the error codes of include/uri/punycode.hpp: what a caller can ask of
   the std::error_code that punycode::decode and uri::decode return. *)
From Verif Require Import Base.
From Verif Require ModelPuny.
Local Open Scope list_scope.

(* punycode.hpp:37-41  enum class decode_error_code : int.  The value as an int; ModelPuny.derr has the two
   that decode returns. *)
Inductive decode_error_code := none | bad_input | overflow.
Definition to_int (e : decode_error_code) : Z := match e with none => 0 | bad_input => 1 | overflow => 2 end.

(* The categories a caller can meet: the function-local static of make_error_code, of which there is one
   (punycode.cpp:32), and std::generic_category, to which std::errc belongs. *)
Inductive category := puny_category | generic_category.
(* std::error_code is a value and a pointer to a category; conversion to bool and == as the standard says *)
Record error_code := mkerror { value : Z; category_of : category }.
Definition truthy (e : error_code) : bool := negb (Z.eqb (value e) 0).
Definition category_eqb (a b : category) : bool := match a, b with puny_category, puny_category => true | generic_category, generic_category => true | _, _ => false end.
Definition same_code (a b : error_code) : bool := category_eqb (category_of a) (category_of b) && Z.eqb (value a) (value b).

(* punycode.cpp:20-22 *)
Definition puny_name : str := ss "punycode decode".
(* punycode.cpp:23-30.  The underlying type of the enumeration is int, so that the cast is defined for any
   value; the switch is over the three enumerators *)
Definition puny_message (error : Z) : str :=
  if Z.eqb error (to_int bad_input) then ss "bad input"
  else if Z.eqb error (to_int overflow) then ss "overflow"
  else if Z.eqb error (to_int none) then ss "unknown error"
  else ss "unknown error".
(* punycode.cpp:31-34 *)
Definition make_error_code (e : decode_error_code) : error_code := mkerror (to_int e) puny_category.

(* error_code::message and error_code::category().name() for codes of this category *)
Definition message_of (e : error_code) : option str := match category_of e with puny_category => Some (puny_message (value e)) | generic_category => None end.

(* punycode.hpp:233, 240, 243, 251, 271, 304: the enumerator whose make_error_code is returned *)
Definition returned (e : ModelPuny.derr) : error_code :=
  make_error_code match e with ModelPuny.bad_input => bad_input | ModelPuny.overflow => overflow end.
