(* SPECIFICATION vocabulary for C98: a pile of transcode views, from one encoding to the next. *)
From Verif Require Import Base ModelIcu ModelHist SpecIcu SpecRoute.
Local Open Scope list_scope.

(* the buffer of the view from a to b: icubaby.hpp:2056-2069 *)
Definition buffer (a b : enc) : nat :=
  match a, b with
  | U16, U8 => max_output_16_8 | U16, U32 => max_output_16_32
  | _, U8 => max_output_8 | _, U16 => max_output_16 | _, U32 => max_output_32
  end.
(* ... | transcode<a, b1> | transcode<b1, b2> | ... *)
Fixpoint stages (a : enc) (bs : list enc) : list (tcdr * nat) :=
  match bs with
  | [] => []
  | b :: bs => (tc a b, buffer a b) :: stages b bs
  end.

(* for (auto u : view) ..., and then view.well_formed (): the program for a view of n units ... *)
Definition loop_program (n : nat) : list op := [Begin; End] ++ flat_map (fun i => [Equal 0 1; Deref 0; Read i; Inc 0]) (seq 0 n) ++ [Equal 0 1; Flag].
(* ... and what it sees *)
Definition loop_sees (out : list N) (ok : bool) : list (obs N) := flat_map (fun u => [Bool false; Val u]) out ++ [Bool true; Bool ok].
