(* SPECIFICATION of base () of a transcode view's iterators: which position in the input belongs to which unit of the
   output. *)
From Verif Require Import Base ModelIcu ModelHist SpecIcu SpecHist.
Local Open Scope list_scope.

(* After the first k units of l have been given to a new transcoder T, it has written n units. *)
Definition writes (T : tcdr) (l : list N) (k n : nat) : Prop := exists s w, feed T (tc_init T) (firstn k l) = Ok (s, w) /\ length w = n.

(* b is the position that belongs to the i-th unit of the output: the end of what was needed for the last write that
   wrote no unit after the i-th.  (What is written when the input has been used up, by end_cp or before it by the last
   unit, counts as one write.) *)
Definition belongs (T : tcdr) (l : list N) (i b : nat) : Prop :=
  (b < length l)%nat /\ exists c, writes T l b c /\ (c <= i)%nat
    /\ (forall k n, (k < b)%nat -> writes T l k n -> (n < c)%nat)
    /\ (forall k n, (k < length l)%nat -> writes T l k n -> (n <= i)%nat -> (n <= c)%nat).
(* ... and to the end *)
Definition stands (T : tcdr) (l out : list N) (i b : nat) : Prop :=
  ((i < length out)%nat /\ belongs T l i b) \/ (i = length out /\ b = length l).

(* unit i of the text whose code points are cs is a unit of the m-th of them, counted from 0 (the end counts as one) *)
Definition within (form : N -> list N -> Prop) (cs : list N) (i m : nat) : Prop :=
  (exists y1 c yc, text form (firstn m cs) y1 /\ nth_error cs m = Some c /\ form c yc /\ (length y1 <= i < length y1 + length yc)%nat)
  \/ (m = length cs /\ exists y, text form cs y /\ i = length y).

(* cursors as in SpecHist.v, but for comparisons *)
Section Cursors.
Context {V : Type}.
Variable out : list V.
Variable ok : bool.
Variable equal : nat -> nat -> bool.
Definition cursor_step_as (o : op) (c : cursors (V := V)) : option (cursors (V := V) * list (obs V)) :=
  match o with
  | Equal k j => match cursor c k, cursor c j with Some a, Some b => Some (c, [Bool (equal a b)]) | _, _ => None end
  | _ => cursor_step out ok any_two o c
  end.
Fixpoint cursor_steps_as (ops : list op) (c : cursors) : option (list (obs V)) :=
  match ops with
  | [] => Some []
  | o :: ops' => match cursor_step_as o c with
                 | Some (c', x) => match cursor_steps_as ops' c' with Some y => Some (x ++ y) | None => None end
                 | None => None
                 end
  end.
Definition cursor_run_as (ops : list op) : option (list (obs V)) := cursor_steps_as ops (Cursors [] [] false).
End Cursors.

(* the transcoder from one encoding form to another, its view's buffer and the bound of its units *)
Inductive recodes : tcdr -> nat -> N -> (N -> list N -> Prop) -> (N -> list N -> Prop) -> Prop :=
| rec_8_8 : recodes t8_8 max_output_8 (2 ^ 8) utf8_of utf8_of
| rec_8_16 : recodes t8_16 max_output_16 (2 ^ 8) utf8_of utf16_of
| rec_8_32 : recodes t8_32 max_output_32 (2 ^ 8) utf8_of utf32_of
| rec_16_8 : recodes t16_8 max_output_16_8 (2 ^ 16) utf16_of utf8_of
| rec_16_16 : recodes t16_16 max_output_16 (2 ^ 16) utf16_of utf16_of
| rec_16_32 : recodes t16_32 max_output_16_32 (2 ^ 16) utf16_of utf32_of
| rec_32_8 : recodes t32_8 max_output_8 (2 ^ 32) utf32_of utf8_of
| rec_32_16 : recodes t32_16 max_output_16 (2 ^ 32) utf32_of utf16_of
| rec_32_32 : recodes t32_32 max_output_32 (2 ^ 32) utf32_of utf32_of.
