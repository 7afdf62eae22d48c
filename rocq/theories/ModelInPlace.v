(* Model of programs that write the result over the text they read: decoding a string into itself with the iterators of
   pctdecode.hpp, and transcoding an array into itself with a transcoder of icubaby.hpp. *)
From Verif Require Import Base ModelUri ModelPct ModelIcu ModelOut.
Local Open Scope list_scope.

(* --- percent-decoding ------------------------------------------------------------------------------------ *)
(* [mem] is the string, an iterator is its position, the end its length.  deref and increment (pctdecode.hpp:60-91) read
   the string as it is now: pctdecode_iterator (250-289) and pctdecode_view::iterator (138-203) hold only positions. *)
Definition moved (mem rest : str) : nat := length mem - length rest.
(* std::copy (first, last, s.begin ()), std::ranges::copy:  for (; first != last; ++first, ++out) *out = *first; *)
Fixpoint copy_in_place (fuel : nat) (mem : str) (pos out : nat) : outcome (str * nat) :=
  if Nat.eqb pos (length mem) then Ok (mem, out)
  else match fuel with
  | O => Diverge
  | S fuel =>
      do c <- deref (skipn pos mem);
      if Nat.ltb out (length mem) then
        let mem' := upd out c mem in
        do rest <- increment (skipn pos mem');
        copy_in_place fuel mem' (moved mem' rest) (S out)
      else Fault buffer_overflow
  end.
(* while (it != last) *out++ = *it++;  the iterator is moved before the character is written (the right operand of an
   assignment is evaluated first); *it++ is the character of the old position, read before the write *)
Fixpoint step_in_place (fuel : nat) (mem : str) (pos out : nat) : outcome (str * nat) :=
  if Nat.eqb pos (length mem) then Ok (mem, out)
  else match fuel with
  | O => Diverge
  | S fuel =>
      do c <- deref (skipn pos mem);
      do rest <- increment (skipn pos mem);
      if Nat.ltb out (length mem) then step_in_place fuel (upd out c mem) (moved mem rest) (S out)
      else Fault buffer_overflow
  end.

(* --- transcoding ------------------------------------------------------------------------------------------ *)
(* for (i = 0; i != n; ++i) out = t (mem[i], out);  out = t.end_cp (out);  with out = mem at first; source and destination
   have the same type of units (icubaby.hpp: operator() and end_cp of every transcoder) *)
Fixpoint units_in_place (T : tcdr) (n : nat) (t : tc_st T) (mem : list N) (i : nat) (out : sink) : outcome (tc_st T * list N * sink) :=
  match n with
  | O => Ok (t, mem, out)
  | S n =>
      match nth_error mem i with
      | None => Fault buffer_overflow
      | Some u => do (t', w) <- tc_op T t u; do (out', mem') <- put_units out mem w; units_in_place T n t' mem' (S i) out'
      end
  end.
Definition transcode_in_place (T : tcdr) (mem : list N) : outcome (list N * nat * bool) :=
  do (x, out) <- units_in_place T (length mem) (tc_init T) mem 0 (Points 0);
  let (t, mem') := x in
  do (t', w) <- tc_end T t;
  do (out', mem'') <- put_units out mem' w;
  match out' with Points n => Ok (mem'', n, tc_wf T t') | Appends => Fault assert_failed end.
