(* Model of reading a text whose source may throw: a range over a file or a socket, a transforming view whose function
   throws, and so on.  Each operation on an iterator of the source -- reading the element and, where the classes below
   move one step at a time, moving on -- is numbered in the order in which the program makes them; operation k throws if
   [fails k] says so, and otherwise does what it does in ModelIcu.v, ModelHist.v and ModelPct.v.  An operation on the
   source that throws leaves the source's iterator where it was.  Comparisons and copies of the source's iterators do
   not throw. *)
From Verif Require Import Base ModelPct ModelIcu ModelHist.
Local Open Scope list_scope.

(* the call returned, or an exception came out of it; with the number of operations made so far and what is left *)
Inductive tried (A B : Type) := Done (k : nat) (a : A) | Threw (k : nat) (b : B).
Arguments Done {A B} _ _. Arguments Threw {A B} _ _.

Section Source.
Variable fails : nat -> bool.

(* --- transcode_view::iterator ---------------------------------------------------------------------------- *)
Section View.
Variable T : tcdr.
Variable cap : nat.
Variable base : list N.

(* icubaby.hpp:2214-2218: *next_ is operation k, ++next_ operation k + 1.  When one of them throws, next_ and
   transcoder_ stay as they are at that moment. *)
Fixpoint fill_loop_x (fuel : nat) (k : nat) (next : nat) (t : tc_st T) (acc : list N)
  : outcome (tried (nat * tc_st T * list N) (nat * tc_st T)) :=
  match acc, nth_error base next with
  | [], Some u =>
      match fuel with
      | O => Diverge
      | S fuel =>
          if fails k then Ok (Threw (S k) (next, t))
          else
            do (t', w) <- tc_op T t u;
            if Nat.ltb cap (length (acc ++ w)) then Fault buffer_overflow
            else if fails (S k) then Ok (Threw (S (S k)) (next, t'))
            else fill_loop_x fuel (S (S k)) (S next) t' (acc ++ w)
      end
  | _, _ => Ok (Done k (next, t, acc))
  end.
(* icubaby.hpp:2201-2230.  An exception leaves the function before first_, last_ and the view's well_formed_ are assigned
   to, and before the callers (2094, 2110) assign to current_.  (What has been written to out_ is not kept here:
   first_ == last_, so nothing reads it.) *)
Definition fill_x (fuel k : nat) (it : vit T) (wf : bool) : outcome (tried (vit T * bool) (vit T * bool)) :=
  if negb (v_first T it =? v_last T it)%N then Fault assert_failed
  else
    do r <- fill_loop_x fuel k (v_next T it) (v_tc T it) [];
    match r with
    | Threw k (next, t) => Ok (Threw k (Vit T (v_current T it) next (v_out T it) t (v_first T it) (v_last T it), wf))
    | Done k (next, t, out) =>
        do (t, out) <-
          (if Nat.eqb next (length base) then do (t', w) <- tc_end T t; Ok (t', out ++ w) else Ok (t, out));
        if Nat.ltb cap (length out) then Fault buffer_overflow
        else Ok (Done k (Vit T (v_next T it) next out t 0 (N.of_nat (length out) mod 2 ^ 4)%N,
                         if tc_wf T t then wf else false))
    end.
(* icubaby.hpp:2088-2096 begin(): when the constructor throws there is no iterator *)
Definition vbegin_x (k : nat) (wf : bool) : outcome (tried (vit T * bool) bool) :=
  let it := Vit T 0 0 [] (tc_init T) 0 0 in
  if Nat.eqb 0 (length base) then Ok (Done k (it, wf))
  else
    do r <- fill_x (length base) k it wf;
    match r with Done k a => Ok (Done k a) | Threw k (_, wf) => Ok (Threw k wf) end.
(* icubaby.hpp:2106-2113 operator++ with state::advance (2145-2148) *)
Definition vnext_x (k : nat) (it : vit T) (wf : bool) : outcome (tried (vit T * bool) (vit T * bool)) :=
  if (v_first T it =? v_last T it)%N then Fault assert_failed
  else
    let it := Vit T (v_current T it) (v_next T it) (v_out T it) (v_tc T it) ((v_first T it + 1) mod 2 ^ 4)%N (v_last T it) in
    if (v_first T it =? v_last T it)%N then fill_x (length base) k it wf else Ok (Done k (it, wf)).

(* try { for (auto u : view) out.push_back (u); } catch (...) {}: whether it ran to the end, what is in out, and the
   view's well_formed() *)
Fixpoint range_for (fuel k : nat) (it : vit T) (wf : bool) : outcome (bool * list N * bool) :=
  match fuel with
  | O => Diverge
  | S f =>
      if vdone T base it then Ok (true, [], wf)
      else
        do u <- vderef T it;
        do r <- vnext_x k it wf;
        match r with
        | Threw _ (_, wf') => Ok (false, [u], wf')
        | Done k' (it', wf') => do (d, us, wf'') <- range_for f k' it' wf'; Ok (d, u :: us, wf'')
        end
  end.
Definition view_range_for (fuel : nat) : outcome (bool * list N * bool) :=
  do r <- vbegin_x 0 true;
  match r with Done k (it, wf) => range_for fuel k it wf | Threw _ wf => Ok (false, [], wf) end.

(* for (;;) { auto const saved = it; try { ++it; break; } catch (...) { it = saved; } } *)
Fixpoint next_from_copy (tries k : nat) (it : vit T) (wf : bool) : outcome (nat * (vit T * bool)) :=
  match tries with
  | O => Diverge
  | S tries =>
      do r <- vnext_x k it wf;
      match r with Done k' a => Ok (k', a) | Threw k' (_, wf') => next_from_copy tries k' it wf' end
  end.
(* for (;;) { try { it = view.begin (); break; } catch (...) {} } *)
Fixpoint begin_again (tries k : nat) (wf : bool) : outcome (nat * (vit T * bool)) :=
  match tries with
  | O => Diverge
  | S tries =>
      do r <- vbegin_x k wf;
      match r with Done k' a => Ok (k', a) | Threw k' wf' => begin_again tries k' wf' end
  end.
(* the loop over the view which makes each of its steps in that way *)
Fixpoint patient_for (tries fuel k : nat) (it : vit T) (wf : bool) : outcome (list N * bool) :=
  match fuel with
  | O => Diverge
  | S f =>
      if vdone T base it then Ok ([], wf)
      else
        do u <- vderef T it;
        do (k', (it', wf')) <- next_from_copy tries k it wf;
        do (us, wf'') <- patient_for tries f k' it' wf';
        Ok (u :: us, wf'')
  end.
Definition view_patient_for (tries fuel : nat) : outcome (list N * bool) :=
  do (k, (it, wf)) <- begin_again tries 0 true; patient_for tries fuel k it wf.
End View.

(* --- pctdecode_iterator (pctdecode.hpp:250-289) and pctdecode_view::iterator (126-203) --------------------- *)
Section Pct.
Variable s : str.
(* *pos, which is operation k *)
Definition read_x (k i : nat) : outcome (tried ascii unit) :=
  if fails k then Ok (Threw (S k) tt) else do c <- char_at s i; Ok (Done (S k) c).
(* the two digits behind pos *)
Definition digits_x (k pos : nat) : outcome (tried (N * N) unit) :=
  do h <- read_x k (pos + 1);
  match h with
  | Threw k _ => Ok (Threw k tt)
  | Done k h =>
      do l <- read_x k (pos + 2);
      match l with Threw k _ => Ok (Threw k tt) | Done k l => Ok (Done k (hex2dec h, hex2dec l)) end
  end.
(* pctdecode.hpp:60-74 increment (pos, end), std::distance and std::advance taken not to throw *)
Definition increment_x (k pos : nat) : outcome (tried nat unit) :=
  let remaining := length s - pos in
  if Nat.eqb remaining 0 then Fault assert_failed
  else if (3 <=? remaining)%nat then
    do c <- read_x k pos;
    match c with
    | Threw k _ => Ok (Threw k tt)
    | Done k c =>
        if Ascii.eqb c "%" then
          do d <- digits_x k pos;
          match d with
          | Threw k _ => Ok (Threw k tt)
          | Done k (h, l) => Ok (Done k (pos + if negb (either_bad h l) then 3 else 1))
          end
        else Ok (Done k (pos + 1))
    end
  else Ok (Done k (pos + 1)).
(* pctdecode.hpp:170-173, 282-285 operator++: pos_ is assigned to once increment has returned *)
Definition pnext_x (k : nat) (it : pit) : outcome (tried pit pit) :=
  do r <- increment_x k (i_pos it);
  match r with Threw k _ => Ok (Threw k it) | Done k pos => Ok (Done k (Pit pos (i_hex it))) end.
(* pctdecode.hpp:76-91 deref, as operator* calls it (160-163, 277-280): the value, and the iterator, whose hex_ is assigned
   to behind the last read.  When an exception comes out there is no value. *)
Definition pderef_x (k : nat) (it : pit) : outcome (tried (pit * ascii) pit) :=
  let pos := i_pos it in
  do c <- read_x k pos;
  match c with
  | Threw k _ => Ok (Threw k it)
  | Done k c =>
      if negb (Ascii.eqb c "%") || (length s - pos <? 3)%nat then Ok (Done k (it, c))
      else
        do d <- digits_x k pos;
        match d with
        | Threw k _ => Ok (Threw k it)
        | Done k (nhi, nlo) =>
            if either_bad nhi nlo then Ok (Done k (it, c))
            else
              let hex := chr (N.lor (N.land (N.shiftl nhi 4) 255) nlo) in
              Ok (Done k (Pit pos hex, hex))
        end
  end.
(* for (;;) { try { c = *it; break; } catch (...) {} }, and the same with ++it: no copy is kept *)
Fixpoint deref_again (tries k : nat) (it : pit) : outcome (nat * (pit * ascii)) :=
  match tries with
  | O => Diverge
  | S tries => do r <- pderef_x k it; match r with Done k a => Ok (k, a) | Threw k it => deref_again tries k it end
  end.
Fixpoint next_again (tries k : nat) (it : pit) : outcome (nat * pit) :=
  match tries with
  | O => Diverge
  | S tries => do r <- pnext_x k it; match r with Done k a => Ok (k, a) | Threw k it => next_again tries k it end
  end.
Fixpoint decode_again (tries fuel k : nat) (it : pit) : outcome str :=
  if Nat.eqb (i_pos it) (length s) then Ok []
  else
    match fuel with
    | O => Diverge
    | S f =>
        do (k, (it, c)) <- deref_again tries k it;
        do (k, it) <- next_again tries k it;
        do r <- decode_again tries f k it;
        Ok (c :: r)
    end.
Definition pct_patient_for (tries fuel : nat) : outcome str := decode_again tries fuel 0 (Pit 0 (chr 0)).
(* try { for (auto c : view) out.push_back (c); } catch (...) {} *)
Fixpoint pct_for (fuel k : nat) (it : pit) : outcome (bool * str) :=
  if Nat.eqb (i_pos it) (length s) then Ok (true, [])
  else
    match fuel with
    | O => Diverge
    | S f =>
        do r <- pderef_x k it;
        match r with
        | Threw _ _ => Ok (false, [])
        | Done k (it, c) =>
            do r <- pnext_x k it;
            match r with
            | Threw _ _ => Ok (false, [c])
            | Done k it => do (d, t) <- pct_for f k it; Ok (d, c :: t)
            end
        end
    end.
Definition pct_range_for (fuel : nat) : outcome (bool * str) := pct_for fuel 0 (Pit 0 (chr 0)).
End Pct.

(* --- pctencode (first, last, out, encodeset), pctencode.hpp:57-71: *first is operation k, ++first operation k + 1.
   Whether it returned, and what has been written to out. *)
Fixpoint pctencode_x (s : str) (es : N) (k : nat) (out : str) : outcome (bool * str) :=
  match s with
  | [] => Ok (true, out)
  | c :: s' =>
      if fails k then Ok (false, out)
      else
        do b <- needs_byte (code c) es;
        do out <- (if b then
                     do hi <- dec2hex (N.land (N.shiftr (code c) 4) 0xF);
                     do lo <- dec2hex (N.land (code c) 0xF);
                     Ok (out ++ ["%"%char] ++ [hi] ++ [lo])
                   else Ok (out ++ [c]));
        if fails (S k) then Ok (false, out) else pctencode_x s' es (S (S k)) out
  end.
End Source.
