(* MODEL of icubaby::ranges::transcode_view over a single-pass range (icubaby.hpp:2004-2245), for the iterators that are
   at their end as soon as the source they share is exhausted: std::istreambuf_iterator, whose copies all read the one
   stream buffer and compare equal to the end exactly while that buffer has nothing left.  (transcode_view asks for
   std::ranges::input_range only: 2018.)
   [base] is what is left in the source when begin() is called.  The functions are those of ModelIcu.v: fill (2201-2230),
   begin() (2088-2096), operator* (2103) and operator++ (2106-2113), in which next_ is the only iterator that moves.  What
   differs is the comparison with end() (2121-2125 and 2243): it asks current_, a copy of next_ taken before the units of
   the current code point were read (2203), and that copy sees the source as next_ left it. *)
From Verif Require Import Base ModelIcu.
Local Open Scope N_scope.
Local Open Scope list_scope.

Section Single.
Variable T : tcdr.
Variable cap : nat.
Variable base : list N.

(* icubaby.hpp:2121-2125, 2243 *)
Definition vdone_shared (it : vit T) : bool := Nat.eqb (v_next T it) (length base).
(* for (auto u : view) out.push_back(u), with the view's well_formed() afterwards *)
Fixpoint vcollect_shared (fuel : nat) (it : vit T) (wf : bool) : outcome (list N * bool) :=
  match fuel with
  | O => Diverge
  | S f =>
      if vdone_shared it then Ok ([], wf)
      else
        do u <- vderef T it;
        do (it', wf') <- vnext T cap base (length base) it wf;
        do (r, wf'') <- vcollect_shared f it' wf';
        Ok (u :: r, wf'')
  end.
(* icubaby.hpp:2088-2096 begin(), then the loop *)
Definition view_iterate_shared (fuel : nat) : outcome (list N * bool) :=
  do (it, wf) <- vbegin T cap base (length base) true; vcollect_shared fuel it wf.
End Single.
