(* Model of views that are laid one on top of the other, as in s | uri::views::pctdecode | icubaby::views::transcode<char8, char32>,
   or text | transcode<char8, char16_t> | transcode<char16_t, char32_t>: an iterator of the upper view holds iterators of the lower
   one (current_ and state_::next_) and moves, reads and compares them; the lower view is a member of the upper one (base_).
   The functions are those of ModelIcu.v (fill_loop, fill, vbegin, vnext) and ModelHist.v (vit_deref, vit_inside), where the lower view is an array, written
   again for any class of iterators (ModelHist.iclass).
   The lower view's own mutable flag is set along the way and never read (base () gives a copy of the lower view: icubaby.hpp:2031), so it is not kept.
   pctdecode_view is never the upper one here: details::increment and deref ask for pos + 1 (pctdecode.hpp:70, 82), which iterators of these views
   do not have, so this does not compile. *)
From Verif Require Import Base ModelPct ModelIcu ModelHist ModelViews.
Local Open Scope N_scope.
Local Open Scope list_scope.

Section Over.
Variable T : tcdr.
Variable cap : nat.
Variable C : iclass N.     (* the lower view's iterators *)

(* icubaby.hpp:2175-2199: current_, next_, the used prefix of out_, transcoder_, first_, last_ *)
Record oit := Oit { o_current : ic_it C; o_next : ic_it C; o_out : list N; o_tc : tc_st T; o_first : N; o_last : N }.

(* the loop of icubaby.hpp:2214-2218; [fuel] bounds the number of units taken from the lower view *)
Fixpoint over_loop (fuel : nat) (next : ic_it C) (t : tc_st T) (acc : list N) : outcome (ic_it C * tc_st T * list N) :=
  match acc with
  | _ :: _ => Ok (next, t, acc)
  | [] =>
      if ic_eq C next (ic_end C) then Ok (next, t, acc)
      else
        match fuel with
        | O => Diverge
        | S fuel =>
            do (next, u) <- read_at C next;
            do (t', w) <- tc_op T t u;
            if Nat.ltb cap (length (acc ++ w)) then Fault buffer_overflow
            else
              do (next, _) <- ic_next C next true;
              over_loop fuel next t' (acc ++ w)
        end
  end.
(* icubaby.hpp:2201-2230 *)
Definition over_fill (fuel : nat) (it : oit) (wf : bool) : outcome (oit * bool) :=
  if negb (o_first it =? o_last it) then Fault assert_failed
  else
    do (next, t, out) <- over_loop fuel (o_next it) (o_tc it) [];
    do (t, out) <-
      (if ic_eq C next (ic_end C) then do (t', w) <- tc_end T t; Ok (t', out ++ w) else Ok (t, out));
    if Nat.ltb cap (length out) then Fault buffer_overflow
    else Ok (Oit (o_next it) next out t 0 (N.of_nat (length out) mod 2 ^ 4),
             if tc_wf T t then wf else false).
(* icubaby.hpp:2036, 2088-2096 *)
Definition over_begin (fuel : nat) (wf : bool) : outcome (oit * bool) :=
  do (b, _) <- ic_begin C true;
  let it := Oit b b [] (tc_init T) 0 0 in
  if ic_eq C b (ic_end C) then Ok (it, wf) else over_fill fuel it wf.
(* icubaby.hpp:2106-2113 with state::advance (2154-2157) *)
Definition over_next (fuel : nat) (it : oit) (wf : bool) : outcome (oit * bool) :=
  if o_first it =? o_last it then Fault assert_failed
  else
    let it := Oit (o_current it) (o_next it) (o_out it) (o_tc it) ((o_first it + 1) mod 2 ^ 4) (o_last it) in
    if o_first it =? o_last it then over_fill fuel it wf else Ok (it, wf).
(* icubaby.hpp:2103, 2148-2151 *)
Definition over_deref (it : oit) : outcome (oit * place) :=
  if o_first it =? o_last it then Fault assert_failed else Ok (it, InObject (N.to_nat (o_first it))).
Definition over_inside (it : oit) (j : nat) : outcome N :=
  match nth_error (o_out it) j with Some u => Ok u | None => Fault assert_failed end.
(* end(): icubaby.hpp:2038-2044, 2088-2096; ==: 2121-2125 *)
Definition over (fuel : nat) : iclass N :=
  IClass N oit (over_begin fuel) (Oit (ic_end C) (ic_end C) [] (tc_init T) 0 0) (over_next fuel) over_deref over_inside (fun _ => Fault assert_failed)
    (fun a b => ic_eq C (o_current a) (o_current b)).
End Over.

(* pointers into an array of code units *)
Definition pointers (l : list N) : iclass N :=
  let at_ i := match nth_error l i with Some u => Ok u | None => Fault assert_failed end in
  IClass N nat (fun fl => Ok (0%nat, fl)) (length l) (fun i fl => if Nat.ltb i (length l) then Ok (S i, fl) else Fault assert_failed)
    (fun i => if Nat.ltb i (length l) then Ok (i, InRange i) else Fault assert_failed) (fun _ _ => Fault assert_failed) at_ Nat.eqb.
(* characters taken as code units: the argument of transcoder::operator() (icubaby.hpp:2215) *)
Definition as_units (C : iclass ascii) : iclass N :=
  IClass N (ic_it C) (ic_begin C) (ic_end C) (ic_next C) (ic_deref C) (fun it j => do c <- ic_inside C it j; Ok (code c))
    (fun i => do c <- ic_range C i; Ok (code c)) (ic_eq C).
(* source | transcode<..> | transcode<..> | ...: the views in the order in which they are laid on *)
Fixpoint piled (C : iclass N) (fuel : nat) (Ts : list (tcdr * nat)) : iclass N :=
  match Ts with
  | [] => C
  | (T, cap) :: Ts => piled (over T cap C fuel) fuel Ts
  end.
