(* Model of the transcoders of icubaby.hpp writing to a destination that may throw (a std::back_inserter when memory runs
   out, say).  Here a call of operator() or end_cp is the sequence of its assignments in program order: to the members of
   the transcoder, and through dest.  What is computed is as in ModelIcu.v; C57_same ties the two together. *)
From Verif Require Import Base ModelIcu.
Local Open Scope N_scope.
Local Open Scope list_scope.

(* *(dest++) = u, in a function that is noexcept or not; or members of the transcoder assigned to *)
Inductive stmt (S : Type) := Put (inside_noexcept : bool) (u : N) | Members (s : S).
Arguments Put {S} _ _. Arguments Members {S} _.

(* icubaby.hpp:717-735, 808-812: noexcept.  not_well_formed assigns to well_formed_ and then calls operator(). *)
Fixpoint x32_8 (fuel : nat) (wf : bool) (c : N) : outcome (list (stmt bool)) :=
  match fuel with
  | O => Diverge
  | S fuel =>
      if c <? 0x80 then Ok [Put true (u8 c)]
      else if c <? 0x800 then Ok (map (Put true) (write2 c))
      else if is_surrogate c then do r <- x32_8 fuel false replacement_char; Ok (Members false :: r)
      else if c <? 0x10000 then Ok (map (Put true) (write3 c))
      else if c <=? max_code_point then Ok (map (Put true) (write4 c))
      else do r <- x32_8 fuel false replacement_char; Ok (Members false :: r)
  end.
(* icubaby.hpp:843-868 *)
Definition x8_32 (s : s8) (u : N) : outcome (list (stmt s8)) :=
  match nth_error utf8d (N.to_nat u) with
  | None => Fault buffer_overflow
  | Some type =>
      let cp := if negb (s8_state s =? accept)
                then N.lor (N.land u 0x3F) (N.shiftl (s8_cp s) 6 mod 2 ^ 32)
                else N.land (N.shiftr 0xFF type) u in
      let cp := cp mod 2 ^ code_point_bits in
      let idx := 256 + s8_state s + type in
      match nth_error utf8d (N.to_nat idx) with
      | None => Fault assert_failed
      | Some st =>
          Ok (Members (S8 cp (s8_wf s) (s8_state s)) :: Members (S8 cp (s8_wf s) st) ::
              if st =? accept then [Put false cp]
              else if st =? reject then [Members (S8 cp false st); Members (S8 cp false accept); Put false replacement_char]
              else [])
      end
  end.
(* icubaby.hpp:877-884 *)
Definition x8_32_end (s : s8) : outcome (list (stmt s8)) :=
  if negb (s8_state s =? accept)
  then Ok [Members (S8 (s8_cp s) (s8_wf s) reject); Put false replacement_char; Members (S8 (s8_cp s) false reject)] else Ok [].
(* icubaby.hpp:967-978: noexcept *)
Fixpoint x32_16 (fuel : nat) (wf : bool) (c : N) : outcome (list (stmt bool)) :=
  match fuel with
  | O => Diverge
  | S fuel =>
      if is_surrogate c || (max_code_point <? c) then do r <- x32_16 fuel wf replacement_char; Ok (r ++ [Members false])
      else if c <=? 0xFFFF then Ok [Put true (u16 c)]
      else Ok [Put true (u16 (0xD7C0 + N.shiftr c 10)); Put true (u16 (first_low_surrogate + N.land c 0x3FF))]
  end.
(* icubaby.hpp:1041-1085: noexcept *)
Definition x16_32 (s : s16) (u : N) : outcome (list (stmt s16)) :=
  if negb (s16_has s) then
    if is_high_surrogate u then
      do h <- adjusted_high u; Ok [Members (S16 h (s16_has s) (s16_wf s)); Members (S16 h true (s16_wf s))]
    else if is_low_surrogate u then Ok [Members (S16 (s16_high s) (s16_has s) false); Put true replacement_char]
    else Ok [Put true u]
  else if is_low_surrogate u then
    Ok [Put true (N.shiftl (s16_high s) high_bits + (u - first_low_surrogate) + 0x10000);
        Members (S16 0 (s16_has s) (s16_wf s)); Members (S16 0 false (s16_wf s))]
  else if is_high_surrogate u then
    do h <- adjusted_high u; Ok [Put true replacement_char; Members (S16 (s16_high s) (s16_has s) false); Members (S16 h (s16_has s) false)]
  else Ok [Put true replacement_char; Members (S16 (s16_high s) (s16_has s) false); Put true u;
           Members (S16 0 (s16_has s) false); Members (S16 0 false false)].
(* icubaby.hpp:1092-1100, which is not noexcept *)
Definition x16_32_end (s : s16) : outcome (list (stmt s16)) :=
  if s16_has s then Ok [Put false replacement_char; Members (S16 0 (s16_has s) (s16_wf s)); Members (S16 0 false (s16_wf s)); Members (S16 0 false false)]
  else Ok [].
(* icubaby.hpp:1926-1939 *)
Definition x32_32 (wf : bool) (c : N) : outcome (list (stmt bool)) :=
  if (max_code_point <? c) || is_surrogate c then Ok [Members false; Put false replacement_char] else Ok [Put false c].

(* A transcoder of ModelIcu.v with the order of its assignments *)
Record xtcdr := X {
  x_tc : tcdr;
  x_op : tc_st x_tc -> N -> outcome (list (stmt (tc_st x_tc)));
  x_end : tc_st x_tc -> outcome (list (stmt (tc_st x_tc)))
}.
Definition no_end {S} (_ : S) : outcome (list (stmt S)) := Ok [].
Definition x_32_8 : xtcdr := X t32_8 (x32_8 2) no_end.
Definition x_8_32 : xtcdr := X t8_32 x8_32 x8_32_end.
Definition x_32_16 : xtcdr := X t32_16 (x32_16 2) no_end.
Definition x_16_32 : xtcdr := X t16_32 x16_32 x16_32_end.
Definition x_32_32 : xtcdr := X t32_32 x32_32 no_end.

(* the members and what was written once the statements have been executed, when nothing is refused *)
Fixpoint effect {S} (l : list (stmt S)) (s : S) : S * list N :=
  match l with
  | [] => (s, [])
  | Put _ u :: l' => let (s', w) := effect l' s in (s', u :: w)
  | Members s' :: l' => effect l' s'
  end.

(* --- details::triangulator, icubaby.hpp:1803-1899 ------------------------------------------------------------ *)
Section Tri.
Variables (cap : nat) (I O : xtcdr).
Notation St := (tc_st (x_tc I) * tc_st (x_tc O))%type.
(* the members of output_, intermediate_ being i *)
Definition lift (i : tc_st (x_tc I)) (l : list (stmt (tc_st (x_tc O)))) : list (stmt St) :=
  map (fun st => match st with Put ne u => Put ne u | Members o => Members (i, o) end) l.
(* copy, 1892-1896: output_ for each of the units *)
Fixpoint tri_copy (i : tc_st (x_tc I)) (o : tc_st (x_tc O)) (us : list N) : outcome (list (stmt St) * tc_st (x_tc O)) :=
  match us with
  | [] => Ok ([], o)
  | u :: us' =>
      do l <- x_op O o u;
      do (r, o') <- tri_copy i (fst (effect l o)) us';
      Ok (lift i l ++ r, o')
  end.
(* intermediate_ writes to an array of its own, which refuses nothing *)
Definition x_tri_op (s : St) (u : N) : outcome (list (stmt St)) :=
  do l <- x_op I (fst s) u;
  let (i, w) := effect l (fst s) in
  if Nat.ltb cap (length w) then Fault buffer_overflow
  else do (r, _) <- tri_copy i (snd s) w; Ok (Members (i, snd s) :: r).
Definition x_tri_end (s : St) : outcome (list (stmt St)) :=
  do l <- x_end I (fst s);
  let (i, w) := effect l (fst s) in
  if Nat.ltb cap (length w) then Fault buffer_overflow
  else do (r, o) <- tri_copy i (snd s) w;
       do e <- x_end O o; Ok (Members (i, snd s) :: r ++ lift i e).
Definition x_triangulator : xtcdr := X (triangulator cap (x_tc I) (x_tc O)) x_tri_op x_tri_end.
End Tri.
Definition x_8_16 : xtcdr := x_triangulator 1 x_8_32 x_32_16.
Definition x_16_8 : xtcdr := x_triangulator 2 x_16_32 x_32_8.
Definition x_8_8 : xtcdr := x_triangulator 1 x_8_32 x_32_8.
Definition x_16_16 : xtcdr := x_triangulator 2 x_16_32 x_32_16.

(* --- transcoder<std::byte, ToEncoding>: operator() (1216) and end_cp (1305) are noexcept.  A write that is refused there
   ends the program, so that the order in which the members are assigned to cannot be observed; it is not modelled. *)
Definition all_noexcept {S} (r : outcome (S * list N)) : outcome (list (stmt S)) :=
  do (s, w) <- r; Ok (map (Put true) w ++ [Members s]).
Definition x_byte (T8 T16 T32 : tcdr) : xtcdr :=
  X (byte_transcoder T8 T16 T32) (fun s v => all_noexcept (tx_call T8 T16 T32 s v)) (fun s => all_noexcept (tx_end T8 T16 T32 s)).
Definition x_b_8 : xtcdr := x_byte t8_8 t16_8 t32_8.
Definition x_b_16 : xtcdr := x_byte t8_16 t16_16 t32_16.
Definition x_b_32 : xtcdr := x_byte t8_32 t16_32 t32_32.

(* --- running ------------------------------------------------------------------------------------------------- *)
(* The destination: refuses n tells whether assignment number n through dest throws; [received] is what it took. *)
Record dest := Dest { d_tried : nat; d_received : list N }.
(* how a call ends: it returns; the exception leaves it; std::terminate has been called *)
Inductive ending := Returned | Threw | Terminated.
Section Run.
Variable refuses : nat -> bool.
Fixpoint exec {S} (l : list (stmt S)) (s : S) (d : dest) : ending * S * dest :=
  match l with
  | [] => (Returned, s, d)
  | Members s' :: l' => exec l' s' d
  | Put ne u :: l' =>
      if refuses (d_tried d) then (if ne then Terminated else Threw, s, Dest (Datatypes.S (d_tried d)) (d_received d))
      else exec l' s (Dest (Datatypes.S (d_tried d)) (d_received d ++ [u]))
  end.
Variable T : xtcdr.
(* t (u, dest) and t.end_cp (dest) *)
Definition call (s : tc_st (x_tc T)) (u : N) (d : dest) : outcome (ending * tc_st (x_tc T) * dest) :=
  do l <- x_op T s u; Ok (exec l s d).
Definition call_end (s : tc_st (x_tc T)) (d : dest) : outcome (ending * tc_st (x_tc T) * dest) :=
  do l <- x_end T s; Ok (exec l s d).
(* A program: calls of operator() (Some u) and of end_cp (None) one after the other; it catches what they throw and goes
   on.  How each call ended; nothing is called after std::terminate. *)
Fixpoint calls (p : list (option N)) (s : tc_st (x_tc T)) (d : dest) : outcome (list ending * tc_st (x_tc T) * dest) :=
  match p with
  | [] => Ok ([], s, d)
  | c :: p' =>
      do (e, s', d') <- match c with Some u => call s u d | None => call_end s d end;
      match e with
      | Terminated => Ok ([Terminated], s', d')
      | _ => do (es, s'', d'') <- calls p' s' d'; Ok (e :: es, s'', d'')
      end
  end.
End Run.
