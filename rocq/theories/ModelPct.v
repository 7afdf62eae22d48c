(* Model of include/uri/pctencode.hpp, lib/uri/pctencode.cpp and include/uri/pctdecode.hpp. *)
From Verif Require Import Base.
Local Open Scope N_scope.

(* pctencode.hpp:32-42  enum class pctencode_set : uint8_t.  A value is any byte. *)
Definition es_none : N := 0.
Definition es_fragment : N := 1.
Definition es_query : N := 2.
Definition es_special_query : N := 4.
Definition es_path : N := 8.
Definition es_userinfo : N := 16.
Definition es_component : N := 32.
Definition es_form_urlencoded : N := 64.

(* pctencode.hpp:27-30  dec2hex, with its assert *)
Definition dec2hex (v : N) : outcome ascii :=
  if v <? 0x10 then Ok (chr (v + (if v <? 10 then 48 else 65 - 10))) else Fault assert_failed.

(* pctencode.cpp:58-93  the table (binary literals transcribed) *)
Definition encode_table : list N :=
  [0x40; 0x7F; 0x7E; 0x60; 0xFF; 0x60; 0x44; 0x40; 0x40; 0x00; 0x60; 0x60; 0x00; 0x00; 0x70;  (* ! .. / *)
   0x70; 0x70; 0x7F; 0x70; 0x7F; 0x78; 0x70;                                                  (* : .. @ *)
   0x70; 0x70; 0x70; 0x70; 0x00; 0x78;                                                        (* [ .. ` *)
   0x78; 0x70; 0x78; 0x40].                                                                   (* { .. ~ *)

(* x - y with the asserts of pctencode.cpp:32-45; x -= y on uint_least8_t *)
Definition sub_chk (x y : N) : outcome N := if x <? y then Fault assert_failed else Ok (x - y).

(* pctencode.cpp:57-128  needs_pctencode (uint_least8_t c, pctencode_set es); c is a byte *)
Definition needs_byte (c : N) (es : N) : outcome bool :=
  let num_digits := 10 in
  let num_alpha := 26 in
  let table_first := 0x21 in
  let capital_adj := table_first + num_digits in
  let small_adj := table_first + num_digits + num_alpha in
  if (c <=? 0x20) || (0x7E <? c) then Ok true
  else
  do c <- sub_chk c table_first;
  let lookup c := if N.of_nat (length encode_table) <=? c then Ok false
                  else Ok (negb (N.land (nth (N.to_nat c) encode_table 0) es =? 0)) in
  let lower c :=
    do a <- sub_chk 0x61 small_adj; do z <- sub_chk 0x7A small_adj;
    if a <=? c then
      if c <=? z then Ok false else do c <- sub_chk c num_alpha; lookup c
    else lookup c in
  let upper c :=
    do a <- sub_chk 0x41 capital_adj; do z <- sub_chk 0x5A capital_adj;
    if a <=? c then
      if c <=? z then Ok false else do c <- sub_chk c num_alpha; lower c
    else lower c in
  do d0 <- sub_chk 0x30 table_first; do d9 <- sub_chk 0x39 table_first;
  if d0 <=? c then
    if c <=? d9 then Ok false else do c <- sub_chk c num_digits; upper c
  else upper c.

(* pctencode.cpp:130-134, pctencode.hpp:48-53  std::any_of over the characters *)
Fixpoint needs_pctencode (s : str) (es : N) : outcome bool :=
  match s with
  | [] => Ok false
  | c :: s' => do b <- needs_byte (code c) es; if b then Ok true else needs_pctencode s' es
  end.

(* pctencode.hpp:57-71  pctencode (first, last, out, encodeset): what is written to out *)
Fixpoint pctencode_loop (s : str) (es : N) (out : str) : outcome str :=
  match s with
  | [] => Ok out
  | c :: s' =>
    do b <- needs_byte (code c) es;
    if b then
      do hi <- dec2hex (N.land (N.shiftr (code c) 4) 0xF);
      do lo <- dec2hex (N.land (code c) 0xF);
      pctencode_loop s' es (out ++ ["%"%char] ++ [hi] ++ [lo])
    else pctencode_loop s' es (out ++ [c])
  end.
(* pctencode.hpp:73-79  (reserve has no observable effect) *)
Definition pctencode (s : str) (es : N) : outcome str := pctencode_loop s es [].

(* ------------------------------------------------------------------------- *)
(* pctdecode.hpp:38-58  hex2dec.  The comparison is on the (possibly signed) value of a char; a byte
   >= 0x80 is in none of the ranges either way. *)
Definition bad : N := 16.
Definition hex2dec (c : ascii) : N :=
  let d := code c in
  if (97 <=? d) && (d <=? 102) then d - (97 - 10)
  else if (65 <=? d) && (d <=? 70) then d - (65 - 10)
  else if (48 <=? d) && (d <=? 57) then d - 48
  else bad.
Definition either_bad (n1 n2 : N) : bool := negb (N.land (N.lor n1 n2) bad =? 0).

(* A pair of iterators pos, end is the list of the characters from pos to end. *)
(* pctdecode.hpp:60-74 *)
Definition increment (s : str) : outcome str :=
  match s with
  | [] => Fault assert_failed
  | c :: s1 =>
    if (3 <=? N.of_nat (length s)) && Ascii.eqb c "%"
       && negb (either_bad (hex2dec (nth 1 s c)) (hex2dec (nth 2 s c)))
    then Ok (skipn 3 s) else Ok s1
  end.
(* pctdecode.hpp:76-91: the value of the returned reference; dereferencing the end is undefined *)
Definition deref (s : str) : outcome ascii :=
  match s with
  | [] => Fault assert_failed
  | c :: _ =>
    if negb (Ascii.eqb c "%") || (N.of_nat (length s) <? 3) then Ok c
    else
      let nhi := hex2dec (nth 1 s c) in
      let nlo := hex2dec (nth 2 s c) in
      if either_bad nhi nlo then Ok c
      else Ok (chr (N.lor (N.land (N.shiftl nhi 4) 255) nlo))      (* std::byte << 4 *)
  end.

(* pctdecode.hpp:95-98 *)
Definition needs_pctdecode (s : str) : bool := existsb (fun c => Ascii.eqb c "%") s.

(* pctdecode.hpp:322-329  for (auto const& c : pctdecoder{s}) result += c, over pctdecode_iterator
   (pctdecode.hpp:250-289); the range for over pctdecode_view (pctdecode.hpp:100-203) runs the same
   deref / increment. *)
Fixpoint decode_loop (fuel : nat) (s : str) (result : str) : outcome str :=
  match s with
  | [] => Ok result                                  (* pos == end *)
  | _ => match fuel with
         | O => Diverge
         | S fuel => do c <- deref s; do s' <- increment s; decode_loop fuel s' (result ++ [c])
         end
  end.
Definition pctdecode (s : str) : outcome str := decode_loop (length s) s [].

(* pctdecode.hpp:185-188  iter_move (it): std::ranges::iter_move (it.pos_), the character at pos *)
Definition iter_move (s : str) : outcome ascii :=
  match s with [] => Fault assert_failed | c :: _ => Ok c end.
