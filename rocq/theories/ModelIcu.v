(* MODEL of include/uri/icubaby.hpp: the Unicode transcoders and the lazy transcode view.
   A code unit of any width is an N; an output iterator is represented by the list of units written
   through it.  Not modelled: the concepts/type traits (lines 320-356, 526-545), the class iterator
   that forwards assignments to a transcoder (625-690), and the overloads of end_cp taking such an
   iterator, which forward to the end_cp modelled here. *)
From Verif Require Import Base.
Local Open Scope N_scope.
Local Open Scope list_scope.

(* icubaby.hpp:288-310 *)
Definition replacement_char : N := 0xFFFD.
Definition code_point_bits : N := 21.
Definition first_high_surrogate : N := 0xD800.
Definition last_high_surrogate : N := 0xDBFF.
Definition first_low_surrogate : N := 0xDC00.
Definition last_low_surrogate : N := 0xDFFF.
Definition max_code_point : N := 0x10FFFF.

(* icubaby.hpp:362-373 longest_sequence<char8/char16_t/char32_t> *)
Definition longest_sequence_8 : nat := 4.
Definition longest_sequence_16 : nat := 2.
Definition longest_sequence_32 : nat := 1.

(* icubaby.hpp:378-396 *)
Definition is_high_surrogate (c : N) : bool := (first_high_surrogate <=? c) && (c <=? last_high_surrogate).
Definition is_low_surrogate (c : N) : bool := (first_low_surrogate <=? c) && (c <=? last_low_surrogate).
Definition is_surrogate (c : N) : bool := is_high_surrogate c || is_low_surrogate c.

(* icubaby.hpp:403-420 the three overloads of is_code_point_start *)
Definition is_start_8 (u : N) : bool := negb (N.land u 0xC0 =? 0x80).
Definition is_start_16 (u : N) : bool := negb (is_low_surrogate u).
Definition is_start_32 (u : N) : bool := negb (is_surrogate u) && (u <=? max_code_point).

(* icubaby.hpp:435-440 length = std::ranges::count_if(range, is_code_point_start) *)
Definition icu_length (start : N -> bool) (l : list N) : nat := length (filter start l).

(* icubaby.hpp:481-490 index: find_if with a counting predicate; the result is the offset of the
   iterator returned.  count is a std::size_t; it cannot wrap because it is below the range's size. *)
Fixpoint icu_index_from (start : N -> bool) (pos : nat) (l : list N) (count : nat) (off : nat) : nat :=
  match l with
  | [] => off
  | u :: l' =>
      if start u then if Nat.eqb count pos then off else icu_index_from start pos l' (S count) (S off)
      else icu_index_from start pos l' count (S off)
  end.
Definition icu_index (start : N -> bool) (l : list N) (pos : nat) : nat := icu_index_from start pos l 0 0.

(* --- the transcoder interface (icubaby.hpp:551-606) ----------------------------------------------------
   tc_op is operator(), tc_end is end_cp; both give the new state and the units written to dest. *)
Record tcdr := Tcdr {
  tc_st : Type;
  tc_init : tc_st;
  tc_op : tc_st -> N -> outcome (tc_st * list N);
  tc_end : tc_st -> outcome (tc_st * list N);
  tc_wf : tc_st -> bool;        (* well_formed() *)
  tc_partial : tc_st -> bool    (* partial() *)
}.

(* the loop a caller writes: for (auto u : input) dest = t(u, dest) *)
Fixpoint feed (T : tcdr) (s : tc_st T) (l : list N) : outcome (tc_st T * list N) :=
  match l with
  | [] => Ok (s, [])
  | u :: l' =>
      do (s1, w1) <- tc_op T s u;
      do (s2, w2) <- feed T s1 l';
      Ok (s2, w1 ++ w2)
  end.
(* ... followed by end_cp and well_formed() *)
Definition transcode (T : tcdr) (l : list N) : outcome (list N * bool) :=
  do (s, w) <- feed T (tc_init T) l;
  do (s', w') <- tc_end T s;
  Ok (w ++ w', tc_wf T s').

(* --- transcoder<char32_t, char8>, icubaby.hpp:702-813 --------------------------------------------------- *)
(* static_cast<char8> / static_cast<char16_t> *)
Definition u8 (n : N) : N := n mod 2 ^ 8.
Definition u16 (n : N) : N := n mod 2 ^ 16.

(* icubaby.hpp:776-780 *)
Definition write2 (c : N) : list N :=
  [u8 (N.lor (N.shiftr c 6) 0xc0); u8 (N.lor (N.land c 0x3f) 0x80)].
(* icubaby.hpp:786-791 *)
Definition write3 (c : N) : list N :=
  [u8 (N.lor (N.shiftr c 12) 0xe0); u8 (N.lor (N.land (N.shiftr c 6) 0x3f) 0x80); u8 (N.lor (N.land c 0x3f) 0x80)].
(* icubaby.hpp:797-803 *)
Definition write4 (c : N) : list N :=
  [u8 (N.lor (N.shiftr c 18) 0xf0); u8 (N.lor (N.land (N.shiftr c 12) 0x3f) 0x80);
   u8 (N.lor (N.land (N.shiftr c 6) 0x3f) 0x80); u8 (N.lor (N.land c 0x3f) 0x80)].

(* icubaby.hpp:717-735 operator() with not_well_formed (808-812), which calls operator() again with
   U+FFFD: the recursion is cut off by fuel, which two steps suffice for.  State: well_formed_. *)
Fixpoint t32_8_call (fuel : nat) (wf : bool) (c : N) : outcome (bool * list N) :=
  match fuel with
  | O => Diverge
  | S fuel =>
      if c <? 0x80 then Ok (wf, [u8 c])
      else if c <? 0x800 then Ok (wf, write2 c)
      else if is_surrogate c then t32_8_call fuel false replacement_char
      else if c <? 0x10000 then Ok (wf, write3 c)
      else if c <=? max_code_point then Ok (wf, write4 c)
      else t32_8_call fuel false replacement_char
  end.
Definition t32_8 : tcdr :=
  {| tc_st := bool; tc_init := true; tc_op := t32_8_call 2; tc_end wf := Ok (wf, []) (* 744-746 *);
     tc_wf wf := wf; tc_partial _ := false |}.

(* --- transcoder<char8, char32_t>, icubaby.hpp:816-942 ---------------------------------------------------- *)
(* icubaby.hpp:910-930 *)
Definition utf8d : list N :=
  [ 0;0;0;0;0;0;0;0;0;0;0;0;0;0;0;0;  0;0;0;0;0;0;0;0;0;0;0;0;0;0;0;0;
    0;0;0;0;0;0;0;0;0;0;0;0;0;0;0;0;  0;0;0;0;0;0;0;0;0;0;0;0;0;0;0;0;
    0;0;0;0;0;0;0;0;0;0;0;0;0;0;0;0;  0;0;0;0;0;0;0;0;0;0;0;0;0;0;0;0;
    0;0;0;0;0;0;0;0;0;0;0;0;0;0;0;0;  0;0;0;0;0;0;0;0;0;0;0;0;0;0;0;0;
    1;1;1;1;1;1;1;1;1;1;1;1;1;1;1;1;  9;9;9;9;9;9;9;9;9;9;9;9;9;9;9;9;
    7;7;7;7;7;7;7;7;7;7;7;7;7;7;7;7;  7;7;7;7;7;7;7;7;7;7;7;7;7;7;7;7;
    8;8;2;2;2;2;2;2;2;2;2;2;2;2;2;2;  2;2;2;2;2;2;2;2;2;2;2;2;2;2;2;2;
   10;3;3;3;3;3;3;3;3;3;3;3;3;4;3;3; 11;6;6;6;5;8;8;8;8;8;8;8;8;8;8;8;

    0;12;24;36;60;96;84;12;12;12;48;72; 12;12;12;12;12;12;12;12;12;12;12;12;
   12; 0;12;12;12;12;12; 0;12; 0;12;12; 12;24;12;12;12;12;12;24;12;24;12;12;
   12;12;12;12;12;12;12;24;12;12;12;12; 12;24;12;12;12;12;12;12;12;24;12;12;
   12;12;12;12;12;12;12;36;12;36;12;12; 12;36;12;12;12;12;12;36;12;36;12;12;
   12;36;12;12;12;12;12;12;12;12;12;12 ].
Definition accept : N := 0.
Definition reject : N := 12.
(* icubaby.hpp:933-941 the bit fields code_point_, well_formed_ and state_ *)
Record s8 := S8 { s8_cp : N; s8_wf : bool; s8_state : N }.

(* icubaby.hpp:843-868.  The subscripts are checked: a bad one is a fault. *)
Definition t8_32_call (s : s8) (u : N) : outcome (s8 * list N) :=
  match nth_error utf8d (N.to_nat u) with
  | None => Fault buffer_overflow
  | Some type =>
      let cp := if negb (s8_state s =? accept)
                then N.lor (N.land u 0x3F) (N.shiftl (s8_cp s) 6 mod 2 ^ 32)
                else N.land (N.shiftr 0xFF type) u in
      let cp := cp mod 2 ^ code_point_bits in
      let idx := 256 + s8_state s + type in
      match nth_error utf8d (N.to_nat idx) with
      | None => Fault assert_failed
      | Some st =>
          if st =? accept then Ok (S8 cp (s8_wf s) st, [cp])
          else if st =? reject then Ok (S8 cp false accept, [replacement_char])
          else Ok (S8 cp (s8_wf s) st, [])
      end
  end.
(* icubaby.hpp:877-884 *)
Definition t8_32_end (s : s8) : outcome (s8 * list N) :=
  if negb (s8_state s =? accept) then Ok (S8 (s8_cp s) false reject, [replacement_char]) else Ok (s, []).
Definition t8_32 : tcdr :=
  {| tc_st := s8; tc_init := S8 0 true accept; tc_op := t8_32_call; tc_end := t8_32_end;
     tc_wf := s8_wf; tc_partial s := negb (s8_state s =? accept) |}.

(* --- transcoder<char32_t, char16_t>, icubaby.hpp:948-1012 ------------------------------------------------- *)
(* icubaby.hpp:967-978; the recursion on U+FFFD is cut off by fuel *)
Fixpoint t32_16_call (fuel : nat) (wf : bool) (c : N) : outcome (bool * list N) :=
  match fuel with
  | O => Diverge
  | S fuel =>
      if is_surrogate c || (max_code_point <? c) then
        do (_, w) <- t32_16_call fuel wf replacement_char; Ok (false, w)
      else if c <=? 0xFFFF then Ok (wf, [u16 c])
      else Ok (wf, [u16 (0xD7C0 + N.shiftr c 10); u16 (first_low_surrogate + N.land c 0x3FF)])
  end.
Definition t32_16 : tcdr :=
  {| tc_st := bool; tc_init := true; tc_op := t32_16_call 2; tc_end wf := Ok (wf, []) (* 987-989 *);
     tc_wf wf := wf; tc_partial _ := false |}.

(* --- transcoder<char16_t, char32_t>, icubaby.hpp:1016-1148 ------------------------------------------------- *)
Definition high_bits : N := 10.
(* icubaby.hpp:1126-1132 *)
Record s16 := S16 { s16_high : N; s16_has : bool; s16_wf : bool }.
(* icubaby.hpp:1141-1147 *)
Definition adjusted_high (u : N) : outcome N :=
  if u <? first_high_surrogate then Fault assert_failed
  else let h := u - first_high_surrogate in
    if (h <? 2 ^ 16 - 1) && (h <? 2 ^ high_bits) then Ok h else Fault assert_failed.
(* icubaby.hpp:1041-1085 *)
Definition t16_32_call (s : s16) (u : N) : outcome (s16 * list N) :=
  if negb (s16_has s) then
    if is_high_surrogate u then
      do h <- adjusted_high u; Ok (S16 h true (s16_wf s), [])
    else if is_low_surrogate u then Ok (S16 (s16_high s) false false, [replacement_char])
    else Ok (s, [u])
  else if is_low_surrogate u then
    Ok (S16 0 false (s16_wf s), [N.shiftl (s16_high s) high_bits + (u - first_low_surrogate) + 0x10000])
  else if is_high_surrogate u then
    do h <- adjusted_high u; Ok (S16 h true false, [replacement_char])
  else Ok (S16 0 false false, [replacement_char; u]).
(* icubaby.hpp:1092-1100 *)
Definition t16_32_end (s : s16) : outcome (s16 * list N) :=
  if s16_has s then Ok (S16 0 false false, [replacement_char]) else Ok (s, []).
Definition t16_32 : tcdr :=
  {| tc_st := s16; tc_init := S16 0 false true; tc_op := t16_32_call; tc_end := t16_32_end;
     tc_wf := s16_wf; tc_partial := s16_has |}.

(* --- transcoder<char32_t, char32_t>, icubaby.hpp:1918-1972 -------------------------------------------------- *)
(* icubaby.hpp:1926-1939 *)
Definition t32_32_call (wf : bool) (c : N) : outcome (bool * list N) :=
  if (max_code_point <? c) || is_surrogate c then Ok (false, [replacement_char]) else Ok (wf, [c]).
Definition t32_32 : tcdr :=
  {| tc_st := bool; tc_init := true; tc_op := t32_32_call; tc_end wf := Ok (wf, []) (* 1947-1949 *);
     tc_wf wf := wf; tc_partial _ := false |}.

(* --- details::triangulator, icubaby.hpp:1803-1899 ------------------------------------------------------------
   [cap] is triangulator_intermediate_code_units<From, To>::value (1803-1810); a write past the
   intermediate array is a fault. *)
Definition tri_op (cap : nat) (I O : tcdr) (s : tc_st I * tc_st O) (u : N) : outcome ((tc_st I * tc_st O) * list N) :=
  do (i, w) <- tc_op I (fst s) u;
  if Nat.ltb cap (length w) then Fault buffer_overflow
  else do (o, w') <- feed O (snd s) w; Ok ((i, o), w').
Definition tri_end (cap : nat) (I O : tcdr) (s : tc_st I * tc_st O) : outcome ((tc_st I * tc_st O) * list N) :=
  do (i, w) <- tc_end I (fst s);
  if Nat.ltb cap (length w) then Fault buffer_overflow
  else do (o, w') <- feed O (snd s) w;
       do (o', w'') <- tc_end O o; Ok ((i, o'), w' ++ w'').
Definition triangulator (cap : nat) (I O : tcdr) : tcdr :=
  {| tc_st := tc_st I * tc_st O; tc_init := (tc_init I, tc_init O);
     tc_op := tri_op cap I O; tc_end := tri_end cap I O;
     tc_wf s := tc_wf I (fst s) && tc_wf O (snd s);          (* 1872-1874 *)
     tc_partial s := tc_partial I (fst s) |}.                (* 1878 *)
(* icubaby.hpp:1904-1916 *)
Definition t8_16 : tcdr := triangulator 1 t8_32 t32_16.
Definition t16_8 : tcdr := triangulator 2 t16_32 t32_8.
Definition t8_8 : tcdr := triangulator 1 t8_32 t32_8.
Definition t16_16 : tcdr := triangulator 2 t16_32 t32_16.

(* --- transcoder<std::byte, ToEncoding>, icubaby.hpp:1150-1795 ------------------------------------------------ *)
(* icubaby.hpp:1150-1158 *)
Inductive encoding := enc_unknown | enc_utf8 | enc_utf16be | enc_utf16le | enc_utf32be | enc_utf32le.
(* icubaby.hpp:1173-1179 *)
Definition boms : list (list N) :=
  [ [0xFE; 0xFF; 0; 0]; [0xFF; 0xFE; 0; 0]; [0; 0; 0xFE; 0xFF]; [0xFF; 0xFE; 0; 0]; [0xEF; 0xBB; 0xBF; 0] ].

(* icubaby.hpp:1357-1380 the fields packed in a states value *)
Definition encoding_shift : N := 4.
Definition endian_shift : N := 3.
Definition run_shift : N := 2.
Definition encoding_mask : N := N.shiftl 3 encoding_shift.
Definition endian_mask : N := N.shiftl 1 endian_shift.
Definition run_mask : N := N.shiftl 1 run_shift.
Definition byte_no_mask : N := 3.
Definition encoding_utf16 : N := N.shiftl 0 encoding_shift.
Definition encoding_utf32 : N := N.shiftl 1 encoding_shift.
Definition encoding_utf8 : N := N.shiftl 2 encoding_shift.
Definition encoding_unknown : N := N.shiftl 3 encoding_shift.
Definition bom_mode : N := 0.
Definition run_mode : N := run_mask.
Definition big_endian : N := 0.
Definition little_endian : N := endian_mask.
(* icubaby.hpp:1425-1484 enum class states *)
Definition mk_state (enc endian mode byte : N) : N := N.lor (N.lor (N.lor enc endian) mode) byte.
Definition st_start : N := N.lor (N.lor encoding_unknown bom_mode) 0.
Definition st_utf8_bom_byte1 : N := mk_state encoding_utf8 big_endian bom_mode 1.
Definition st_utf8_bom_byte2 : N := mk_state encoding_utf8 big_endian bom_mode 2.
Definition st_utf16_be_bom_byte1 : N := mk_state encoding_utf16 big_endian bom_mode 1.
Definition st_utf32_be_bom_byte2 : N := mk_state encoding_utf32 big_endian bom_mode 2.
Definition st_utf32_be_bom_byte3 : N := mk_state encoding_utf32 big_endian bom_mode 3.
Definition st_utf32_or_16_be_bom_byte1 : N := mk_state encoding_utf32 big_endian bom_mode 1.
Definition st_utf32_or_16_le_bom_byte1 : N := mk_state encoding_utf32 little_endian bom_mode 1.
Definition st_utf32_or_16_le_bom_byte2 : N := mk_state encoding_utf32 little_endian bom_mode 2.
Definition st_utf32_le_bom_byte3 : N := mk_state encoding_utf32 little_endian bom_mode 3.
Definition st_run_8 : N := mk_state encoding_utf8 big_endian run_mode 0.
Definition st_run_16be_byte0 : N := mk_state encoding_utf16 big_endian run_mode 0.
Definition st_run_16be_byte1 : N := mk_state encoding_utf16 big_endian run_mode 1.
Definition st_run_16le_byte0 : N := mk_state encoding_utf16 little_endian run_mode 0.
Definition st_run_16le_byte1 : N := mk_state encoding_utf16 little_endian run_mode 1.
Definition st_run_32be_byte0 : N := mk_state encoding_utf32 big_endian run_mode 0.
Definition st_run_32be_byte1 : N := mk_state encoding_utf32 big_endian run_mode 1.
Definition st_run_32be_byte2 : N := mk_state encoding_utf32 big_endian run_mode 2.
Definition st_run_32be_byte3 : N := mk_state encoding_utf32 big_endian run_mode 3.
Definition st_run_32le_byte0 : N := mk_state encoding_utf32 little_endian run_mode 0.
Definition st_run_32le_byte1 : N := mk_state encoding_utf32 little_endian run_mode 1.
Definition st_run_32le_byte2 : N := mk_state encoding_utf32 little_endian run_mode 2.
Definition st_run_32le_byte3 : N := mk_state encoding_utf32 little_endian run_mode 3.

(* icubaby.hpp:1490-1550 *)
Definition is_run_mode (st : N) : bool := N.land st run_mask =? run_mode.
Definition is_little_endian (st : N) : bool := N.land st endian_mask =? little_endian.
Definition byte_no (st : N) : N := N.land st byte_no_mask.
Definition set_byte (st byte : N) : outcome N :=
  if byte <? 4 then Ok (N.lor (N.ldiff st byte_no_mask) byte) else Fault assert_failed.
Definition next_byte (st : N) : outcome N := set_byte st (byte_no st + 1).
Definition set_run_mode (st : N) : outcome N :=
  if N.land st run_mask =? bom_mode then Ok (N.lor (N.ldiff st run_mask) run_mode) else Fault assert_failed.
(* details::boms[boms_index_from_state(state)][byte_no(state)] *)
Definition bom_byte (st : N) : outcome N :=
  match nth_error boms (N.to_nat (N.shiftr st endian_shift)) with
  | None => Fault assert_failed
  | Some row => match nth_error row (N.to_nat (byte_no st)) with None => Fault assert_failed | Some b => Ok b end
  end.

(* icubaby.hpp:1558-1562 state_, buffer_ (four bytes) and transcoder_variant_ *)
Inductive tx_variant (T8 T16 T32 : tcdr) :=
| Vmono | V8 (s : tc_st T8) | V16 (s : tc_st T16) | V32 (s : tc_st T32).
Arguments Vmono {T8 T16 T32}. Arguments V8 {T8 T16 T32} s. Arguments V16 {T8 T16 T32} s. Arguments V32 {T8 T16 T32} s.
Record txs (T8 T16 T32 : tcdr) := Txs { tx_state : N; tx_buf : list N; tx_var : tx_variant T8 T16 T32 }.
Arguments Txs {T8 T16 T32} _ _ _. Arguments tx_state {T8 T16 T32} _. Arguments tx_buf {T8 T16 T32} _.
Arguments tx_var {T8 T16 T32} _.

(* buffer_[i] = v and buffer_[i], i < 4 because it is a byte_no *)
Definition buf_set (b : list N) (i v : N) : list N :=
  firstn (N.to_nat i) b ++ v :: skipn (S (N.to_nat i)) b.
Definition buf_get (b : list N) (i : N) : N := nth (N.to_nat i) b 0.

Section Byte.
Variables T8 T16 T32 : tcdr.
Notation S := (txs T8 T16 T32).

(* icubaby.hpp:1612-1627 *)
Definition run8_start (copy_buffer : bool) (s : S) : outcome (S * list N) :=
  if is_run_mode (tx_state s) then Fault assert_failed
  else match tx_var s with
  | Vmono =>
      let copied := if copy_buffer then firstn (N.to_nat (byte_no (tx_state s) + 1)) (tx_buf s) else [] in
      do (t, w) <- feed T8 (tc_init T8) copied;
      Ok (Txs st_run_8 (tx_buf s) (V8 t), w)
  | _ => Fault assert_failed
  end.
(* icubaby.hpp:1633-1640 *)
Definition run16_start (s : S) : outcome S :=
  if is_run_mode (tx_state s) then Fault assert_failed
  else match tx_var s with
  | Vmono => Ok (Txs (if is_little_endian (tx_state s) then st_run_16le_byte0 else st_run_16be_byte0)
                     (tx_buf s) (V16 (tc_init T16)))
  | _ => Fault assert_failed
  end.
(* icubaby.hpp:1589-1603 *)
Definition start_state (s : S) (v : N) : outcome (S * list N) :=
  let s := Txs (tx_state s) (buf_set (tx_buf s) 0 v) (tx_var s) in
  if v =? 0xEF then Ok (Txs st_utf8_bom_byte1 (tx_buf s) (tx_var s), [])
  else if v =? 0xFE then Ok (Txs st_utf16_be_bom_byte1 (tx_buf s) (tx_var s), [])
  else if v =? 0xFF then Ok (Txs st_utf32_or_16_le_bom_byte1 (tx_buf s) (tx_var s), [])
  else if v =? 0x00 then Ok (Txs st_utf32_or_16_be_bom_byte1 (tx_buf s) (tx_var s), [])
  else run8_start true s.
(* icubaby.hpp:1695-1706 *)
Definition char16_be (b : list N) (v : N) : N := u16 (N.lor (N.shiftl (buf_get b 0) 8) v).
Definition char16_le (b : list N) (v : N) : N := u16 (N.lor (N.shiftl v 8) (buf_get b 0)).
(* icubaby.hpp:1713-1728.  In the little-endian version "value << 24U" is a shift of std::byte, whose
   result is again a std::byte. *)
Definition char32_be (b : list N) (v : N) : N :=
  N.lor (N.lor (N.lor (N.shiftl (buf_get b 0) 24) (N.shiftl (buf_get b 1) 16)) (N.shiftl (buf_get b 2) 8)) v.
Definition char32_le (b : list N) (v : N) : N :=
  N.lor (N.lor (N.lor (u8 (N.shiftl v 24)) (N.shiftl (buf_get b 2) 16)) (N.shiftl (buf_get b 1) 8)) (buf_get b 0).
(* icubaby.hpp:1653-1664 *)
Definition run16 (s : S) (v : N) : outcome (S * list N) :=
  if (tx_state s =? st_run_16be_byte1) || (tx_state s =? st_run_16le_byte1) then
    match tx_var s with
    | V16 t =>
        do (t', w) <- tc_op T16 t (if tx_state s =? st_run_16be_byte1 then char16_be (tx_buf s) v else char16_le (tx_buf s) v);
        do st <- set_byte (tx_state s) 0;
        Ok (Txs st (tx_buf s) (V16 t'), w)
    | _ => Fault assert_failed
    end
  else Fault assert_failed.
(* icubaby.hpp:1677-1688 *)
Definition run32 (s : S) (v : N) : outcome (S * list N) :=
  if (tx_state s =? st_run_32be_byte3) || (tx_state s =? st_run_32le_byte3) then
    match tx_var s with
    | V32 t =>
        do (t', w) <- tc_op T32 t (if tx_state s =? st_run_32be_byte3 then char32_be (tx_buf s) v else char32_le (tx_buf s) v);
        do st <- set_byte (tx_state s) 0;
        Ok (Txs st (tx_buf s) (V32 t'), w)
    | _ => Fault assert_failed
    end
  else Fault assert_failed.
(* the statements of icubaby.hpp:1247-1254, shared by five cases *)
Definition bom_step (s : S) (v : N) : outcome (S * list N) :=
  let buf := buf_set (tx_buf s) (byte_no (tx_state s)) v in
  do b <- bom_byte (tx_state s);
  if v =? b then do st <- next_byte (tx_state s); Ok (Txs st buf (tx_var s), [])
  else run8_start true (Txs (tx_state s) buf (tx_var s)).

(* icubaby.hpp:1216-1295 *)
Definition tx_call (s : S) (v : N) : outcome (S * list N) :=
  let st := tx_state s in
  if st =? st_start then start_state s v
  else if st =? st_utf8_bom_byte2 then
    let s' := Txs st (buf_set (tx_buf s) (byte_no st) v) (tx_var s) in
    do b <- bom_byte st; run8_start (negb (v =? b)) s'
  else if st =? st_utf16_be_bom_byte1 then
    let s' := Txs st (buf_set (tx_buf s) (byte_no st) v) (tx_var s) in
    do b <- bom_byte st;
    if v =? b then do s'' <- run16_start s'; Ok (s'', []) else run8_start true s'
  else if st =? st_utf32_or_16_le_bom_byte2 then
    if negb (v =? 0x00) then
      do s' <- run16_start s; Ok (Txs st_run_16le_byte1 (buf_set (tx_buf s') 0 v) (tx_var s'), [])
    else bom_step s v
  else if (st =? st_utf8_bom_byte1) || (st =? st_utf32_or_16_le_bom_byte1) || (st =? st_utf32_or_16_be_bom_byte1)
       || (st =? st_utf32_be_bom_byte2) then bom_step s v
  else if (st =? st_utf32_le_bom_byte3) || (st =? st_utf32_be_bom_byte3) then
    let s' := Txs st (buf_set (tx_buf s) 3 v) (tx_var s) in
    if v =? (if is_little_endian st then 0x00 else 0xFF) then
      do st1 <- set_byte st 0; do st2 <- set_run_mode st1;
      Ok (Txs st2 (tx_buf s') (V32 (tc_init T32)), [])
    else run8_start true s'
  else if (st =? st_run_16be_byte0) || (st =? st_run_16le_byte0) || (st =? st_run_32be_byte0) || (st =? st_run_32be_byte1)
       || (st =? st_run_32be_byte2) || (st =? st_run_32le_byte0) || (st =? st_run_32le_byte1) || (st =? st_run_32le_byte2) then
    do st' <- next_byte st; Ok (Txs st' (buf_set (tx_buf s) (byte_no st) v) (tx_var s), [])
  else if st =? st_run_8 then
    match tx_var s with
    | V8 t => do (t', w) <- tc_op T8 t v; Ok (Txs st (tx_buf s) (V8 t'), w)
    | _ => Fault assert_failed
    end
  else if (st =? st_run_16be_byte1) || (st =? st_run_16le_byte1) then run16 s v
  else if (st =? st_run_32be_byte3) || (st =? st_run_32le_byte3) then run32 s v
  else Ok (s, []).   (* no case matches: not a value of the enumeration *)
(* icubaby.hpp:1305-1318 *)
Definition tx_end (s : S) : outcome (S * list N) :=
  match tx_var s with
  | Vmono => run8_start (negb (tx_state s =? st_start)) s
  | V8 t => do (t', w) <- tc_end T8 t; Ok (Txs (tx_state s) (tx_buf s) (V8 t'), w)
  | V16 t => do (t', w) <- tc_end T16 t; Ok (Txs (tx_state s) (tx_buf s) (V16 t'), w)
  | V32 t => do (t', w) <- tc_end T32 t; Ok (Txs (tx_state s) (tx_buf s) (V32 t'), w)
  end.
(* icubaby.hpp:1754-1768 *)
Definition tx_wf (s : S) : bool :=
  match tx_var s with Vmono => true | V8 t => tc_wf T8 t | V16 t => tc_wf T16 t | V32 t => tc_wf T32 t end.
(* icubaby.hpp:1734-1749 *)
Definition tx_partial (s : S) : bool :=
  match tx_var s with
  | Vmono => negb (tx_state s =? st_start)
  | V8 t => tc_partial T8 t | V16 t => tc_partial T16 t | V32 t => tc_partial T32 t
  end.
(* icubaby.hpp:1772-1790 *)
Definition selected_encoding (s : S) : outcome encoding :=
  if is_run_mode (tx_state s) then
    let e := N.land (tx_state s) encoding_mask in
    if e =? encoding_unknown then Fault assert_failed
    else if e =? encoding_utf8 then Ok enc_utf8
    else if e =? encoding_utf16 then Ok (if is_little_endian (tx_state s) then enc_utf16le else enc_utf16be)
    else if e =? encoding_utf32 then Ok (if is_little_endian (tx_state s) then enc_utf32le else enc_utf32be)
    else Ok enc_unknown
  else Ok enc_unknown.
Definition tx_init : S := Txs st_start [0; 0; 0; 0] Vmono.
Definition byte_transcoder : tcdr :=
  {| tc_st := S; tc_init := tx_init; tc_op := tx_call; tc_end := tx_end; tc_wf := tx_wf; tc_partial := tx_partial |}.
End Byte.
(* icubaby.hpp:1980-1990 *)
Definition tx_8 : tcdr := byte_transcoder t8_8 t16_8 t32_8.
Definition tx_16 : tcdr := byte_transcoder t8_16 t16_16 t32_16.
Definition tx_32 : tcdr := byte_transcoder t8_32 t16_32 t32_32.

(* --- ranges::transcode_view, icubaby.hpp:2004-2245 -------------------------------------------------------------
   The underlying view is the list [base], an iterator into it an offset (0 .. length base).  [cap] is
   max_output_bytes<From, To> (2060-2068). *)
Section View.
Variable T : tcdr.
Variable cap : nat.
Variable base : list N.

(* icubaby.hpp:2129-2178 class state: next_, the used prefix of out_, transcoder_, first_ and last_; and
   the iterator's current_ (2180).  The mutable flag parent->well_formed_ is threaded separately. *)
Record vit := Vit { v_current : nat; v_next : nat; v_out : list N; v_tc : tc_st T; v_first : N; v_last : N }.

(* the loop of icubaby.hpp:2214-2218; [fuel] bounds the number of input units read.  The units written so
   far are [acc]; writing more than [cap] units is a fault. *)
Fixpoint fill_loop (fuel : nat) (next : nat) (t : tc_st T) (acc : list N) : outcome (nat * tc_st T * list N) :=
  match acc, nth_error base next with
  | [], Some u =>
      match fuel with
      | O => Diverge
      | S fuel =>
          do (t', w) <- tc_op T t u;
          if Nat.ltb cap (length (acc ++ w)) then Fault buffer_overflow else fill_loop fuel (S next) t' (acc ++ w)
      end
  | _, _ => Ok (next, t, acc)
  end.
(* icubaby.hpp:2201-2230.  Gives the new iterator (current_ set to the result, as both callers do) and the
   new value of the view's well_formed_. *)
Definition fill (fuel : nat) (it : vit) (wf : bool) : outcome (vit * bool) :=
  if negb (v_first it =? v_last it) then Fault assert_failed
  else
    do (next, t, out) <- fill_loop fuel (v_next it) (v_tc it) [];
    do (t, out) <-
      (if Nat.eqb next (length base) then do (t', w) <- tc_end T t; Ok (t', out ++ w) else Ok (t, out));
    if Nat.ltb cap (length out) then Fault buffer_overflow
    else Ok (Vit (v_next it) next out t 0 (N.of_nat (length out) mod 2 ^ 4),
             if tc_wf T t then wf else false).
(* icubaby.hpp:2088-2096 begin() *)
Definition vbegin (fuel : nat) (wf : bool) : outcome (vit * bool) :=
  let it := Vit 0 0 [] (tc_init T) 0 0 in
  if Nat.eqb 0 (length base) then Ok (it, wf) else fill fuel it wf.
(* icubaby.hpp:2103 operator* with state::front (2139-2142) *)
Definition vderef (it : vit) : outcome N :=
  if v_first it =? v_last it then Fault assert_failed
  else match nth_error (v_out it) (N.to_nat (v_first it)) with Some u => Ok u | None => Fault assert_failed end.
(* icubaby.hpp:2106-2113 operator++ with state::advance (2145-2148) *)
Definition vnext (fuel : nat) (it : vit) (wf : bool) : outcome (vit * bool) :=
  if v_first it =? v_last it then Fault assert_failed
  else
    let it := Vit (v_current it) (v_next it) (v_out it) (v_tc it) ((v_first it + 1) mod 2 ^ 4) (v_last it) in
    if v_first it =? v_last it then fill fuel it wf else Ok (it, wf).
(* comparison with end(): icubaby.hpp:2121-2125 and 2243; end()'s current_ is the end of the base *)
Definition vdone (it : vit) : bool := Nat.eqb (v_current it) (length base).
(* for (auto u : view) out.push_back(u): what a range-for sees, with the view's well_formed() afterwards *)
Fixpoint vcollect (fuel : nat) (it : vit) (wf : bool) : outcome (list N * bool) :=
  match fuel with
  | O => Diverge
  | S f =>
      if vdone it then Ok ([], wf)
      else
        do u <- vderef it;
        do (it', wf') <- vnext (length base) it wf;
        do (r, wf'') <- vcollect f it' wf';
        Ok (u :: r, wf'')
  end.
Definition view_iterate (fuel : nat) : outcome (list N * bool) :=
  do (it, wf) <- vbegin (length base) true; vcollect fuel it wf.
End View.
(* icubaby.hpp:2060-2068 max_output_bytes *)
Definition max_output_8 : nat := longest_sequence_8.
Definition max_output_16 : nat := longest_sequence_16.
Definition max_output_32 : nat := longest_sequence_32.
Definition max_output_16_8 : nat := 6.
Definition max_output_16_32 : nat := 2.
