(* Model of punycode::encode and punycode::decode (punycode.hpp) with a count of what they do: the text of ModelPuny.v
   and a counter.  Not counted: std::sort and std::unique on the non-basic code points (the standard bounds the
   comparisons by a multiple of k log k), the moves made when std::string or std::u32string grows (amortised constant for
   each element appended), and the assertions of find_last. *)
From Verif Require Import Base ModelAlgo ModelPuny.
From Verif Require ModelParts.
Local Open Scope N_scope.

(* reads: elements read through the iterators of the given range; writes: characters assigned through the output
   iterator, or appended to the result string; moves: elements that std::u32string::insert moves to make room;
   loops: iterations of the while loop of adapt *)
Record work := Work { reads : N; writes : N; moves : N; loops : N }.
Definition no_work : work := Work 0 0 0 0.
Definition read (k : N) (w : work) : work := Work (reads w + k) (writes w) (moves w) (loops w).
Definition write (k : N) (w : work) : work := Work (reads w) (writes w + k) (moves w) (loops w).
Definition move (k : N) (w : work) : work := Work (reads w) (writes w) (moves w + k) (loops w).
Definition loop (k : N) (w : work) : work := Work (reads w) (writes w) (moves w) (loops w + k).

(* punycode.hpp:93-107: one character is written in each iteration and one behind the loop *)
Fixpoint encode_vli_loop_w (fuel : nat) (k q bias : N) (out : str) (w : work) : outcome (str * work) :=
  match fuel with
  | O => Diverge
  | S fuel =>
    let t := clamp k bias in
    if q <? t then do d <- encode_digit (w32 q); Ok (out ++ [d], write 1 w)
    else if base <? t then Fault assert_failed
    else if base - t =? 0 then Fault div_zero
    else do d <- encode_digit (w32 (w64 (t + (q - t) mod (base - t))));
         encode_vli_loop_w fuel (w32 (k + base)) ((q - t) / (base - t)) bias (out ++ [d]) (write 1 w)
  end.
Definition encode_vli_w (q bias : N) (out : str) (w : work) : outcome (str * work) := encode_vli_loop_w fuel64 base q bias out w.

(* punycode.hpp:109-119 *)
Fixpoint adapt_loop_w (fuel : nat) (delta k : N) (w : work) : outcome (N * work) :=
  match fuel with
  | O => Diverge
  | S fuel =>
    if (base - tmin) * tmax / 2 <? delta then adapt_loop_w fuel (delta / (base - tmin)) (w32 (k + base)) (loop 1 w)
    else Ok (w64 (k + w64 ((base - tmin + 1) * delta) / w64 (delta + skew)), w)
  end.
Definition adapt_w (delta numpoints : N) (firsttime : bool) (w : work) : outcome (N * work) :=
  let delta := if firsttime then delta / damp else N.shiftr delta 1 in
  if numpoints =? 0 then Fault div_zero
  else adapt_loop_w fuel64 (w64 (delta + delta / numpoints)) 0 w.

(* punycode.hpp:166-176 *)
Fixpoint encode_pass_w (range : list N) (n num_basics : N) (s : enc_state) (w : work) : outcome (enc_state * work) :=
  match range with
  | [] => Ok (s, w)
  | c :: range' =>
    let w := read 1 w in
    if c <? n then
      encode_pass_w range' n num_basics
        {| e_out := e_out s; e_i := e_i s; e_delta := w64 (e_delta s + 1); e_bias := e_bias s |} w
    else if c =? n then
      do (out, w) <- encode_vli_w (e_delta s) (e_bias s) (e_out s) w;
      do (bias, w) <- adapt_w (e_delta s) (w64 (e_i s + 1)) (e_i s =? num_basics) w;
      encode_pass_w range' n num_basics
        {| e_out := out; e_i := w64 (e_i s + 1); e_delta := 0; e_bias := bias |} w
    else encode_pass_w range' n num_basics s w
  end.

(* punycode.hpp:161-179 *)
Fixpoint encode_loop_w (non_basic range : list N) (n num_basics : N) (s : enc_state) (w : work) : outcome (str * work) :=
  match non_basic with
  | [] => Ok (e_out s, w)
  | m :: non_basic' =>
    if m <? n then Fault assert_failed
    else
      do (s, w) <- encode_pass_w range m num_basics
                {| e_out := e_out s; e_i := e_i s;
                   e_delta := w64 (e_delta s + w64 ((m - n) * w64 (e_i s + 1))); e_bias := e_bias s |} w;
      encode_loop_w non_basic' range (w64 (m + 1)) num_basics
        {| e_out := e_out s; e_i := e_i s; e_delta := w64 (e_delta s + 1); e_bias := e_bias s |} w
  end.

(* punycode.hpp:131-182.  The first pass reads every element and writes the basic ones; the delimiter is one more
   character. *)
Definition encode_w (range : list N) (allow_plain : bool) : outcome (str * bool * work) :=
  let output := map (fun cp => chr cp) (filter is_basic_code_point range) in
  let num_basics := w64 (N.of_nat (length (filter is_basic_code_point range))) in
  let non_basic := filter (fun cp => negb (is_basic_code_point cp)) range in
  let any := match non_basic with [] => false | _ => true end in
  let w := write (N.of_nat (length output)) (read (N.of_nat (length range)) no_work) in
  if allow_plain && negb any then Ok (output, false, w)
  else
    let non_basic := sort_and_remove_duplicates non_basic in
    let w := if 0 <? num_basics then write 1 w else w in
    let output := if 0 <? num_basics then output ++ [delimiter] else output in
    do (out, w) <- encode_loop_w non_basic range initial_n num_basics
                {| e_out := output; e_i := num_basics; e_delta := 0; e_bias := initial_bias |} w;
    Ok (out, match non_basic with [] => false | _ => true end, w).

(* punycode.hpp:223-256 *)
Fixpoint decode_vli_loop_w (first : str) (k w vli bias : N) (u : work) : outcome (dresult (N * str) * work) :=
  match first with
  | [] => Ok (inr bad_input, u)
  | c :: first' =>
    let u := read 1 u in
    let digit := decode_digit (code c) in
    if base <? digit then Fault assert_failed
    else if base <=? digit then Ok (inr bad_input, u)
    else if w =? 0 then Fault div_zero
    else if (size_max - vli) / w <? digit then Ok (inr overflow, u)
    else
      let vli := w64 (vli + w64 (digit * w)) in
      let t := clamp k bias in
      if digit <? t then Ok (inl (vli, first'), u)
      else if base - t =? 0 then Fault div_zero
      else if size_max / (base - t) <? w then Ok (inr overflow, u)
      else decode_vli_loop_w first' (w32 (k + base)) (w64 (w * (base - t))) vli bias u
  end.
Definition decode_vli_w (first : str) (vli bias : N) (u : work) : outcome (dresult (N * str) * work) :=
  decode_vli_loop_w first base 1 vli bias u.

(* punycode.hpp:258-277.  find_last reads from the back until it meets the delimiter. *)
Fixpoint copy_basic_w (s : str) (out : list N) (u : work) : dresult (list N) * work :=
  match s with
  | [] => (inl out, u)
  | c :: s' => if is_basic_code_point (code c) then copy_basic_w s' (out ++ [code c]) (write 1 (read 1 u))
               else (inr bad_input, read 1 u)
  end.
Definition copy_plain_ascii_part_w (s : str) (u : work) : outcome (dresult (list N * str) * work) :=
  do r <- find_last_bidi (fun c => Ascii.eqb c delimiter) s;
  let (b, e) := r in
  if Nat.eqb b e then Ok (inl ([], s), read (N.of_nat (length s)) u)
  else match copy_basic_w (firstn b s) [] (read (N.of_nat (length s - b)) u) with
       | (inr err, u) => Ok (inr err, u)
       | (inl out, u) => Ok (inl (out, skipn (S b) s), u)
       end.

(* punycode.hpp:279-314: insert (index, 1, n) moves the elements from index on and writes one *)
Fixpoint decode_loop_w (fuel : nat) (inp : str) (n index bias : N) (output : list N) (u : work)
  : outcome (dresult (list N) * work) :=
  match inp with
  | [] => Ok (inl output, u)
  | _ =>
    match fuel with
    | O => Diverge
    | S fuel =>
      do (r, u) <- decode_vli_w inp index bias u;
      match r with
      | inr err => Ok (inr err, u)
      | inl (index', inp') =>
        let old_vli := index in
        let output_length := w64 (N.of_nat (length output) + 1) in
        if index' <? old_vli then Fault assert_failed
        else
        do (bias, u) <- adapt_w (index' - old_vli) output_length (old_vli =? 0) u;
        if 2 ^ 32 - 1 <? n then Fault assert_failed
        else if 2 ^ 32 - 1 - n <? index' / output_length then Ok (inr overflow, u)
        else
          let n := w64 (n + index' / output_length) in
          let index := index' mod output_length in
          let u := write 1 (move (N.of_nat (length output) - index) u) in
          do output <- string_insert output index (w32 n);
          decode_loop_w fuel inp' n (w64 (index + 1)) bias output u
      end
    end
  end.

(* punycode.hpp:322-344 *)
Definition decode_w (s : str) : outcome (dresult (list N) * work) :=
  do (r, u) <- copy_plain_ascii_part_w s no_work;
  match r with
  | inr err => Ok (inr err, u)
  | inl (output, inp) => decode_loop_w (S (length inp)) inp initial_n 0 initial_bias output u
  end.

(* ---- a host of several labels ---------------------------------------------------------------------------------- *)
Definition plus (a b : work) : work := Work (reads a + reads b) (writes a + writes b) (moves a + moves b) (loops a + loops b).
Local Notation length_of l := (N.of_nat (length l)).
(* parts.hpp:118-149: each label is encoded to a string which is then copied to out *)
Fixpoint puny_encoded_loop_w (fuel : nat) (range : list N) (out : str) (any_needed : bool) (w : work) : outcome (str * bool * work) :=
  match fuel with
  | O => Diverge
  | S fuel =>
      let (label, inp) := ModelParts.take_while ModelParts.is_not_dot range in
      do (segment, any_non_ascii, w1) <- encode_w label true;
      let w := plus w w1 in
      let w := if any_non_ascii then write (length_of ModelParts.idna_prefix) w else w in
      let out := if any_non_ascii then out ++ ModelParts.idna_prefix else out in
      let any_needed := if any_non_ascii then true else any_needed in
      let w := write (length_of segment) w in
      let out := out ++ segment in
      match inp with
      | [] => Ok (out, any_needed, w)
      | _ :: next => puny_encoded_loop_w fuel next (out ++ ["."%char]) any_needed (write 1 w)
      end
  end.
Definition puny_encoded_w (range : list N) : outcome (str * bool * work) := puny_encoded_loop_w (S (length range)) range [] false no_work.

(* parts.hpp:172-218: starts_with reads at most the four characters of the prefix; a label that is not Punycode is read
   and written once; the work of the transcode view is counted by the bytes it yields *)
Fixpoint puny_decoded_loop_w (fuel : nat) (first : str) (out : str) (any_encoded : bool) (w : work)
  : outcome (str * dresult bool * work) :=
  match fuel with
  | O => Diverge
  | S fuel =>
      let (label, rest) := ModelParts.take_while (fun c => ModelParts.is_not_dot (code c)) first in
      let continue out any w :=
        match rest with
        | [] => Ok (out, inl any, w)
        | _ :: next => puny_decoded_loop_w fuel next (out ++ ["."%char]) any (write 1 w)
        end in
      let w := read 4 w in
      if starts_with Ascii.eqb label ModelParts.idna_prefix then
        do (r, w1) <- decode_w (skipn (length ModelParts.idna_prefix) label);
        let w := plus w w1 in
        match r with
        | inl u => do t <- ModelParts.to_utf8 u; continue (out ++ t) true (write (length_of t) w)
        | inr erc => Ok (out, inr erc, w)
        end
      else continue (out ++ label) any_encoded (write (length_of label) (read (length_of label) w))
  end.
Definition puny_decoded_w (s : str) : outcome (str * dresult bool * work) := puny_decoded_loop_w (S (length s)) s [] false no_work.
