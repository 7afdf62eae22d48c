(* Model of include/uri/punycode.hpp.  char32_t values are N (below 2^32); std::size_t has 64 bits and
   unsigned 32, with every operation that could wrap written modulo.  Subtractions are guarded by the
   comparisons of the code. *)
From Verif Require Import Base ModelAlgo.
Local Open Scope N_scope.

Definition w64 (x : N) : N := x mod 2 ^ 64.
Definition w32 (x : N) : N := x mod 2 ^ 32.
Definition size_max : N := 2 ^ 64 - 1.

(* punycode.hpp:52-59 *)
Definition damp : N := 700.
Definition base : N := 36.
Definition tmin : N := 1.
Definition tmax : N := 26.
Definition skew : N := 38.
Definition initial_bias : N := 72.
Definition initial_n : N := 0x80.
Definition delimiter : ascii := "-"%char.

(* punycode.hpp:64-66 *)
Definition is_basic_code_point (c : N) : bool := c <? 0x80.

(* punycode.hpp:72-80 *)
Definition encode_digit (d : N) : outcome ascii :=
  if d <? 36 then if d <? 26 then Ok (chr (d + 97)) else Ok (chr (d - 26 + 48))
  else Fault assert_failed.

(* punycode.hpp:82-91, and clampk, punycode.hpp:209-220, which is the same text *)
Definition clamp (k bias : N) : N :=
  if k <=? bias then tmin else if w64 (bias + tmax) <=? k then tmax else k - bias.

(* The number of iterations allowed to a loop that divides a 64-bit number by at least 2 each time.
   Running out is [Diverge]. *)
Definition fuel64 : nat := 64.

(* punycode.hpp:93-107.  k is a 32-bit unsigned.  The result is the output followed by what is written. *)
Fixpoint encode_vli_loop (fuel : nat) (k q bias : N) (out : str) : outcome str :=
  match fuel with
  | O => Diverge
  | S fuel =>
    let t := clamp k bias in
    if q <? t then do d <- encode_digit (w32 q); Ok (out ++ [d])
    else if base <? t then Fault assert_failed
    else if base - t =? 0 then Fault div_zero
    else do d <- encode_digit (w32 (w64 (t + (q - t) mod (base - t))));
         encode_vli_loop fuel (w32 (k + base)) ((q - t) / (base - t)) bias (out ++ [d])
  end.
Definition encode_vli (q bias : N) (out : str) : outcome str := encode_vli_loop fuel64 base q bias out.

(* punycode.hpp:109-119 *)
Fixpoint adapt_loop (fuel : nat) (delta k : N) : outcome N :=
  match fuel with
  | O => Diverge
  | S fuel =>
    if (base - tmin) * tmax / 2 <? delta then adapt_loop fuel (delta / (base - tmin)) (w32 (k + base))
    else Ok (w64 (k + w64 ((base - tmin + 1) * delta) / w64 (delta + skew)))
  end.
Definition adapt (delta numpoints : N) (firsttime : bool) : outcome N :=
  let delta := if firsttime then delta / damp else N.shiftr delta 1 in
  if numpoints =? 0 then Fault div_zero
  else adapt_loop fuel64 (w64 (delta + delta / numpoints)) 0.

(* punycode.hpp:121-127  std::sort (any sorting of integers gives this list), std::unique, erase *)
Fixpoint insert_sorted (x : N) (l : list N) : list N :=
  match l with [] => [x] | y :: l' => if x <=? y then x :: l else y :: insert_sorted x l' end.
Definition sort (l : list N) : list N := fold_right insert_sorted [] l.
Fixpoint unique (l : list N) : list N :=
  match l with
  | [] => []
  | x :: l' => match l' with
               | [] => [x]
               | y :: _ => if x =? y then unique l' else x :: unique l'
               end
  end.
Definition sort_and_remove_duplicates (l : list N) : list N := unique (sort l).

(* the variables captured by the inner lambda, punycode.hpp:166-176 *)
Record enc_state := { e_out : str; e_i : N; e_delta : N; e_bias : N }.

(* punycode.hpp:166-176  for each code point of the input *)
Fixpoint encode_pass (range : list N) (n num_basics : N) (s : enc_state) : outcome enc_state :=
  match range with
  | [] => Ok s
  | c :: range' =>
    if c <? n then
      encode_pass range' n num_basics
        {| e_out := e_out s; e_i := e_i s; e_delta := w64 (e_delta s + 1); e_bias := e_bias s |}
    else if c =? n then
      do out <- encode_vli (e_delta s) (e_bias s) (e_out s);
      do bias <- adapt (e_delta s) (w64 (e_i s + 1)) (e_i s =? num_basics);
      encode_pass range' n num_basics
        {| e_out := out; e_i := w64 (e_i s + 1); e_delta := 0; e_bias := bias |}
    else encode_pass range' n num_basics s
  end.

(* punycode.hpp:161-179 *)
Fixpoint encode_loop (non_basic range : list N) (n num_basics : N) (s : enc_state) : outcome str :=
  match non_basic with
  | [] => Ok (e_out s)
  | m :: non_basic' =>
    if m <? n then Fault assert_failed
    else
      do s <- encode_pass range m num_basics
                {| e_out := e_out s; e_i := e_i s;
                   e_delta := w64 (e_delta s + w64 ((m - n) * w64 (e_i s + 1))); e_bias := e_bias s |};
      encode_loop non_basic' range (w64 (m + 1)) num_basics
        {| e_out := e_out s; e_i := e_i s; e_delta := w64 (e_delta s + 1); e_bias := e_bias s |}
  end.

(* punycode.hpp:131-182.  The result is what is written to output and the returned flag; the returned
   input iterator is always the end of the range. *)
Definition encode (range : list N) (allow_plain : bool) : outcome (str * bool) :=
  let output := map (fun cp => chr cp) (filter is_basic_code_point range) in
  let num_basics := w64 (N.of_nat (length (filter is_basic_code_point range))) in
  let non_basic := filter (fun cp => negb (is_basic_code_point cp)) range in
  let any := match non_basic with [] => false | _ => true end in
  if allow_plain && negb any then Ok (output, false)
  else
    let non_basic := sort_and_remove_duplicates non_basic in
    let output := if 0 <? num_basics then output ++ [delimiter] else output in
    do out <- encode_loop non_basic range initial_n num_basics
                {| e_out := output; e_i := num_basics; e_delta := 0; e_bias := initial_bias |};
    Ok (out, match non_basic with [] => false | _ => true end).

(* punycode.hpp:37-41 *)
Inductive derr := bad_input | overflow.
Definition dresult (A : Type) : Type := A + derr.

(* punycode.hpp:197-207 on a byte; cp -= 32 cannot go below 0 there *)
Definition decode_digit (cp : N) : N :=
  if (48 <=? cp) && (cp <=? 57) then cp - (48 - 26)
  else let cp := if 97 <=? cp then cp - 32 else cp in
       if (65 <=? cp) && (cp <=? 90) then cp - 65 else base.

(* punycode.hpp:223-256.  The iterators are the list of remaining characters. *)
Fixpoint decode_vli_loop (first : str) (k w vli bias : N) : outcome (dresult (N * str)) :=
  match first with
  | [] => Ok (inr bad_input)
  | c :: first' =>
    let digit := decode_digit (code c) in
    if base <? digit then Fault assert_failed
    else if base <=? digit then Ok (inr bad_input)
    else if w =? 0 then Fault div_zero
    else if (size_max - vli) / w <? digit then Ok (inr overflow)
    else
      let vli := w64 (vli + w64 (digit * w)) in
      let t := clamp k bias in
      if digit <? t then Ok (inl (vli, first'))
      else if base - t =? 0 then Fault div_zero
      else if size_max / (base - t) <? w then Ok (inr overflow)
      else decode_vli_loop first' (w32 (k + base)) (w64 (w * (base - t))) vli bias
  end.
Definition decode_vli (first : str) (vli bias : N) : outcome (dresult (N * str)) :=
  decode_vli_loop first base 1 vli bias.

(* punycode.hpp:258-277: the output and the position to continue from *)
Fixpoint copy_basic (s : str) (out : list N) : dresult (list N) :=
  match s with
  | [] => inl out
  | c :: s' => if is_basic_code_point (code c) then copy_basic s' (out ++ [code c]) else inr bad_input
  end.
Definition copy_plain_ascii_part (s : str) : outcome (dresult (list N * str)) :=
  do r <- find_last_bidi (fun c => Ascii.eqb c delimiter) s;
  let (b, e) := r in
  if Nat.eqb b e then Ok (inl ([], s))
  else match copy_basic (firstn b s) [] with
       | inr err => Ok (inr err)
       | inl out => Ok (inl (out, skipn (S b) s))
       end.

(* std::basic_string::insert (pos, 1, c): throws std::out_of_range if pos > size *)
Definition string_insert (l : list N) (pos : N) (c : N) : outcome (list N) :=
  if N.of_nat (length l) <? pos then Fault out_of_range
  else Ok (firstn (N.to_nat pos) l ++ c :: skipn (N.to_nat pos) l).

(* punycode.hpp:279-314 *)
Fixpoint decode_loop (fuel : nat) (inp : str) (n index bias : N) (output : list N)
  : outcome (dresult (list N)) :=
  match inp with
  | [] => Ok (inl output)
  | _ =>
    match fuel with
    | O => Diverge
    | S fuel =>
      do r <- decode_vli inp index bias;
      match r with
      | inr err => Ok (inr err)
      | inl (index', inp') =>
        let old_vli := index in
        let output_length := w64 (N.of_nat (length output) + 1) in
        if index' <? old_vli then Fault assert_failed            (* index - old_vli would wrap *)
        else
        do bias <- adapt (index' - old_vli) output_length (old_vli =? 0);
        if 2 ^ 32 - 1 <? n then Fault assert_failed               (* max - n would wrap *)
        else if 2 ^ 32 - 1 - n <? index' / output_length then Ok (inr overflow)
        else
          let n := w64 (n + index' / output_length) in
          let index := index' mod output_length in
          do output <- string_insert output index (w32 n);
          decode_loop fuel inp' n (w64 (index + 1)) bias output
      end
    end
  end.

(* punycode.hpp:322-344 *)
Definition decode (s : str) : outcome (dresult (list N)) :=
  do r <- copy_plain_ascii_part s;
  match r with
  | inr err => Ok (inr err)
  | inl (output, inp) => decode_loop (S (length inp)) inp initial_n 0 initial_bias output
  end.
