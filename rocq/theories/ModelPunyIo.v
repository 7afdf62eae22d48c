(* Model of punycode::encode and punycode::decode (punycode.hpp) with what they do to the outside, in order: each reading of an element of
   the source (dereferencing and moving its iterator taken together), each character written to the output iterator and each growth of one
   of the two std::u32string they own.  Any of these may throw.  The arithmetic is that of ModelPuny.v. *)
From Verif Require Import Base ModelAlgo ModelPuny.
Local Open Scope N_scope.

(* X: the type of the elements of the source *)
Inductive event (X : Type) := Read (x : X) | Write (c : ascii) | Grow (size : nat).
Arguments Read {X} x. Arguments Write {X} c. Arguments Grow {X} size.

(* what is done if nothing throws, and the result *)
Definition tr (X A : Type) : Type := list (event X) * outcome A.
Definition ret {X A} (a : A) : tr X A := ([], Ok a).
Definition pure {X A} (o : outcome A) : tr X A := ([], o).
Definition emit {X} (e : event X) : tr X unit := ([e], Ok tt).
Definition andthen {X A B} (m : tr X A) (f : A -> tr X B) : tr X B :=
  match snd m with
  | Ok a => (fst m ++ fst (f a), snd (f a))
  | Fault e => (fst m, Fault e)
  | Diverge => (fst m, Diverge)
  end.
Notation "'tdo' x <- m ; f" := (andthen m (fun x => f)) (at level 200, x pattern, m at level 100, f at level 200).

(* running it: [refuses h e] says whether e throws after the history h *)
Inductive ran (X A : Type) := Returned (h : list (event X)) (o : outcome A) | Threw (h : list (event X)) (e : event X).
Arguments Returned {X A} h o. Arguments Threw {X A} h e.
Fixpoint run_from {X A} (refuses : list (event X) -> event X -> bool) (h todo : list (event X)) (o : outcome A) : ran X A :=
  match todo with
  | [] => Returned h o
  | e :: todo => if refuses h e then Threw h e else run_from refuses (h ++ [e]) todo o
  end.
Definition run {X A} (refuses : list (event X) -> event X -> bool) (t : tr X A) : ran X A := run_from refuses [] (fst t) (snd t).

(* punycode.hpp:93-107 *)
Fixpoint encode_vli_loop_t (fuel : nat) (k q bias : N) : tr N unit :=
  match fuel with
  | O => pure Diverge
  | S fuel =>
    let t := clamp k bias in
    if q <? t then tdo d <- pure (encode_digit (w32 q)); emit (Write d)
    else if base <? t then pure (Fault assert_failed)
    else if base - t =? 0 then pure (Fault div_zero)
    else tdo d <- pure (encode_digit (w32 (w64 (t + (q - t) mod (base - t)))));
         tdo _ <- emit (Write d);
         encode_vli_loop_t fuel (w32 (k + base)) ((q - t) / (base - t)) bias
  end.
Definition encode_vli_t (q bias : N) : tr N unit := encode_vli_loop_t fuel64 base q bias.

(* punycode.hpp:166-176: i, delta, bias *)
Fixpoint encode_pass_t (range : list N) (n num_basics : N) (s : N * N * N) : tr N (N * N * N) :=
  match range with
  | [] => ret s
  | c :: range' =>
    tdo _ <- emit (Read c);
    let '(i, delta, bias) := s in
    if c <? n then encode_pass_t range' n num_basics (i, w64 (delta + 1), bias)
    else if c =? n then
      tdo _ <- encode_vli_t delta bias;
      tdo bias <- pure (adapt delta (w64 (i + 1)) (i =? num_basics));
      encode_pass_t range' n num_basics (w64 (i + 1), 0, bias)
    else encode_pass_t range' n num_basics s
  end.
(* punycode.hpp:161-179 *)
Fixpoint encode_loop_t (non_basic range : list N) (n num_basics : N) (s : N * N * N) : tr N unit :=
  match non_basic with
  | [] => ret tt
  | m :: non_basic' =>
    if m <? n then pure (Fault assert_failed)
    else
      let '(i, delta, bias) := s in
      tdo (i, delta, bias) <- encode_pass_t range m num_basics (i, w64 (delta + w64 ((m - n) * w64 (i + 1))), bias);
      encode_loop_t non_basic' range (w64 (m + 1)) num_basics (i, w64 (delta + 1), bias)
  end.
(* punycode.hpp:140-147: the first pass, which gives non_basic and num_basics *)
Fixpoint first_pass_t (range non_basic : list N) (num_basics : N) : tr N (list N * N) :=
  match range with
  | [] => ret (non_basic, num_basics)
  | c :: range' =>
    tdo _ <- emit (Read c);
    if is_basic_code_point c then tdo _ <- emit (Write (chr c)); first_pass_t range' non_basic (w64 (num_basics + 1))
    else tdo _ <- emit (Grow (S (length non_basic))); first_pass_t range' (non_basic ++ [c]) num_basics
  end.
(* punycode.hpp:131-182: the flag that is returned *)
Definition encode_t (range : list N) (allow_plain : bool) : tr N bool :=
  tdo (non_basic, num_basics) <- first_pass_t range [] 0;
  let any := match non_basic with [] => false | _ => true end in
  if allow_plain && negb any then ret false
  else
    let non_basic := sort_and_remove_duplicates non_basic in
    tdo _ <- (if 0 <? num_basics then emit (Write delimiter) else ret tt);
    tdo _ <- encode_loop_t non_basic range initial_n num_basics (num_basics, 0, initial_bias);
    ret (match non_basic with [] => false | _ => true end).

(* punycode.hpp:223-256 *)
Fixpoint decode_vli_loop_t (first : str) (k w vli bias : N) : tr ascii (dresult (N * str)) :=
  match first with
  | [] => ret (inr bad_input)
  | c :: first' =>
    tdo _ <- emit (Read c);
    let digit := decode_digit (code c) in
    if base <? digit then pure (Fault assert_failed)
    else if base <=? digit then ret (inr bad_input)
    else if w =? 0 then pure (Fault div_zero)
    else if (size_max - vli) / w <? digit then ret (inr overflow)
    else
      let vli := w64 (vli + w64 (digit * w)) in
      let t := clamp k bias in
      if digit <? t then ret (inl (vli, first'))
      else if base - t =? 0 then pure (Fault div_zero)
      else if size_max / (base - t) <? w then ret (inr overflow)
      else decode_vli_loop_t first' (w32 (k + base)) (w64 (w * (base - t))) vli bias
  end.
Definition decode_vli_t (first : str) (vli bias : N) : tr ascii (dresult (N * str)) := decode_vli_loop_t first base 1 vli bias.
(* punycode.hpp:258-277, find_last.hpp:46-69: the search for the last delimiter reads from the end; under !NDEBUG what was found is
   checked by reading the range from its beginning *)
Definition reading (s : str) : list (event ascii) := map Read s.
Definition search_t (asserts : bool) (s : str) : tr ascii (nat * nat) :=
  let is := fun c => Ascii.eqb c delimiter in
  (reading (firstn (S (ranges_find is (rev s))) (rev s)) ++ (if asserts && existsb is s then reading s else []), find_last_bidi is s).
Fixpoint copy_basic_t (s : str) (out : list N) : tr ascii (dresult (list N)) :=
  match s with
  | [] => ret (inl out)
  | c :: s' =>
    tdo _ <- emit (Read c);
    if is_basic_code_point (code c) then tdo _ <- emit (Grow (S (length out))); copy_basic_t s' (out ++ [code c]) else ret (inr bad_input)
  end.
Definition copy_plain_ascii_part_t (asserts : bool) (s : str) : tr ascii (dresult (list N * str)) :=
  tdo (b, e) <- search_t asserts s;
  if Nat.eqb b e then ret (inl ([], s))
  else tdo r <- copy_basic_t (firstn b s) [];
       match r with inr err => ret (inr err) | inl out => ret (inl (out, skipn (S b) s)) end.
(* punycode.hpp:279-314 *)
Fixpoint decode_loop_t (fuel : nat) (inp : str) (n index bias : N) (output : list N) : tr ascii (dresult (list N)) :=
  match inp with
  | [] => ret (inl output)
  | _ =>
    match fuel with
    | O => pure Diverge
    | S fuel =>
      tdo r <- decode_vli_t inp index bias;
      match r with
      | inr err => ret (inr err)
      | inl (index', inp') =>
        let old_vli := index in
        let output_length := w64 (N.of_nat (length output) + 1) in
        if index' <? old_vli then pure (Fault assert_failed)
        else
        tdo bias <- pure (adapt (index' - old_vli) output_length (old_vli =? 0));
        if 2 ^ 32 - 1 <? n then pure (Fault assert_failed)
        else if 2 ^ 32 - 1 - n <? index' / output_length then ret (inr overflow)
        else
          let n := w64 (n + index' / output_length) in
          let index := index' mod output_length in
          tdo _ <- emit (Grow (S (length output)));
          tdo output <- pure (string_insert output index (w32 n));
          decode_loop_t fuel inp' n (w64 (index + 1)) bias output
      end
    end
  end.
(* punycode.hpp:322-344 *)
Definition decode_t (asserts : bool) (s : str) : tr ascii (dresult (list N)) :=
  tdo r <- copy_plain_ascii_part_t asserts s;
  match r with
  | inr err => ret (inr err)
  | inl (output, inp) => decode_loop_t (S (length inp)) inp initial_n 0 initial_bias output
  end.
