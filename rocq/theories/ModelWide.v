(* Model of the templates of pctencode.hpp and pctdecode.hpp for characters of any width: char8_t, char16_t, char32_t,
   wchar_t.  A character is its value as an unsigned number; an input range is a list of them. *)
From Verif Require Import Base ModelPct.
Local Open Scope N_scope.

(* pctencode.hpp:48-53 (and the call in line 61): the argument of needs_pctencode is a uint_least8_t, so a wider
   character is converted to it *)
Definition to_byte (u : N) : N := u mod 2 ^ 8.
Fixpoint needs_pctencode_wide (s : list N) (es : N) : outcome bool :=
  match s with
  | [] => Ok false
  | c :: s' => do b <- needs_byte (to_byte c) es; if b then Ok true else needs_pctencode_wide s' es
  end.
(* pctencode.hpp:57-71; bits is the width of the characters that the output iterator takes: what is assigned to *out is
   converted to it *)
Definition to_out (bits u : N) : N := u mod 2 ^ bits.
Fixpoint pctencode_wide_loop (bits : N) (s : list N) (es : N) (out : list N) : outcome (list N) :=
  match s with
  | [] => Ok out
  | c :: s' =>
    do b <- needs_byte (to_byte c) es;
    if b then
      do hi <- dec2hex (N.land (N.shiftr c 4) 0xF);
      do lo <- dec2hex (N.land c 0xF);
      pctencode_wide_loop bits s' es (out ++ [to_out bits (code "%")] ++ [to_out bits (code hi)] ++ [to_out bits (code lo)])
    else pctencode_wide_loop bits s' es (out ++ [to_out bits c])
  end.
Definition pctencode_wide (bits : N) (s : list N) (es : N) : outcome (list N) := pctencode_wide_loop bits s es [].

(* pctdecode.hpp:38-58 *)
Definition hex2dec_wide (d : N) : N :=
  if (97 <=? d) && (d <=? 102) then d - (97 - 10)
  else if (65 <=? d) && (d <=? 70) then d - (65 - 10)
  else if (48 <=? d) && (d <=? 57) then d - 48
  else bad.
(* pctdecode.hpp:60-91 *)
Definition increment_wide (s : list N) : outcome (list N) :=
  match s with
  | [] => Fault assert_failed
  | c :: s1 =>
    if (3 <=? N.of_nat (length s)) && (c =? code "%") && negb (either_bad (hex2dec_wide (nth 1 s c)) (hex2dec_wide (nth 2 s c)))
    then Ok (skipn 3 s) else Ok s1
  end.
Definition deref_wide (s : list N) : outcome N :=
  match s with
  | [] => Fault assert_failed
  | c :: _ =>
    if negb (c =? code "%") || (N.of_nat (length s) <? 3) then Ok c
    else
      let nhi := hex2dec_wide (nth 1 s c) in
      let nlo := hex2dec_wide (nth 2 s c) in
      if either_bad nhi nlo then Ok c else Ok (N.lor (N.land (N.shiftl nhi 4) 255) nlo)
  end.
(* for (auto c : s | uri::views::pctdecode) result += c, with a result of the same characters; the same over
   pctdecode_iterator *)
Fixpoint decode_wide_loop (fuel : nat) (s : list N) (result : list N) : outcome (list N) :=
  match s with
  | [] => Ok result
  | _ => match fuel with
         | O => Diverge
         | S fuel => do c <- deref_wide s; do s' <- increment_wide s; decode_wide_loop fuel s' (result ++ [c])
         end
  end.
Definition pctdecode_wide (s : list N) : outcome (list N) := decode_wide_loop (length s) s [].
(* pctdecode.hpp:95-98 *)
Definition needs_pctdecode_wide (s : list N) : bool := existsb (fun c => c =? code "%") s.
