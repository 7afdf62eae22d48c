(* Model of percent-encoding and percent-decoding (pctencode.hpp, pctencode.cpp, pctdecode.hpp) with what they do to the outside, in order: each
   reading of a character of the source (dereferencing and moving its iterator taken together), each character written to the
   output iterator, each size that a std::string of theirs is asked to have room for.  Any of these may throw; event, tr and run are
   those of ModelPunyIo.v. *)
From Verif Require Import Base ModelPct ModelPunyIo.
Local Open Scope N_scope.

(* pctencode.hpp:60-69: one turn of the loop, of what is given to *(out++) in turn; [put] is the output iterator's assignment *)
Definition encode_char_t {A} (put : ascii -> A -> tr ascii A) (c : ascii) (es : N) (out : A) : tr ascii A :=
  tdo _ <- emit (Read c);
  tdo b <- pure (needs_byte (code c) es);
  if b then
    tdo out <- put "%"%char out;
    tdo hi <- pure (dec2hex (N.land (N.shiftr (code c) 4) 0xF));
    tdo out <- put hi out;
    tdo lo <- pure (dec2hex (N.land (code c) 0xF));
    put lo out
  else put c out.
(* pctencode.hpp:57-71 *)
Fixpoint encode_range_t {A} (put : ascii -> A -> tr ascii A) (s : str) (es : N) (out : A) : tr ascii A :=
  match s with
  | [] => ret out
  | c :: s' => tdo out <- encode_char_t put c es out; encode_range_t put s' es out
  end.
(* an output iterator that belongs to the caller *)
Definition pctencode_t (s : str) (es : N) : tr ascii unit := encode_range_t (fun c _ => emit (Write c)) s es tt.
(* std::back_insert_iterator: push_back to a string, which then has one character more *)
Definition push_back (c : ascii) (result : str) : tr ascii str := tdo _ <- emit (Grow (S (length result))); ret (result ++ [c]).
(* pctencode.hpp:73-79: reserve, then the loop over a std::back_insert_iterator *)
Definition pctencode_string_t (s : str) (es : N) : tr ascii str :=
  tdo _ <- emit (Grow (length s));
  encode_range_t push_back s es [].

(* pctencode.hpp:48-53, pctencode.cpp:130-134: std::any_of *)
Fixpoint needs_pctencode_t (s : str) (es : N) : tr ascii bool :=
  match s with
  | [] => ret false
  | c :: s' =>
    tdo _ <- emit (Read c);
    tdo b <- pure (needs_byte (code c) es);
    if b then ret true else needs_pctencode_t s' es
  end.
(* pctdecode.hpp:93-96: std::find_if *)
Fixpoint needs_pctdecode_t (s : str) : tr ascii bool :=
  match s with
  | [] => ret false
  | c :: s' => tdo _ <- emit (Read c); if Ascii.eqb c "%" then ret true else needs_pctdecode_t s'
  end.

(* pctdecode.hpp:345-352: reserve, then a range for that appends.  The string that is read from cannot throw, so its readings are
   left out. *)
Fixpoint decode_for_t (fuel : nat) (s result : str) : tr ascii str :=
  match s with
  | [] => ret result
  | _ => match fuel with
         | O => pure Diverge
         | S fuel => tdo c <- pure (deref s); tdo result <- push_back c result; tdo s' <- pure (increment s); decode_for_t fuel s' result
         end
  end.
Definition pctdecode_string_t (s : str) : tr ascii str :=
  tdo _ <- emit (Grow (length s));
  decode_for_t (length s) s [].
