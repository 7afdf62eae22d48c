(* SPECIFICATION for C59: ABNF as text.  A reader for the notation of RFC 5234 (sections 2.1-3.7, 4; the parts of it that
   systemtests/uri.abnf uses), giving rules, and the language of a rule: what can be derived from it.  Written from the
   RFC; the grammar itself is in AbnfText.v. *)
From Verif Require Import Base Rfc3986.
Local Open Scope list_scope.

(* ---- rules and what they derive ----------------------------------------------------------------------------------- *)
Inductive elem :=
| ERef (rulename : str)
| ERange (lo hi : N)                              (* %xlo-hi *)
| ELit (s : str)                                  (* "abc" *)
| ECat (a b : elem)
| EAlt (a b : elem)
| ERep (min : nat) (max : option nat) (a : elem). (* <min>*<max>a, and [ a ] *)
Definition rules := list (str * elem).
(* rule names are case-insensitive (2.1) *)
Definition same_name (a b : str) : Prop := map lower a = map lower b.
Inductive derives (G : rules) : elem -> str -> Prop :=
| d_ref n n' e s : In (n', e) G -> same_name n n' -> derives G e s -> derives G (ERef n) s
| d_range lo hi c : (lo <= code c <= hi)%N -> derives G (ERange lo hi) [c]
| d_lit l s : map lower s = map lower l -> derives G (ELit l) s
| d_cat a b s t : derives G a s -> derives G b t -> derives G (ECat a b) (s ++ t)
| d_left a b s : derives G a s -> derives G (EAlt a b) s
| d_right a b s : derives G b s -> derives G (EAlt a b) s
| d_rep min max a l : Forall (derives G a) l -> min <= length l -> match max with None => True | Some m => length l <= m end ->
    derives G (ERep min max a) (List.concat l).

(* ---- tokens --------------------------------------------------------------------------------------------------------- *)
(* TRule: a line that begins in the first column, so that a rule begins there; other lines continue the one before (4) *)
Inductive token := TRule | TName (s : str) | TStr (s : str) | TNum (n : nat) | TRange (lo hi : N) | TProse (s : str)
  | TStar | TSlash | TEq | TOpen | TClose | TOpt | TEndOpt.
Definition is (l : string) (c : ascii) : bool := existsb (Ascii.eqb c) (ss l).
Definition between (lo hi : N) (c : ascii) : bool := (lo <=? code c)%N && (code c <=? hi)%N.
Definition a_letter (c : ascii) : bool := between 0x41 0x5A c || between 0x61 0x7A c.
Definition a_digit (c : ascii) : bool := between 0x30 0x39 c.
Definition newline : ascii := chr 10.
Fixpoint span (p : ascii -> bool) (s : str) : str * str :=
  match s with
  | c :: s' => if p c then let (a, b) := span p s' in (c :: a, b) else ([], s)
  | [] => ([], [])
  end.
Definition digit_of (c : ascii) : N := if a_digit c then (code c - 48)%N else (code (lower c) - 87)%N.
Definition number (base : N) (s : str) : N := fold_left (fun n c => (n * base + digit_of c)%N) s 0%N.
Definition a_hex (c : ascii) : bool := a_digit c || between 0x41 0x46 c || between 0x61 0x66 c.
Definition cons_to {A} (t : A) (r : option (list A)) : option (list A) := option_map (cons t) r.
Fixpoint tokens (fuel : nat) (line_start : bool) (s : str) : option (list token) :=
  match fuel with
  | O => None
  | S fuel =>
      match s with
      | [] => Some []
      | c :: s' =>
          if Ascii.eqb c newline then tokens fuel true s'
          else if is " " c then tokens fuel false s'
          else if line_start then cons_to TRule (tokens fuel false s)
          else if is ";" c then tokens fuel false (snd (span (fun c => negb (Ascii.eqb c newline)) s'))
          else if is "*" c then cons_to TStar (tokens fuel false s')
          else if is "/" c then cons_to TSlash (tokens fuel false s')
          else if is "=" c then cons_to TEq (tokens fuel false s')
          else if is "(" c then cons_to TOpen (tokens fuel false s')
          else if is ")" c then cons_to TClose (tokens fuel false s')
          else if is "[" c then cons_to TOpt (tokens fuel false s')
          else if is "]" c then cons_to TEndOpt (tokens fuel false s')
          else if Ascii.eqb c (chr 0x22) then
            let (text, rest) := span (fun c => negb (Ascii.eqb c (chr 0x22))) s' in
            match rest with [] => None | _ :: rest => cons_to (TStr text) (tokens fuel false rest) end
          else if is "<" c then
            let (text, rest) := span (fun c => negb (is ">" c)) s' in
            match rest with [] => None | _ :: rest => cons_to (TProse text) (tokens fuel false rest) end
          else if is "%" c then
            match s' with
            | x :: s'' =>
                if is "xX" x then
                  let (lo, rest) := span a_hex s'' in
                  match rest with
                  | d :: rest' => if is "-" d then let (hi, rest) := span a_hex rest' in cons_to (TRange (number 16 lo) (number 16 hi)) (tokens fuel false rest)
                                  else cons_to (TRange (number 16 lo) (number 16 lo)) (tokens fuel false rest)
                  | [] => cons_to (TRange (number 16 lo) (number 16 lo)) (Some [])
                  end
                else None
            | [] => None
            end
          else if a_digit c then let (d, rest) := span a_digit s in cons_to (TNum (N.to_nat (number 10 d))) (tokens fuel false rest)
          else if a_letter c then let (n, rest) := span (fun c => a_letter c || a_digit c || is "-" c) s in cons_to (TName n) (tokens fuel false rest)
          else None
      end
  end.

(* ---- rules ---------------------------------------------------------------------------------------------------------- *)
Definition starts_element (l : list token) : bool :=
  match l with (TName _ | TStr _ | TNum _ | TRange _ _ | TProse _ | TStar | TOpen | TOpt) :: _ => true | _ => false end.
(* the repeat in front of an element (3.6, 3.7): <n>*<m>, <n> or nothing *)
Definition repeat_spec (l : list token) : option (nat * option nat) * list token :=
  match l with
  | TNum n :: TStar :: TNum m :: l => (Some (n, Some m), l)
  | TNum n :: TStar :: l => (Some (n, None), l)
  | TNum n :: l => (Some (n, Some n), l)
  | TStar :: TNum m :: l => (Some (0, Some m), l)
  | TStar :: l => (Some (0, None), l)
  | l => (None, l)
  end.
Section Parse.
(* alternation = concatenation *("/" concatenation); concatenation = repetition *repetition; repetition = [repeat] element *)
Fixpoint alternation (fuel : nat) (l : list token) : option (elem * list token) :=
  match fuel with
  | O => None
  | S fuel =>
      let element l :=
        match l with
        | TName n :: l => Some (ERef n, l)
        | TProse n :: l => Some (ERef n, l)
        | TStr s :: l => Some (ELit s, l)
        | TRange lo hi :: l => Some (ERange lo hi, l)
        | TOpen :: l => match alternation fuel l with Some (e, TClose :: l) => Some (e, l) | _ => None end
        | TOpt :: l => match alternation fuel l with Some (e, TEndOpt :: l) => Some (ERep 0 (Some 1) e, l) | _ => None end
        | _ => None
        end in
      let repetition l :=
        let (r, l) := repeat_spec l in
        match element l with
        | Some (e, l) => Some (match r with Some (n, m) => ERep n m e | None => e end, l)
        | None => None
        end in
      let concatenation := fix concatenation (k : nat) (l : list token) : option (elem * list token) :=
        match k with
        | O => None
        | S k => match repetition l with
                 | Some (e, l) => if starts_element l then match concatenation k l with Some (f, l) => Some (ECat e f, l) | None => None end else Some (e, l)
                 | None => None
                 end
        end in
      let alternatives := fix alternatives (k : nat) (e : elem) (l : list token) : option (elem * list token) :=
        match k with
        | O => None
        | S k => match l with
                 | TSlash :: l => match concatenation (length l) l with Some (f, l) => alternatives k (EAlt e f) l | None => None end
                 | _ => Some (e, l)
                 end
        end in
      match concatenation (length l) l with Some (e, l) => alternatives (S (length l)) e l | None => None end
  end.
End Parse.
(* rulelist = *( rulename "=" alternation ) *)
Fixpoint rulelist (fuel : nat) (l : list token) : option rules :=
  match fuel with
  | O => None
  | S fuel =>
      match l with
      | [] => Some []
      | TRule :: TName n :: TEq :: l =>
          match alternation (S (length l)) l with
          | Some (e, l) => option_map (cons (n, e)) (rulelist fuel l)
          | None => None
          end
      | _ => None
      end
  end.
Definition read_grammar (text : str) : option rules :=
  match tokens (S (2 * length text)) true text with Some l => rulelist (S (length l)) l | None => None end.
