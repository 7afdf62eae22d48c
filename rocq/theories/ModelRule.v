(* Model of include/uri/rule.hpp and lib/uri/rule.cpp. *)
From Verif Require Import Base.
Local Open Scope Z_scope.

(* --- <cctype>, "C" locale ------------------------------------------------ *)

(* static_cast<int> (c) of a char; [sg] says whether char is signed. *)
Definition as_int (sg : bool) (c : ascii) : Z :=
  let n := Z.of_N (code c) in if sg && (128 <=? n) then n - 256 else n.

(* C17 7.4p1: the argument shall be representable as unsigned char or equal EOF (-1). *)
Definition ctype_dom (i : Z) : bool := (i =? -1) || ((0 <=? i) && (i <=? 255)).
Definition ctype (f : Z -> bool) (i : Z) : outcome bool :=
  if ctype_dom i then Ok (f i) else Fault ctype_domain.
Definition c_isdigit (i : Z) : bool := (48 <=? i) && (i <=? 57).
Definition c_isupper (i : Z) : bool := (65 <=? i) && (i <=? 90).
Definition c_islower (i : Z) : bool := (97 <=? i) && (i <=? 122).
Definition c_isalpha (i : Z) : bool := c_isupper i || c_islower i.
Definition c_isalnum (i : Z) : bool := c_isalpha i || c_isdigit i.
Definition c_isxdigit (i : Z) : bool :=
  c_isdigit i || ((65 <=? i) && (i <=? 70)) || ((97 <=? i) && (i <=? 102)).
Definition c_tolower (i : Z) : outcome Z :=
  if ctype_dom i then Ok (if c_isupper i then i + 32 else i) else Fault ctype_domain.

Section Rule.
Variable A : Type.     (* the acceptor functions that client code registers *)

(* rule.hpp:94-99, 203-204: tail_ and acceptors_.  An acceptor is kept with its argument. *)
Definition acceptors := list (A * str).
Record rule := mkrule { tail : option str; accs : acceptors }.
Definition matched_result := option (str * acceptors).
Definition matcher := rule -> outcome matched_result.

(* rule.hpp:101  explicit rule (std::string_view) *)
Definition rule_of (s : str) : rule := mkrule (Some s) [].
(* rule.hpp:172  rule () : no tail, i.e. "matching failed" *)
Definition rule_fail : rule := mkrule None [].

(* string_view::substr (pos): throws when pos > size () *)
Definition substr_from (pos : nat) (s : str) : outcome str :=
  if Nat.ltb (length s) pos then Fault out_of_range else Ok (skipn pos s).

(* rule.hpp:178-190  join, join_rule (matched_result) *)
Definition join_rule_m (self : rule) (m : str * acceptors) : outcome rule :=
  match tail self with
  | None => Fault assert_failed          (* tail_-> on an empty optional *)
  | Some t => do t' <- substr_from (length (fst m)) t;
              Ok (mkrule (Some t') (accs self ++ snd m))
  end.
(* rule.hpp:192-194  join_rule (rule) *)
Definition join_rule_r (self other : rule) : rule :=
  mkrule (tail other) (accs self ++ accs other).

(* rule.hpp:294-312  concat_impl; [acc = None] is &rule::accept_nop (rule.hpp:196-199, 261-269) *)
Definition concat_impl (f : matcher) (acc : option A) (opt : bool) (self : rule) : outcome rule :=
  match tail self with
  | None => Ok self
  | Some t =>
    do m <- f (rule_of t);
    match m with
    | Some (s, a) =>
      let a' := match acc with None => a | Some g => a ++ [(g, s)] end in
      join_rule_m self (s, a')
    | None => Ok (if opt then self else rule_fail)
    end
  end.

(* rule.hpp:111-121 *)
Definition concat (f : matcher) : rule -> outcome rule := concat_impl f None false.
Definition concat_a (f : matcher) (g : A) : rule -> outcome rule := concat_impl f (Some g) false.

(* rule.hpp:273-290 *)
Definition optional_impl (f : matcher) (acc : option A) (self : rule) : outcome rule :=
  match tail self with
  | None => Ok self
  | Some t =>
    do res <- concat_impl f acc true (rule_of t);
    match tail res with
    | None => Ok self
    | Some _ => Ok (join_rule_r self res)
    end
  end.
Definition optional (f : matcher) : rule -> outcome rule := optional_impl f None.
Definition optional_a (f : matcher) (g : A) : rule -> outcome rule := optional_impl f (Some g).

(* rule.hpp:144-147, 209-241  star.  [count] is a 32-bit unsigned.  [fuel] bounds the number of
   iterations of for(;;).  The loop works on the local [str]; [len] is the local [length]. *)
Definition uint_max : N := (2 ^ 32 - 1)%N.
Definition uint_incr (n : N) : N := ((n + 1) mod 2 ^ 32)%N.

Fixpoint star_loop (fuel : nat) (f : matcher) (max : N) (s : str) (len : nat)
    (acc : acceptors) (count : N) : outcome (nat * acceptors * N) :=
  match fuel with
  | O => Diverge
  | S fuel' =>
    do m <- f (rule_of s);
    match m with
    | None => Ok (len, acc, count)
    | Some (ms, a) =>
      let count := uint_incr count in
      if (max <? count)%N then Ok (len, acc, count)
      else
        (* str.remove_prefix (l): undefined when l > size () *)
        if Nat.ltb (length s) (length ms) then Fault out_of_range
        else star_loop fuel' f max (skipn (length ms) s) (len + length ms) (acc ++ a) count
    end
  end.

Definition star (fuel : nat) (f : matcher) (min max : N) (self : rule) : outcome rule :=
  match tail self with
  | None => Ok self
  | Some t =>
    do r <- star_loop fuel f max t 0 (accs self) 0;
    let '(len, acc, count) := r in
    if (count <? min)%N then Ok rule_fail
    else do t' <- substr_from len t; Ok (mkrule (Some t') acc)
  end.

(* rule.hpp:149, 245-257  alternative (match, rest...) *)
Fixpoint alternative (fs : list matcher) (self : rule) : outcome rule :=
  match fs with
  | [] => Ok rule_fail
  | f :: rest =>
    match tail self with
    | None => Ok self
    | Some t =>
      do m <- f (rule_of t);
      match m with
      | Some r => join_rule_m self r
      | None => alternative rest self
      end
    end
  end.

(* rule.cpp:36-56  matched.  in.length () - tail.length () is a size_t subtraction and the
   count argument of substr is clamped, so a longer tail yields the whole of [in]. *)
Definition matched (input : rule) (self : rule) : outcome matched_result :=
  match tail self with
  | None => Ok None
  | Some t =>
    match tail input with
    | None => Fault assert_failed
    | Some i =>
      if Nat.ltb (length i) (length t) then Ok (Some (i, accs self))
      else Ok (Some (firstn (length i - length t) i, accs self))
    end
  end.

(* rule.hpp:316-323  single_char (Predicate) *)
Definition single_char_p (p : ascii -> outcome bool) : matcher := fun r =>
  match tail r with
  | Some (c :: _) => do b <- p c; Ok (if b then Some ([c], []) else None)
  | _ => Ok None
  end.

Section Chars.
Variable sg : bool.
(* rule.hpp:163-167, 325-327  single_char (char) *)
Definition single_char (c : ascii) : matcher := fun r =>
  do c2 <- c_tolower (as_int sg c);
  single_char_p (fun d => do d2 <- c_tolower (as_int sg d); Ok (c2 =? d2)) r.
(* rule.hpp:328-336, uri.cpp:32-46  char_range / code_point_range *)
Definition char_range (first last : ascii) : matcher := fun r =>
  do f <- c_tolower (as_int sg first);
  do l <- c_tolower (as_int sg last);
  single_char_p (fun c => do cl <- c_tolower (as_int sg c); Ok ((f <=? cl) && (cl <=? l))) r.
(* rule.hpp:338-349 *)
Definition alpha : matcher := single_char_p (fun c => ctype c_isalpha (as_int sg c)).
Definition digit : matcher := single_char_p (fun c => ctype c_isdigit (as_int sg c)).
Definition hexdig : matcher := single_char_p (fun c => ctype c_isxdigit (as_int sg c)).
End Chars.

(* rule.cpp:23-34  done: runs the acceptors in order when everything was consumed.  The state
   they change is threaded through [run]; a failed done leaves it alone. *)
Fixpoint run_accs {St} (run : A -> str -> St -> outcome St) (l : acceptors) (st : St) : outcome St :=
  match l with
  | [] => Ok st
  | (g, s) :: l' => do st' <- run g s st; run_accs run l' st'
  end.
Definition done {St} (run : A -> str -> St -> outcome St) (self : rule) (st : St)
    : outcome (bool * St) :=
  match tail self with
  | Some [] => do st' <- run_accs run (accs self) st; Ok (true, st')
  | _ => Ok (false, st)
  end.
End Rule.

Arguments mkrule {A}. Arguments tail {A}. Arguments accs {A}.
Arguments rule_of {A}. Arguments rule_fail {A}.
Arguments concat_impl {A}. Arguments concat {A}. Arguments concat_a {A}. Arguments optional {A}. Arguments optional_a {A}. Arguments optional_impl {A}.
Arguments star {A}. Arguments star_loop {A}. Arguments alternative {A}. Arguments matched {A}.
Arguments single_char_p {A}. Arguments single_char {A}. Arguments char_range {A}.
Arguments alpha {A}. Arguments digit {A}. Arguments hexdig {A}.
Arguments run_accs {A St}. Arguments done {A St}. Arguments join_rule_m {A}. Arguments join_rule_r {A}.
