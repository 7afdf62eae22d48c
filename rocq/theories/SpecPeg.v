(* Specification for rule.hpp (properties C09, C10): what concat / optional / alternative / star should
   do with arbitrary match functions, and parsing-expression grammars with actions. *)
From Verif Require Import Base ModelRule.
From Coq Require Import Sorted.

Section Spec.
Context {A : Type}.
Local Notation matcher := (matcher A).
Local Notation acceptors := (acceptors A).

(* [f] consumes the prefix [m] of [t], leaving [rest], and asks for the actions [a] *)
Definition consumes (f : matcher) (t m : str) (a : acceptors) (rest : str) : Prop :=
  f (rule_of t) = Ok (Some (m, a)) /\ t = m ++ rest.
Definition rejects (f : matcher) (t : str) : Prop := f (rule_of t) = Ok None.

(* An upper bound on repetitions: None is "infinity", which star() writes as UINT_MAX *)
Definition max_arg (max : option N) : N := match max with Some n => n | None => uint_max end.
Definition max_ok (max : option N) : Prop := match max with Some n => (n < uint_max)%N | None => True end.
Definition one_less (max : option N) : option N := option_map N.pred max.

(* greedy repetition, at most [max] times: the list holds the successive matches *)
Inductive greedy (f : matcher) : option N -> str -> list (str * acceptors) -> str -> Prop :=
| greedy_stop max t : rejects f t -> greedy f max t [] t
| greedy_max t r : f (rule_of t) = Ok r -> greedy f (Some 0%N) t [] t
| greedy_step max t m a t' l rest :
    consumes f t m a t' -> max <> Some 0%N -> greedy f (one_less max) t' l rest ->
    greedy f max t ((m, a) :: l) rest.

(* Parsing-expression grammars with actions *)
Inductive peg :=
| Chr (p : ascii -> bool)
| Seq (g h : peg)
| Act (g : peg) (a : A)            (* concat (g, accept) *)
| Opt (g : peg)
| Or (g h : peg)                   (* ordered choice *)
| Star (min : N) (max : option N) (g : peg).

(* An action together with the place in the input of the text it is given *)
Record occ := mkocc { o_act : A; o_start : nat; o_text : str }.
Definition o_end (o : occ) : nat := o_start o + length (o_text o).

(* [parses g pos s r]: at position [pos], where the remaining input is [s], g fails (None) or matches m,
   with the actions acts, leaving rest (Some (m, acts, rest)). *)
Inductive parses : peg -> nat -> str -> option (str * list occ * str) -> Prop :=
| P_chr p pos c s : p c = true -> parses (Chr p) pos (c :: s) (Some ([c], [], s))
| P_chr_no p pos c s : p c = false -> parses (Chr p) pos (c :: s) None
| P_chr_end p pos : parses (Chr p) pos [] None
| P_seq g h pos s m a t m' a' rest :
    parses g pos s (Some (m, a, t)) -> parses h (pos + length m) t (Some (m', a', rest)) ->
    parses (Seq g h) pos s (Some (m ++ m', a ++ a', rest))
| P_seq_no1 g h pos s : parses g pos s None -> parses (Seq g h) pos s None
| P_seq_no2 g h pos s m a t :
    parses g pos s (Some (m, a, t)) -> parses h (pos + length m) t None -> parses (Seq g h) pos s None
| P_act g x pos s m a rest :
    parses g pos s (Some (m, a, rest)) ->
    parses (Act g x) pos s (Some (m, a ++ [mkocc x pos m], rest))
| P_act_no g x pos s : parses g pos s None -> parses (Act g x) pos s None
| P_opt g pos s x : parses g pos s (Some x) -> parses (Opt g) pos s (Some x)
| P_opt_no g pos s : parses g pos s None -> parses (Opt g) pos s (Some ([], [], s))
| P_or1 g h pos s x : parses g pos s (Some x) -> parses (Or g h) pos s (Some x)
| P_or2 g h pos s r : parses g pos s None -> parses h pos s r -> parses (Or g h) pos s r
| P_star min max g pos s n m a rest :
    repeats g max pos s n m a rest -> (min <= N.of_nat n)%N -> parses (Star min max g) pos s (Some (m, a, rest))
| P_star_no min max g pos s n m a rest :
    repeats g max pos s n m a rest -> (N.of_nat n < min)%N -> parses (Star min max g) pos s None
(* n greedy repetitions of g, at most max *)
with repeats : peg -> option N -> nat -> str -> nat -> str -> list occ -> str -> Prop :=
| R_stop g max pos s : parses g pos s None -> repeats g max pos s 0 [] [] s
| R_max g pos s r : parses g pos s r -> repeats g (Some 0%N) pos s 0 [] [] s
| R_step g max pos s m a t n m' a' rest :
    parses g pos s (Some (m, a, t)) -> max <> Some 0%N ->
    repeats g (one_less max) (pos + length m) t n m' a' rest ->
    repeats g max pos s (S n) (m ++ m') (a ++ a') rest.

(* The grammar written with the combinators of rule.hpp *)
Fixpoint compile (fuel : nat) (g : peg) : matcher :=
  match g with
  | Chr p => single_char_p (fun c => Ok (p c))
  | Seq g h => fun r => Ok r >>= concat (compile fuel g) >>= concat (compile fuel h) >>= matched r
  | Act g x => fun r => Ok r >>= concat_a (compile fuel g) x >>= matched r
  | Opt g => fun r => Ok r >>= optional (compile fuel g) >>= matched r
  | Or g h => fun r => Ok r >>= alternative [compile fuel g; compile fuel h] >>= matched r
  | Star min max g => fun r => Ok r >>= star fuel (compile fuel g) min (max_arg max) >>= matched r
  end.

(* Bounds given to star make sense: 0 <= min <= max *)
Fixpoint bounds_ok (g : peg) : Prop :=
  match g with
  | Chr _ => True
  | Seq g h | Or g h => bounds_ok g /\ bounds_ok h
  | Act g _ | Opt g => bounds_ok g
  | Star min max g => (min <= max_arg max)%N /\ max_ok max /\ bounds_ok g
  end.

(* Syntactic check that a grammar never matches the empty string, and that no repetition is over a
   grammar that might *)
Fixpoint never_empty (g : peg) : bool :=
  match g with
  | Chr _ => true
  | Seq g h => never_empty g || never_empty h
  | Act g _ => never_empty g
  | Opt _ => false
  | Or g h => never_empty g && never_empty h
  | Star min max g => (0 <? min)%N && never_empty g
  end.
Fixpoint stars_ok (g : peg) : bool :=
  match g with
  | Chr _ => true
  | Seq g h | Or g h => stars_ok g && stars_ok h
  | Act g _ | Opt g => stars_ok g
  | Star min max g => never_empty g && stars_ok g
  end.

(* the actions, in the order of the list, with their texts *)
Definition calls (l : list occ) : acceptors := map (fun o => (o_act o, o_text o)) l.

(* the action's text lies between two positions *)
Definition within (lo hi : nat) (o : occ) := lo <= o_start o /\ o_end o <= hi.
(* t occurs in s at offset i *)
Definition sub_at (s : str) (i : nat) (t : str) := exists pre post, s = pre ++ t ++ post /\ length pre = i.
(* in the order in which their texts end *)
Definition ends_sorted (l : list occ) := StronglySorted (fun x y => o_end x <= o_end y) l.
(* a parse as a match result *)
Definition result (r : option (str * list occ * str)) : matched_result A :=
  match r with Some (m, a, _) => Some (m, calls a) | None => None end.
(* from some fuel on *)
Definition eventually (P : nat -> Prop) := exists k, forall fuel, k <= fuel -> P fuel.
End Spec.
Arguments peg : clear implicits.
Arguments occ : clear implicits.
