(* SPECIFICATION of grammars whose match functions, predicates and actions have effects and may throw: which calls are
   made, in which order, and what comes of them. *)
From Verif Require Import Base ModelRule ModelCalls.

Section Spec.
Context {A U : Type}.
Notation history := (list (event A U)).
Variable cl : client A U.

(* the outcome of matching: an exception; no match; a match of m with actions a which leaves rest *)
Inductive result := Thrown | No | Yes (m : str) (a : list (A * str)) (rest : str).
Definition not_yes (r : result) : Prop := match r with Yes _ _ _ => False | _ => True end.
Definition after (m : str) (a : list (A * str)) (r : result) : result := match r with Yes m' a' rest => Yes (m ++ m') (a ++ a') rest | _ => r end.
Definition acting (x : A) (r : result) : result := match r with Yes m a rest => Yes m (a ++ [(x, m)]) rest | _ => r end.
Definition or_empty (s : str) (r : result) : result := match r with No => Yes [] [] s | _ => r end.
Definition one_fewer (max : option N) : option N := option_map N.pred max.

(* eval g h s r h': with the history h, g at the text s has the outcome r, and then the history is h' *)
Inductive eval : grammar A U -> history -> str -> result -> history -> Prop :=
| E_user u h s m a rest : cl_match cl h u s = Some (Some (m, a)) -> s = m ++ rest -> eval (User u) h s (Yes m a rest) (h ++ [Called u s])
| E_user_no u h s : cl_match cl h u s = Some None -> eval (User u) h s No (h ++ [Called u s])
| E_user_throw u h s : cl_match cl h u s = None -> eval (User u) h s Thrown (h ++ [Called u s])
| E_chr_end u h : eval (Chr u) h [] No h
| E_chr u h c s : cl_test cl h u c = Some true -> eval (Chr u) h (c :: s) (Yes [c] [] s) (h ++ [Asked u c])
| E_chr_no u h c s : cl_test cl h u c = Some false -> eval (Chr u) h (c :: s) No (h ++ [Asked u c])
| E_chr_throw u h c s : cl_test cl h u c = None -> eval (Chr u) h (c :: s) Thrown (h ++ [Asked u c])
| E_seq g k h s m a t h1 r h2 : eval g h s (Yes m a t) h1 -> eval k h1 t r h2 -> eval (Seq g k) h s (after m a r) h2
| E_seq_not g k h s r h1 : eval g h s r h1 -> not_yes r -> eval (Seq g k) h s r h1
| E_act g x h s r h1 : eval g h s r h1 -> eval (Act g x) h s (acting x r) h1
| E_opt g h s r h1 : eval g h s r h1 -> eval (Opt g) h s (or_empty s r) h1
| E_or g k h s r h1 : eval g h s r h1 -> r <> No -> eval (Or g k) h s r h1
| E_or_no g k h s h1 r h2 : eval g h s No h1 -> eval k h1 s r h2 -> eval (Or g k) h s r h2
| E_star min max g h s n r h1 : reps g max h s n r h1 -> (N.of_nat n < 2 ^ 32)%N -> r <> Thrown -> (min <= N.of_nat n)%N -> eval (Star min max g) h s r h1
| E_star_few min max g h s n r h1 : reps g max h s n r h1 -> (N.of_nat n < 2 ^ 32)%N -> r <> Thrown -> (N.of_nat n < min)%N -> eval (Star min max g) h s No h1
| E_star_throw min max g h s n h1 : reps g max h s n Thrown h1 -> (N.of_nat n < 2 ^ 32)%N -> eval (Star min max g) h s Thrown h1
(* reps: n matches in a row and then one more call, whose match, when there already are max, is dropped *)
with reps : grammar A U -> option N -> history -> str -> nat -> result -> history -> Prop :=
| R_no g max h s h1 : eval g h s No h1 -> reps g max h s 0 (Yes [] [] s) h1
| R_throw g max h s h1 : eval g h s Thrown h1 -> reps g max h s 0 Thrown h1
| R_max g h s m a t h1 : eval g h s (Yes m a t) h1 -> reps g (Some 0%N) h s 0 (Yes [] [] s) h1
| R_more g max h s m a t h1 n r h2 : eval g h s (Yes m a t) h1 -> max <> Some 0%N -> reps g (one_fewer max) h1 t n r h2 ->
    reps g max h s (S n) (after m a r) h2.

(* performs l h ok h': the actions l are run one after the other; ok: none threw, else the first that did was the last *)
Inductive performs : list (A * str) -> history -> bool -> history -> Prop :=
| D_nil h : performs [] h true h
| D_cons a t l h ok h' : cl_act cl h a t = Some tt -> performs l (h ++ [Did a t]) ok h' -> performs ((a, t) :: l) h ok h'
| D_throw a t l h : cl_act cl h a t = None -> performs ((a, t) :: l) h false (h ++ [Did a t]).

Fixpoint limits_ok (g : grammar A U) : Prop :=
  match g with
  | User _ | Chr _ => True
  | Seq g k | Or g k => limits_ok g /\ limits_ok k
  | Act g _ | Opt g => limits_ok g
  | Star min max g => (min <= max_of max)%N /\ match max with Some n => (n < uint_max)%N | None => True end /\ limits_ok g
  end.
(* grammars which match no empty text, when the client's functions of the first kind (solid) do not *)
Variable solid : U -> bool.
Fixpoint advances (g : grammar A U) : bool :=
  match g with
  | User u => solid u
  | Chr _ => true
  | Seq g k => advances g || advances k
  | Act g _ => advances g
  | Opt _ => false
  | Or g k => advances g && advances k
  | Star min _ g => (0 <? min)%N && advances g
  end.
Fixpoint repeatable (g : grammar A U) : bool :=
  match g with
  | User _ | Chr _ => true
  | Seq g k | Or g k => repeatable g && repeatable k
  | Act g _ | Opt g => repeatable g
  | Star _ _ g => advances g && repeatable g
  end.
(* the client's match functions match a beginning of the text they are given, and the solid ones not the empty one *)
Definition honest : Prop := forall h u t m a, cl_match cl h u t = Some (Some (m, a)) -> (exists rest, t = m ++ rest) /\ (solid u = true -> m <> []).
(* the texts that a match function is given, each the rest of the one before *)
Inductive shrinking : list str -> Prop := Sh_one s : shrinking [s] | Sh_more m s l : shrinking (s :: l) -> shrinking ((m ++ s) :: s :: l).
(* the call or action e, made when the history was h, threw *)
Definition threw (h : history) (e : event A U) : Prop :=
  match e with Called u t => cl_match cl h u t = None | Asked u c => cl_test cl h u c = None | Did a t => cl_act cl h a t = None end.
Definition action (e : event A U) : Prop := match e with Did _ _ => True | _ => False end.
End Spec.
Arguments result : clear implicits.
