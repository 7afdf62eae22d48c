(* Model of rule.hpp and rule.cpp with match functions, predicates and acceptors that do more than compute their result:
   they may change the state W of the program and may throw.  The combinators are those of ModelRule.v, function by
   function; what is added is the order of the calls and the way of an exception through them. *)
From Verif Require Import Base ModelRule.

Section Calls.
Context {A W : Type}.
(* what a piece of code does: it changes the state and gives a result or throws (None) *)
Definition code (X : Type) := W -> outcome (option X * W).
Definition gives {X} (x : X) : code X := fun w => Ok (Some x, w).
Definition throws {X} : code X := fun w => Ok (None, w).
Definition andthen {X Y} (m : code X) (k : X -> code Y) : code Y :=
  fun w => do (r, w') <- m w; match r with None => Ok (None, w') | Some x => k x w' end.
Definition pure_code {X} (o : outcome X) : code X := fun w => do x <- o; Ok (Some x, w).
Local Notation "'let!' x := m 'in' k" := (andthen m (fun x => k)) (at level 200, x pattern, m at level 100, k at level 200).

Definition matcher_e := rule A -> code (matched_result A).

(* rule.hpp:294-312 *)
Definition concat_impl_e (f : matcher_e) (acc : option A) (opt : bool) (self : rule A) : code (rule A) :=
  match tail self with
  | None => gives self
  | Some t =>
    let! m := f (rule_of t) in
    match m with
    | Some (s, a) => pure_code (join_rule_m self (s, match acc with None => a | Some g => a ++ [(g, s)] end))
    | None => gives (if opt then self else rule_fail)
    end
  end.
(* rule.hpp:273-290 *)
Definition optional_impl_e (f : matcher_e) (acc : option A) (self : rule A) : code (rule A) :=
  match tail self with
  | None => gives self
  | Some t =>
    let! res := concat_impl_e f acc true (rule_of t) in
    match tail res with None => gives self | Some _ => gives (join_rule_r self res) end
  end.
(* rule.hpp:209-241 *)
Fixpoint star_loop_e (fuel : nat) (f : matcher_e) (max : N) (s : str) (len : nat) (acc : acceptors A) (count : N) : code (nat * acceptors A * N) :=
  match fuel with
  | O => fun _ => Diverge
  | S fuel' =>
    let! m := f (rule_of s) in
    match m with
    | None => gives (len, acc, count)
    | Some (ms, a) =>
      let count := uint_incr count in
      if (max <? count)%N then gives (len, acc, count)
      else if Nat.ltb (length s) (length ms) then fun _ => Fault out_of_range
      else star_loop_e fuel' f max (skipn (length ms) s) (len + length ms) (acc ++ a) count
    end
  end.
Definition star_e (fuel : nat) (f : matcher_e) (min max : N) (self : rule A) : code (rule A) :=
  match tail self with
  | None => gives self
  | Some t =>
    let! (len, acc, count) := star_loop_e fuel f max t 0 (accs self) 0%N in
    if (count <? min)%N then gives rule_fail else pure_code (do t' <- substr_from len t; Ok (mkrule (Some t') acc))
  end.
(* rule.hpp:149, 245-257 *)
Fixpoint alternative_e (fs : list matcher_e) (self : rule A) : code (rule A) :=
  match fs with
  | [] => gives rule_fail
  | f :: rest =>
    match tail self with
    | None => gives self
    | Some t =>
      let! m := f (rule_of t) in
      match m with Some r => pure_code (join_rule_m self r) | None => alternative_e rest self end
    end
  end.
(* rule.cpp:36-56 calls nothing of the client's *)
Definition matched_e (input self : rule A) : code (matched_result A) := pure_code (matched input self).
(* rule.hpp:316-323 *)
Definition single_char_e (p : ascii -> code bool) : matcher_e := fun r =>
  match tail r with
  | Some (c :: _) => let! b := p c in gives (if b then Some ([c], []) else None)
  | _ => gives None
  end.
(* rule.cpp:23-34 *)
Fixpoint run_accs_e (run : A -> str -> code unit) (l : acceptors A) : code unit :=
  match l with [] => gives tt | (g, s) :: l' => let! _ := run g s in run_accs_e run l' end.
Definition done_e (run : A -> str -> code unit) (self : rule A) : code bool :=
  match tail self with Some [] => let! _ := run_accs_e run (accs self) in gives true | _ => gives false end.
End Calls.
Notation "'let!' x := m 'in' k" := (andthen m (fun x => k)) (at level 200, x pattern, m at level 100, k at level 200).
Arguments code : clear implicits. Arguments matcher_e : clear implicits.

(* A client: what its functions do may depend on everything that happened before *)
Section Client.
Context {A U : Type}.
Inductive event := Called (u : U) (t : str) | Asked (u : U) (c : ascii) | Did (a : A) (t : str).
Record client := Client {
  cl_match : list event -> U -> str -> option (option (str * acceptors A));    (* None: throws *)
  cl_test : list event -> U -> ascii -> option bool;
  cl_act : list event -> A -> str -> option unit }.
Variable cl : client.
Definition called (u : U) (t : str) : code (list event) (matched_result A) := fun h => Ok (cl_match cl h u t, h ++ [Called u t]).
Definition user (u : U) : matcher_e A (list event) := fun r => match tail r with Some t => called u t | None => fun _ => Fault assert_failed end.
Definition asked (u : U) (c : ascii) : code (list event) bool := fun h => Ok (cl_test cl h u c, h ++ [Asked u c]).
Definition did (a : A) (t : str) : code (list event) unit := fun h => Ok (cl_act cl h a t, h ++ [Did a t]).

(* grammars written with the combinators, as rule.hpp:15-79 tells to *)
Inductive grammar :=
| User (u : U)                         (* a match function of the client's *)
| Chr (u : U)                          (* r.single_char (pred) *)
| Seq (g h : grammar)
| Act (g : grammar) (a : A)            (* r.concat (g, accept) *)
| Opt (g : grammar)
| Or (g h : grammar)
| Star (min : N) (max : option N) (g : grammar).
Definition max_of (max : option N) : N := match max with Some n => n | None => uint_max end.
Fixpoint grammar_e (fuel : nat) (g : grammar) : matcher_e A (list event) :=
  match g with
  | User u => user u
  | Chr u => single_char_e (asked u)
  | Seq g h => fun r => let! r1 := concat_impl_e (grammar_e fuel g) None false r in let! r2 := concat_impl_e (grammar_e fuel h) None false r1 in matched_e r r2
  | Act g x => fun r => let! r1 := concat_impl_e (grammar_e fuel g) (Some x) false r in matched_e r r1
  | Opt g => fun r => let! r1 := optional_impl_e (grammar_e fuel g) None r in matched_e r r1
  | Or g h => fun r => let! r1 := alternative_e [grammar_e fuel g; grammar_e fuel h] r in matched_e r r1
  | Star min max g => fun r => let! r1 := star_e fuel (grammar_e fuel g) min (max_of max) r in matched_e r r1
  end.
(* rule{text}.concat (g).done () *)
Definition parse_e (fuel : nat) (g : grammar) (s : str) : code (list event) bool :=
  let! r := concat_impl_e (grammar_e fuel g) None false (rule_of s) in done_e did r.
End Client.
Arguments event : clear implicits. Arguments client : clear implicits. Arguments grammar : clear implicits.
