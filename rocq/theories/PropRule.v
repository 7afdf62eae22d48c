(* PROPERTY THEOREMS: the rule combinators of rule.hpp for arbitrary match functions (C09, C10).
   Vocabulary: SpecPeg.v. *)
From Verif Require Import Base ModelRule SpecPeg RuleFacts PegSem.

(* --- C10: each combinator, for every match function f ------------------------------------------ *)
(* concat: consumes what f consumes and appends its actions, then the acceptor's own; otherwise fails *)
Theorem C10_concat {A} (f : matcher A) (g : option A) t acc :
  (forall m a rest, consumes f t m a rest ->
     concat_impl f g false (mkrule (Some t) acc) =
     Ok (mkrule (Some rest) (acc ++ a ++ match g with Some x => [(x, m)] | None => [] end)))
  /\ (rejects f t -> concat_impl f g false (mkrule (Some t) acc) = Ok rule_fail).
Proof. exact (concat_spec f g t acc). Qed.
Print Assumptions C10_concat.
(* optional: as concat, but a rejection leaves the rule as it was *)
Theorem C10_optional {A} (f : matcher A) (g : option A) t acc :
  (forall m a rest, consumes f t m a rest ->
     optional_impl f g (mkrule (Some t) acc) =
     Ok (mkrule (Some rest) (acc ++ a ++ match g with Some x => [(x, m)] | None => [] end)))
  /\ (rejects f t -> optional_impl f g (mkrule (Some t) acc) = Ok (mkrule (Some t) acc)).
Proof. exact (optional_spec f g t acc). Qed.
Print Assumptions C10_optional.
(* alternative: the first match function that does not reject decides; later ones are not consulted *)
Theorem C10_alternative {A} (pre : list (matcher A)) f post t acc m a rest :
  Forall (fun f => rejects f t) pre -> consumes f t m a rest ->
  alternative (pre ++ f :: post) (mkrule (Some t) acc) = Ok (mkrule (Some rest) (acc ++ a)).
Proof. exact (alternative_first pre f post t acc m a rest). Qed.
Print Assumptions C10_alternative.
Theorem C10_alternative_none {A} (fs : list (matcher A)) t acc :
  Forall (fun f => rejects f t) fs -> alternative fs (mkrule (Some t) acc) = Ok rule_fail.
Proof. exact (alternative_none fs t acc). Qed.
Print Assumptions C10_alternative_none.
(* star: greedy; at most max (UINT_MAX standing for "no limit"); fails below min *)
Theorem C10_star {A} (f : matcher A) min max t items rest fuel acc : greedy f max t items rest ->
  (min <= max_arg max)%N -> max_ok max -> (N.of_nat (length items) < 2 ^ 32)%N -> length items < fuel ->
  t = List.concat (map fst items) ++ rest
  /\ (forall n, max = Some n -> (N.of_nat (length items) <= n)%N)
  /\ star fuel f min (max_arg max) (mkrule (Some t) acc) =
     Ok (if (N.of_nat (length items) <? min)%N then rule_fail
         else mkrule (Some rest) (acc ++ List.concat (map snd items))).
Proof. exact (star_spec f min max t items rest fuel acc). Qed.
Print Assumptions C10_star.
(* a greedy sequence of matches exists (so star terminates) when f never matches the empty string *)
Theorem C10_star_terminates {A} (f : matcher A) :
  (forall t, rejects f t \/ exists m a rest, consumes f t m a rest /\ m <> []) ->
  forall t max, exists items rest, greedy f max t items rest /\ length items <= length t.
Proof. exact (greedy_exists f). Qed.
Print Assumptions C10_star_terminates.
(* with an unlimited max and a match function that matches the empty string star never returns *)
Theorem C10_star_nullable_diverges {A} (f : matcher A) s min : f (rule_of s) = Ok (Some ([], [])) ->
  forall fuel, star fuel f min uint_max (rule_of s) = Diverge.
Proof. exact (star_nullable f s min). Qed.
Print Assumptions C10_star_nullable_diverges.
(* exactly 2^32 matches wrap the counter to 0: star (f, 1) then fails although f matched *)
Theorem C10_star_count_wraps {A} (f : matcher A) c n fuel :
  (forall t, f (rule_of (c :: t)) = Ok (Some ([c], []))) -> f (rule_of []) = Ok None ->
  N.of_nat n = (2 ^ 32)%N -> n < fuel ->
  star fuel f 1 uint_max (rule_of (repeat c n)) = Ok rule_fail.
Proof. exact (star_wrap f c n fuel). Qed.
Print Assumptions C10_star_count_wraps.
(* once a rule has failed it stays failed, and no match function is called (f may be anything) *)
Theorem C10_failure_absorbing {A} (f : matcher A) fs g min max fuel acc :
  let r := mkrule None acc : rule A in
  concat_impl f g false r = Ok r /\ optional_impl f g r = Ok r /\ star fuel f min max r = Ok r
  /\ alternative (f :: fs) r = Ok r /\ matched (rule_of []) r = Ok None.
Proof. exact (failure_absorbing f fs g min max fuel acc). Qed.
Print Assumptions C10_failure_absorbing.
(* matched: exactly the consumed prefix, with the collected actions *)
Theorem C10_matched {A} acc0 m rest (acc : acceptors A) :
  matched (mkrule (Some (m ++ rest)) acc0) (mkrule (Some rest) acc) = Ok (Some (m, acc)).
Proof. exact (matched_prefix acc0 m rest acc). Qed.
Print Assumptions C10_matched.
(* any grammar written with the combinators behaves as the parsing-expression grammar it spells *)
Theorem C10_peg {A} (g : peg A) pos s r : parses g pos s r -> bounds_ok g -> (N.of_nat (length s) < 2 ^ 32)%N ->
  eventually (fun fuel => compile fuel g (rule_of s) = Ok (result r)).
Proof. exact (compile_parses g pos s r). Qed.
Print Assumptions C10_peg.
Theorem C10_peg_total {A} (g : peg A) : stars_ok g = true ->
  forall pos s, exists r, parses g pos s r /\ forall r', parses g pos s r' -> r' = r.
Proof. exact (parses_function g). Qed.
Print Assumptions C10_peg_total.
Example C10_ex : let is c := (Chr (A := nat) (Ascii.eqb c)) in
  let g := Seq (Star 1 (Some 2%N) (Act (is "a"%char) 7)) (Or (is "x"%char) (Opt (is "b"%char))) in
  stars_ok g = true /\ bounds_ok g
  /\ compile 9 g (rule_of (ss "aab")) = Ok (Some (ss "aab", [(7, ss "a"); (7, ss "a")]))
  /\ compile 9 g (rule_of (ss "aaab")) = Ok (Some (ss "aa", [(7, ss "a"); (7, ss "a")]))
  /\ compile 9 g (rule_of (ss "b")) = Ok None.
Proof. vm_compute. repeat split; discriminate. Qed.

(* --- C09: done() ------------------------------------------------------------------------------- *)
(* The acceptors that run are those of the successful derivation, in its order, and only when all of the
   input is matched; otherwise the state is untouched. *)
Theorem C09_done {A} (g : peg A) s r : parses g 0 s r -> bounds_ok g -> (N.of_nat (length s) < 2 ^ 32)%N ->
  eventually (fun fuel => forall St (run : A -> str -> St -> outcome St) st,
    (do r' <- concat (compile fuel g) (rule_of s); done run r' st) =
    match r with
    | Some (_, acts, []) => do st' <- run_accs run (calls acts) st; Ok (true, st')
    | _ => Ok (false, st)
    end).
Proof. exact (done_parses g s r). Qed.
Print Assumptions C09_done.
(* that order is the input order: the texts are where they are said to be, inside the match, and sorted by
   their ends *)
Theorem C09_order {A} (g : peg A) pos s m acts rest : parses g pos s (Some (m, acts, rest)) ->
  s = m ++ rest /\ ends_sorted acts /\ Forall (within pos (pos + length m)) acts
  /\ Forall (fun o => sub_at m (o_start o - pos) (o_text o)) acts.
Proof. exact (parses_order g pos s m acts rest). Qed.
Print Assumptions C09_order.
(* whatever match function was used: done() without a complete match changes nothing *)
Theorem C09_no_effect {A St} (run : A -> str -> St -> outcome St) (r : rule A) st :
  tail r <> Some [] -> done run r st = Ok (false, st).
Proof. exact (done_no_effect run r st). Qed.
Print Assumptions C09_no_effect.
Example C09_ex : let is c := (Chr (A := nat) (Ascii.eqb c)) in
  (* the action of the abandoned alternative "ax" is not run *)
  let g := Or (Seq (Act (is "a"%char) 1) (is "x"%char)) (Seq (Act (is "a"%char) 2) (Act (is "b"%char) 3)) in
  let run a (s : str) (st : list nat) := Ok (st ++ [a]) in
  (do r <- concat (compile 9 g) (rule_of (ss "ab")); done run r []) = Ok (true, [2; 3])
  /\ (do r <- concat (compile 9 g) (rule_of (ss "abc")); done run r []) = Ok (false, []).
Proof. vm_compute. split; reflexivity. Qed.
