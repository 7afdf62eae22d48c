(* PROPERTY THEOREMS: the rule library with match functions, predicates and actions that have effects and may throw
   (C74).  A client (ModelCalls.v) answers each call as a function of everything that happened before, so that its
   functions may keep any state; None is an exception.  grammar_e and parse_e are the combinators of rule.hpp, with the
   history of calls as the state; eval and performs (SpecCalls.v) say which calls are made and what comes of them. *)
From Verif Require Import Base ModelRule ModelCalls SpecCalls CallFacts CallMore CallTotal.
From Coq Require Import Lia.
Local Open Scope list_scope.

(* --- which calls are made, and with what result --- *)
Theorem C74_matching {A U} (cl : client A U) g h s r h' : eval cl g h s r h' -> limits_ok g ->
  exists k, forall fuel, (k <= fuel)%nat -> grammar_e cl fuel g (rule_of s) h = Ok (match r with Thrown => None | No => Some None | Yes m a _ => Some (Some (m, a)) end, h').
Proof. intros E L. destruct (proj1 (eval_says cl) _ _ _ _ _ E L) as (k & K). exists k. intros fuel Hf. rewrite (K fuel Hf). destruct r; reflexivity. Qed.
Print Assumptions C74_matching.
(* they are determined, and there are such: matching ends, whatever the client's functions do, if what is repeated
   does not match the empty text *)
Theorem C74_determined {A U} (cl : client A U) g h s r h' r2 h2 : eval cl g h s r h' -> eval cl g h s r2 h2 -> r2 = r /\ h2 = h'.
Proof. intros E. exact (proj1 (eval_fun cl) g h s r h' E r2 h2). Qed.
Print Assumptions C74_determined.
Theorem C74_ends {A U} (cl : client A U) solid g h s : honest cl solid -> repeatable solid g = true -> (N.of_nat (length s) < 2 ^ 32)%N -> exists r h', eval cl g h s r h'.
Proof. intros H R. exact (eval_total cl solid H g R h s). Qed.
Print Assumptions C74_ends.
(* rule{s}.concat (g).done (): false or an exception from matching and no action; else the actions of the match, in
   order, to the first that throws *)
Theorem C74_parse {A U} (cl : client A U) g h s r h' : eval cl g h s r h' -> limits_ok g -> exists k, forall fuel, (k <= fuel)%nat ->
  match r with
  | Thrown => parse_e cl fuel g s h = Ok (None, h')
  | Yes m a [] => exists ok h2, performs cl a h' ok h2 /\ parse_e cl fuel g s h = Ok (if ok then Some true else None, h2)
  | _ => parse_e cl fuel g s h = Ok (Some false, h')
  end.
Proof.
  intros E L. destruct (proj1 (eval_says cl) _ _ _ _ _ E L) as (k & K). exists k. intros fuel Hf. specialize (K fuel Hf). unfold says in K.
  assert (P : parse_e cl fuel g s h = match r with Thrown => Ok (None, h') | No => Ok (Some false, h') | Yes m a t => done_e (did cl) (mkrule (Some t) a) h' end).
  { unfold parse_e, andthen. change (rule_of s) with (@mkrule A (Some s) []). rewrite (concat_says _ None false s [] h _ _ K (proj1 (yes_split cl) _ _ _ _ _ E)). destruct r; reflexivity. }
  destruct r as [| |m a [|c t]]; try exact P. destruct (performs_total cl a h') as (ok & h2 & Q). exists ok, h2. split; [exact Q|]. rewrite P.
  unfold done_e, andthen. cbn [tail accs]. apply performs_says in Q. rewrite Q. destruct ok; reflexivity.
Qed.
Print Assumptions C74_parse.

(* --- exceptions --- *)
(* Matching runs no action, and makes no call after one that threw: the outcome is an exception just when the last call
   threw one. *)
Theorem C74_matching_history {A U} (cl : client A U) g h s r h' : eval cl g h s r h' -> exists l, h' = h ++ l /\ Forall (fun e => ~ action e) l
  /\ forall l1 e l2, l = l1 ++ e :: l2 -> (threw cl (h ++ l1) e <-> r = Thrown /\ l2 = []).
Proof.
  intros E. pose proof (proj1 (eval_grows cl) _ _ _ _ _ E) as G. destruct (grows_app cl _ _ _ G) as (l & -> & F). exists l. split; [reflexivity|]. split.
  - eapply Forall_impl; [|exact F]. intros e M N. destruct e; contradiction.
  - intros l1 e l2 ->. rewrite (grows_where cl _ _ _ G l1 e l2 eq_refl). destruct r; cbn; intuition discriminate.
Qed.
Print Assumptions C74_matching_history.
(* done () runs a first part of the actions, all of them if none throws, else up to the first that does *)
Theorem C74_actions {A U} (cl : client A U) l h ok h' : performs cl l h ok h' -> exists k,
  let upto j := h ++ map (fun x => Did (fst x) (snd x)) (firstn j l) in
  h' = upto k /\ (k <= length l)%nat /\ (ok = true -> k = length l)
  /\ (ok = false -> exists a t, (1 <= k)%nat /\ nth_error l (k - 1) = Some (a, t) /\ threw cl (upto (k - 1)%nat) (Did a t))
  /\ (forall i a t, (S i < k)%nat \/ ok = true -> nth_error l i = Some (a, t) -> ~ threw cl (upto i) (Did a t)).
Proof.
  intros P. destruct (performs_list cl _ _ _ _ P) as (k & E & L & T & F & G). exists k. split; [exact E|]. split; [exact L|]. split; [exact T|]. split; [exact F|].
  intros i a t Hi Hn Z. cbn in Z. rewrite (G i a t Hi Hn) in Z. discriminate.
Qed.
Print Assumptions C74_actions.
(* An exception at any point: let cl' be a client that does as cl in the first n calls and then throws.  If cl is
   called no more often, all is the same; else matching throws after just the first n + 1 calls that cl would see. *)
Theorem C74_any_point {A U} (cl cl' : client A U) n g s r h' :
  (forall h u t, (length h < n)%nat -> cl_match cl' h u t = cl_match cl h u t) -> (forall h u c, (length h < n)%nat -> cl_test cl' h u c = cl_test cl h u c) ->
  (forall h u t, length h = n -> cl_match cl' h u t = None) -> (forall h u c, length h = n -> cl_test cl' h u c = None) ->
  eval cl g [] s r h' -> eval cl' g [] s (if Nat.leb (length h') n then r else Thrown) (firstn (S n) h').
Proof. intros H1 H2 H3 H4 E. exact (proj1 (crash cl cl' n H1 H2 H3 H4) g [] s r h' E (Nat.le_0_l n)). Qed.
Print Assumptions C74_any_point.

(* --- a rule that has failed calls nothing --- *)
Theorem C74_failed {A W} (f : matcher_e A W) fs g min max fuel run acc w : let r := mkrule None acc : rule A in
  concat_impl_e f g false r w = Ok (Some r, w) /\ optional_impl_e f g r w = Ok (Some r, w) /\ star_e fuel f min max r w = Ok (Some r, w)
  /\ alternative_e (f :: fs) r w = Ok (Some r, w) /\ done_e run r w = Ok (Some false, w).
Proof. repeat split. Qed.
Print Assumptions C74_failed.

(* --- star () calls its match function once more than it matches, and no more than max + 1 times --- *)
Theorem C74_star_calls {A U} (cl : client A U) u min max h s r h' : eval cl (Star min max (User u)) h s r h' ->
  exists texts, h' = h ++ map (Called u) texts /\ hd_error texts = Some s /\ shrinking texts /\ forall k, max = Some k -> (N.of_nat (length texts) <= k + 1)%N.
Proof.
  intros E. assert (R : exists n r', reps cl (User u) max h s n r' h') by (inversion E; subst; eauto).
  destruct R as (n & r' & R). destruct (reps_calls cl _ _ _ _ _ _ _ R) as (l & -> & <- & Sh & Mx). exists (s :: l). split; [reflexivity|]. split; [reflexivity|]. split; [exact Sh|].
  intros k Hk. specialize (Mx k Hk). cbn [length]. lia.
Qed.
Print Assumptions C74_star_calls.

(* --- with match functions that have no effects and throw nothing it is the library of C09 and C10 --- *)
Theorem C74_pure {A W} (f : matcher A) fs g opt min max fuel (r i : rule A) (p : ascii -> outcome bool) (w : W) :
  let pf (f : matcher A) : matcher_e A W := fun r => pure_code (f r) in
  concat_impl_e (pf f) g opt r w = pure_code (concat_impl f g opt r) w
  /\ optional_impl_e (pf f) g r w = pure_code (optional_impl f g r) w
  /\ star_e fuel (pf f) min max r w = pure_code (star fuel f min max r) w
  /\ alternative_e (map pf fs) r w = pure_code (alternative fs r) w
  /\ single_char_e (fun c => pure_code (p c)) r w = pure_code (single_char_p p r) w.
Proof.
  intros pf.
  assert (C : forall r w, concat_impl_e (pf f) g opt r w = pure_code (concat_impl f g opt r) w).
  { intros r0 w0. unfold concat_impl_e, concat_impl. destruct (tail r0) as [t|]; [|reflexivity]. unfold andthen, pf, pure_code. destruct (f (rule_of t)) as [[[s a]|]|e|]; try reflexivity. }
  split; [apply C|]. split.
  { unfold optional_impl_e, optional_impl. destruct (tail r) as [t|]; [|reflexivity].
    assert (C' : forall r w, concat_impl_e (pf f) g true r w = pure_code (concat_impl f g true r) w).
    { intros r0 w0. unfold concat_impl_e, concat_impl. destruct (tail r0) as [u|]; [|reflexivity]. unfold andthen, pf, pure_code. destruct (f (rule_of u)) as [[[s a]|]|e|]; try reflexivity. }
    unfold andthen. rewrite C'. unfold pure_code. destruct (concat_impl f g true (rule_of t)) as [x|e|]; try reflexivity. cbn. destruct (tail x); reflexivity. }
  split.
  { unfold star_e, star. destruct (tail r) as [t|]; [|reflexivity].
    assert (L : forall k s l a n w, star_loop_e k (pf f) max s l a n w = pure_code (star_loop k f max s l a n) w).
    { induction k as [|k IH]; intros s l a n w0; [reflexivity|]. cbn [star_loop_e star_loop]. unfold andthen at 1. unfold pf at 1. unfold pure_code at 1.
      destruct (f (rule_of s)) as [[[s' a']|]|e|]; try reflexivity. cbn [bind]. destruct (N.ltb max (uint_incr n)); [reflexivity|]. destruct (Nat.ltb (length s) (length s')); [reflexivity|]. apply IH. }
    unfold andthen. rewrite L. unfold pure_code. destruct (star_loop fuel f max t 0 (accs r) 0) as [[[l a] n]|e|]; try reflexivity. cbn. destruct (N.ltb n min); [reflexivity|]. destruct (substr_from l t); reflexivity. }
  split.
  { induction fs as [|f0 fs IH]; [reflexivity|]. cbn [alternative_e alternative map]. destruct (tail r) as [t|]; [|reflexivity]. unfold andthen, pf at 1, pure_code at 1.
    destruct (f0 (rule_of t)) as [[x|]|e|]; try reflexivity. exact IH. }
  unfold single_char_e, single_char_p. destruct (tail r) as [[|c t]|]; try reflexivity. unfold andthen, pure_code. destruct (p c) as [[|]|e|]; reflexivity.
Qed.
Print Assumptions C74_pure.

(* --- examples: 'a' is matched by match function 1 with action 7, which complains after three events --- *)
Definition C74_client (throw_at : nat) : client nat nat :=
  Client (fun h u t => if Nat.eqb (length h) throw_at then None else Some (match t with c :: _ => if Ascii.eqb c "a"%char then Some ([c], [(7%nat, [c])]) else None | [] => None end))
         (fun h u c => if Nat.eqb (length h) throw_at then None else Some (Ascii.eqb c "b"%char))
         (fun h a t => if Nat.eqb (length h) throw_at then None else Some tt).
Definition C74_g : grammar nat nat := Seq (Star 1%N (Some 2%N) (User 1%nat)) (Act (Opt (Chr 2%nat)) 9%nat).
Definition C74_calls : list (event nat nat) := [Called 1%nat (ss "aab"); Called 1%nat (ss "ab"); Called 1%nat (ss "b"); Asked 2%nat "b"%char].
Example C74_ex : eval (C74_client 99) C74_g [] (ss "aab") (Yes (ss "aab") [(7%nat, ss "a"); (7%nat, ss "a"); (9%nat, ss "b")] []) C74_calls
  /\ limits_ok C74_g /\ honest (C74_client 99) (fun _ => true) /\ repeatable (fun _ => true) C74_g = true
  /\ parse_e (C74_client 99) 9 C74_g (ss "aab") [] = Ok (Some true, C74_calls ++ [Did 7%nat (ss "a"); Did 7%nat (ss "a"); Did 9%nat (ss "b")])
  (* the client throws at the third call, or in the second action *)
  /\ parse_e (C74_client 2) 9 C74_g (ss "aab") [] = Ok (None, [Called 1%nat (ss "aab"); Called 1%nat (ss "ab"); Called 1%nat (ss "b")])
  /\ parse_e (C74_client 5) 9 C74_g (ss "aab") [] = Ok (None, C74_calls ++ [Did 7%nat (ss "a"); Did 7%nat (ss "a")]).
Proof.
  split.
  { apply (E_seq _ _ _ [] (ss "aab") (ss "aa") [(7%nat, ss "a"); (7%nat, ss "a")] (ss "b") [Called 1%nat (ss "aab"); Called 1%nat (ss "ab"); Called 1%nat (ss "b")] (Yes (ss "b") [(9%nat, ss "b")] [])).
    - eapply (E_star _ _ _ _ _ _ 2%nat); [|reflexivity|discriminate|discriminate].
      apply (R_more _ _ _ _ (ss "aab") (ss "a") [(7%nat, ss "a")] (ss "ab") [Called 1%nat (ss "aab")] 1%nat (Yes (ss "a") [(7%nat, ss "a")] (ss "b"))); [apply (E_user _ 1%nat []); reflexivity|discriminate|].
      apply (R_more _ _ _ _ (ss "ab") (ss "a") [(7%nat, ss "a")] (ss "b") [Called 1%nat (ss "aab"); Called 1%nat (ss "ab")] 0%nat (Yes [] [] (ss "b"))); [apply (E_user _ 1%nat [Called 1%nat (ss "aab")]); reflexivity|discriminate|].
      apply R_no. apply (E_user_no _ 1%nat [Called 1%nat (ss "aab"); Called 1%nat (ss "ab")]). reflexivity.
    - apply (E_act _ _ _ _ _ (Yes (ss "b") [] [])). apply (E_opt _ _ _ _ (Yes (ss "b") [] [])). apply (E_chr _ 2%nat [Called 1%nat (ss "aab"); Called 1%nat (ss "ab"); Called 1%nat (ss "b")]). reflexivity. }
  split; [cbn; repeat split; discriminate|]. split.
  { intros h u t m a. cbn. destruct (Nat.eqb _ _); [discriminate|]. destruct t as [|c t]; [discriminate|]. destruct (Ascii.eqb c "a"); [|discriminate]. intros X. injection X as <- <-. split; [eexists; reflexivity|discriminate]. }
  repeat split; vm_compute; reflexivity.
Qed.
(* one may expect star (f, 0, 2) to call f twice at most; it calls it a third time and drops what it matched *)
Theorem C74_star_calls_refuted : grammar_e (C74_client 99) 9 (Star 0%N (Some 2%N) (User 1%nat)) (rule_of (ss "aaa")) []
  = Ok (Some (Some (ss "aa", [(7%nat, ss "a"); (7%nat, ss "a")])), [Called 1%nat (ss "aaa"); Called 1%nat (ss "aa"); Called 1%nat (ss "a")])
  /\ grammar_e (C74_client 2) 9 (Star 0%N (Some 2%N) (User 1%nat)) (rule_of (ss "aaa")) [] = Ok (None, [Called 1%nat (ss "aaa"); Called 1%nat (ss "aa"); Called 1%nat (ss "a")]).
Proof. split; vm_compute; reflexivity. Qed.
Print Assumptions C74_star_calls_refuted.
