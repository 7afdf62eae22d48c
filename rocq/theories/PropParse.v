(* C71: how much work parsing takes: split (), split_reference () and valid () take time proportional to the text. *)
From Verif Require Import Base ModelRule ModelUri ModelParse ParseWork ParseCost.
Local Open Scope N_scope.

(* the counting functions are split, split_reference and valid *)
Theorem C71_same_split sg fuel s r : (exists w, split_w sg fuel s = Ok (r, w)) <-> split sg fuel s = Ok r.
Proof. exact (split_both sg fuel s r). Qed.
Print Assumptions C71_same_split.
Theorem C71_same_split_reference sg fuel s r : (exists w, split_reference_w sg fuel s = Ok (r, w)) <-> split_reference sg fuel s = Ok r.
Proof. exact (split_reference_both sg fuel s r). Qed.
Print Assumptions C71_same_split_reference.
Theorem C71_same_valid sg fuel p b : (exists w, parts_valid_w sg fuel p = Ok (b, w)) <-> parts_valid sg fuel p = Ok b.
Proof.
  rewrite <- valid_is. destruct (parts_valid_w sg fuel p) as [[b' w]| |]; cbn; split.
  - intros [w' E]. congruence.
  - intros E. exists w. congruence.
  - intros [w' E]. discriminate E.
  - intros E. discriminate E.
  - intros [w' E]. discriminate E.
  - intros E. discriminate E.
Qed.
Print Assumptions C71_same_valid.

(* whatever the text, valid or not: the characters looked at, the rules called, the acceptors copied and the acceptors
   run are bounded by a constant times its length *)
Theorem C71_split sg fuel s r w : split_w sg fuel s = Ok (r, w) ->
  let n := N.of_nat (length s) in
  looks w <= 29 * n + 2382 /\ calls w <= 41 * n + 3939 /\ copies w <= 31 * n + 74 /\ runs w <= 2 * n + 6.
Proof. exact (uri_within sg fuel s r w). Qed.
Print Assumptions C71_split.
Theorem C71_split_reference sg fuel s r w : split_reference_w sg fuel s = Ok (r, w) ->
  let n := N.of_nat (length s) in
  looks w <= 34 * n + 2382 /\ calls w <= 47 * n + 3941 /\ copies w <= 35 * n + 86 /\ runs w <= 2 * n + 6.
Proof. exact (uri_reference_within sg fuel s r w). Qed.
Print Assumptions C71_split_reference.
(* n: the characters in the fields of p, m: its segments *)
Theorem C71_valid sg fuel p b w : parts_valid_w sg fuel p = Ok (b, w) ->
  let opt s := match s with Some s => length s | None => 0%nat end in
  let n := N.of_nat (opt (p_scheme p)
    + match p_authority p with Some a => opt (userinfo a) + length (host a) + opt (port a) | None => 0 end
    + length (List.concat (segments (p_path p))) + opt (p_query p) + opt (p_fragment p)) in
  let m := N.of_nat (length (segments (p_path p))) in
  looks w <= 13 * n + 7 * m + 2374 /\ calls w <= 19 * n + 10 * m + 3920 /\ copies w = 0 /\ runs w = 0.
Proof.
  intros E opt n m. destruct (most_valid sg fuel p b w E) as (A & B & C & D).
  assert (K : n = chars p).
  { unfold n, chars. assert (O : forall s, opt_letters s = N.of_nat (opt s)) by (now intros [s|]).
    assert (L : forall l, letters l = N.of_nat (length (List.concat l))).
    { induction l as [|x l IH]; [reflexivity|]. cbn [letters fold_right List.concat]. rewrite app_length. fold (letters l). lia. }
    rewrite L, !O. unfold authority_letters. destruct (p_authority p); rewrite ?O; lia. }
  rewrite <- K in A, B. fold m in A, B. auto.
Qed.
Print Assumptions C71_valid.

(* The rule library itself gives no such guarantee: it forgets what a rule matched when it goes back, so that a grammar
   whose alternatives begin alike can take time exponential in its size on a text of one character. *)
Fixpoint nest (k : nat) : gram :=
  match k with O => Single 0x61 | S k => Any [Seq [nest k; Single 0x78]; nest k] end.
Lemma nest_step (F : matcher_w action) sg w : F (rule_of (ss "a")) = Ok (Some (ss "a", []), w) ->
  exists v, then_w (then_w (Ok (rule_of (ss "a"), free)) (alternative_w [(fun r => then_w (then_w (then_w (Ok (r, free)) (concat_impl_w F None false))
      (concat_impl_w (leaf_w (single_code_point sg 0x78)) None false)) (matched_w r)); F]))
    (matched_w (rule_of (ss "a"))) = Ok (Some (ss "a", []), v) /\ looks v = 2 * looks w.
Proof.
  intros E. change (ss "a") with ["a"%char] in *.
  set (q := rule_of ["a"%char]) in *.
  assert (C : concat_impl_w F None false q = Ok (mkrule (Some []) [], call 1 +$ w +$ copy 0)).
  { unfold concat_impl_w. unfold q at 1. cbn [tail rule_of]. fold q. rewrite E. reflexivity. }
  assert (D : concat_impl_w (leaf_w (single_code_point sg 0x78)) None false (mkrule (Some []) []) = Ok (rule_fail, call 1)) by (now destruct sg).
  assert (A : (fun r => then_w (then_w (then_w (Ok (r, free)) (concat_impl_w F None false))
      (concat_impl_w (leaf_w (single_code_point sg 0x78)) None false)) (matched_w r)) q = Ok (None, free +$ (call 1 +$ w +$ copy 0) +$ call 1 +$ free)).
  { cbv beta. unfold then_w. cbn [bind]. rewrite C. cbn [bind]. rewrite D. reflexivity. }
  unfold then_w at 2. cbn [bind alternative_w]. unfold q at 1 2. cbn [tail rule_of]. fold q. cbv beta in A. rewrite A. cbn [bind].
  change (tail q) with (Some ["a"%char]). cbn iota. fold q. rewrite E. cbn [bind].
  eexists. split; [reflexivity|]. unfold plus_cost, call, copy, free. cbn [looks].
  change (tail _) with (Some (@nil ascii)). cbn iota. cbn [looks]. lia.
Qed.
Lemma nest_run sg fuel k : exists w, run_w sg fuel (nest k) (rule_of (ss "a")) = Ok (Some (ss "a", []), w) /\ looks w = 2 ^ N.of_nat k.
Proof.
  induction k as [|k (w & IH & L)]; [exists (look 1); split; [now destruct sg|reflexivity]|].
  destruct (nest_step _ sg w IH) as (v & E & V). exists v. split; [exact E|]. rewrite V, L, Nat2N.inj_succ, N.pow_succ_r'. reflexivity.
Qed.
Theorem C71_any_grammar_refuted sg fuel k : exists w,
  parse_w sg fuel (nest k) (ss "a") = Ok (Some empty_parts, w) /\ looks w = 2 ^ N.of_nat k.
Proof.
  destruct (nest_run sg fuel k) as (w & E & L). unfold parse_w, concat_impl_w. cbn [tail rule_of].
  unfold rule_of in *. rewrite E. cbn [bind]. eexists. split; [reflexivity|]. cbn. lia.
Qed.
Print Assumptions C71_any_grammar_refuted.

(* concrete cases *)
Definition counts {X} (x : outcome (X * cost)) : option (N * N * N * N) :=
  match x with Ok (_, w) => Some (looks w, calls w, copies w, runs w) | _ => None end.
Example C71_case1 : counts (split_w true 200 (ss "http://user@host:80/a/b?q#f")) = Some (64, 132, 132, 10).
Proof. vm_compute. reflexivity. Qed.
Example C71_case2 : counts (split_w true 200 (ss "http://[1:2::3:4]/")) = Some (115, 230, 55, 4).
Proof. vm_compute. reflexivity. Qed.
Example C71_case3 : counts (split_reference_w true 200 (ss "//user@host:80/a/b?q#f")) = Some (55, 121, 142, 9).
Proof. vm_compute. reflexivity. Qed.
Example C71_case4 : counts (split_reference_w true 200 (ss "not a reference")) = Some (21, 41, 15, 0).
Proof. vm_compute. reflexivity. Qed.
Example C71_case5 : match split true 200 (ss "http://user@host:80/a/b?q#f") with Ok (Some p) => counts (parts_valid_w true 200 p) | _ => None end = Some (24, 109, 0, 0).
Proof. vm_compute. reflexivity. Qed.
