(* PROPERTY THEOREMS: the transcode view over a single-pass range whose iterators share their source, such as a pair of
   std::istreambuf_iterator (C76).  Vocabulary: SpecIcu.v; view_of (IcuProps.v) and view_forms (SingleFacts.v) list the nine
   views between UTF-8, UTF-16 and UTF-32; transcode and feed (ModelIcu.v) are the transcoder driven by hand. *)
From Verif Require Import Base ModelIcu ModelSingle SpecIcu IcuProps SingleFacts.
Local Open Scope N_scope.
Local Open Scope list_scope.

(* a range-for shows what the transcoder writes for all units but the last, and neither what the last unit completes nor
   what the end of the input does; nothing faults, and well_formed() tells of the whole input *)
Theorem C76_shown T cap bound l : view_of T cap bound -> Forall (fun u => u < bound) l -> l <> [] ->
  exists out ok s shown, transcode T l = Ok (out, ok) /\ feed T (tc_init T) (removelast l) = Ok (s, shown)
  /\ forall fuel, (length shown < fuel)%nat -> view_iterate_shared T cap l fuel = Ok (shown, ok).
Proof. exact (views_shared T cap bound l). Qed.
Print Assumptions C76_shown.
(* whatever the input, something is missing at the end *)
Theorem C76_lost T cap bound l fuel shown ok : view_of T cap bound -> Forall (fun u => u < bound) l -> l <> [] ->
  view_iterate_shared T cap l fuel = Ok (shown, ok) -> (length shown < fuel)%nat ->
  exists lost, lost <> [] /\ transcode T l = Ok (shown ++ lost, ok).
Proof.
  intros V F NE E L. destruct (views_shared T cap bound l V F NE) as (out & ok' & s & sh & X & G & H).
  destruct (lost_all T cap bound l s sh out ok' V F NE G X) as (lost & -> & NL).
  assert (Y : view_iterate_shared T cap l (S (length sh) + fuel) = Ok (sh, ok')) by (apply H; lia).
  assert (Z : sh = shown /\ ok' = ok); [|destruct Z; subst; eauto].
  destruct (le_lt_dec fuel (length sh)) as [Lt|Gt]; [|rewrite (H fuel Gt) in E; injection E as <- <-; auto].
  (* more fuel changes nothing *)
  assert (M : forall n f it wf r o, vcollect_shared T cap l f it wf = Ok (r, o) -> vcollect_shared T cap l (n + f) it wf = Ok (r, o)).
  { intros n f. revert n. induction f as [|f IH]; intros n it wf r o Q; [discriminate|]. rewrite Nat.add_succ_r. cbn [vcollect_shared] in *.
    destruct (vdone_shared T l it); [exact Q|]. destruct (vderef T it) as [u| |]; cbn [bind] in *; try discriminate.
    destruct (vnext T cap l (length l) it wf) as [[it' wf']| |]; cbn [bind] in *; try discriminate.
    destruct (vcollect_shared T cap l f it' wf') as [[r1 o1]| |] eqn:Q1; cbn [bind] in Q; try discriminate. rewrite (IH n _ _ _ _ Q1). exact Q. }
  unfold view_iterate_shared in *. destruct (vbegin T cap l (length l) true) as [[it wf]| |]; cbn [bind] in *; try discriminate.
  rewrite (M (S (length sh)) _ _ _ _ _ E) in Y. injection Y as <- <-. auto.
Qed.
Print Assumptions C76_lost.
(* of well-formed text, exactly the last code point *)
Theorem C76_text T cap from to cs c us : view_forms T cap from to -> text from (cs ++ [c]) us ->
  exists out, text to cs out /\ forall fuel, (length out < fuel)%nat -> view_iterate_shared T cap us fuel = Ok (out, true).
Proof. exact (view_text T cap from to cs c us). Qed.
Print Assumptions C76_text.
(* so text of one code point looks empty, as an empty source does *)
Theorem C76_one T cap from to c us fuel : view_forms T cap from to -> from c us \/ us = [] -> view_iterate_shared T cap us (S fuel) = Ok ([], true).
Proof.
  intros V [W| ->]; [|reflexivity]. destruct (view_text T cap from to [] c us V) as (out & X & H).
  - cbn [app]. rewrite <- (app_nil_r us). constructor; [exact W|constructor].
  - inversion X; subst. apply H. cbn. lia.
Qed.
Print Assumptions C76_one.
(* what a user expects of the view is false for such a range: "AB" in UTF-8 shows "A" *)
Theorem C76_single_pass_refuted : ~ (forall T cap bound l out ok, view_of T cap bound -> Forall (fun u => u < bound) l -> transcode T l = Ok (out, ok) ->
  view_iterate_shared T cap l (S (length out)) = Ok (out, ok)).
Proof.
  intros H. assert (X : view_iterate_shared t8_16 max_output_16 [0x41; 0x42] 3 = Ok ([0x41; 0x42], true)).
  { apply (H t8_16 max_output_16 (2 ^ 8) [0x41; 0x42] [0x41; 0x42] true); [constructor|repeat constructor; reflexivity|vm_compute; reflexivity]. }
  vm_compute in X. discriminate.
Qed.
Print Assumptions C76_single_pass_refuted.
Example C76_ex : view_iterate_shared t8_16 max_output_16 [0x41; 0xE2; 0x82; 0xAC; 0xF0; 0x9F; 0x98; 0x80] 9 = Ok ([0x41; 0x20AC], true)
  /\ view_iterate_shared t16_8 max_output_16_8 [0xD83D; 0xDE00; 0xD800; 0x41] 20 = Ok ([0xF0; 0x9F; 0x98; 0x80], false)
  /\ transcode t16_8 [0xD83D; 0xDE00; 0xD800; 0x41] = Ok ([0xF0; 0x9F; 0x98; 0x80; 0xEF; 0xBF; 0xBD; 0x41], false)
  /\ text utf8_of ([0x41] ++ [0x20AC]) [0x41; 0xE2; 0x82; 0xAC].
Proof.
  split; [vm_compute; reflexivity|]. split; [vm_compute; reflexivity|]. split; [vm_compute; reflexivity|].
  change [0x41; 0xE2; 0x82; 0xAC] with ([0x41] ++ [0xE2; 0x82; 0xAC] ++ []). constructor; [constructor; reflexivity|]. constructor; [|constructor].
  assert (U : utf8_of 0x20AC [0xE0 + 0x20AC / 2 ^ 12; 0x80 + 0x20AC / 2 ^ 6 mod 2 ^ 6; 0x80 + 0x20AC mod 2 ^ 6]) by (apply utf8_3; [discriminate|reflexivity|left; reflexivity]). exact U.
Qed.
