(* C81: what the library answers does not depend on the platform. *)
From Verif Require Import Base ModelUri ModelLocale Rfc3986 SpecUri SpecHost SpecParts SpecStore SpecLocale PropSplitFacts PropSplit PropPath PropLocale.
Local Open Scope nat_scope.

(* --- whatever the text: if two platforms (with char signed or unsigned) both answer, they give the same answer; the one
       with unsigned char always answers, and what is undefined behaviour with signed char is no URI with unsigned char --- *)
Theorem C81_split sg1 sg2 fuel1 fuel2 s o1 o2 : fits fuel1 s -> fits fuel2 s -> split sg1 fuel1 s = Ok o1 -> split sg2 fuel2 s = Ok o2 -> o1 = o2.
Proof.
  intros F1 F2 E1 E2. destruct o1 as [p|].
  - apply (UriSplit.split_iff sg1 fuel1 s p F1) in E1. apply (UriSplit.split_iff sg2 fuel2 s p F2) in E1. congruence.
  - destruct o2 as [p|]; [|reflexivity]. apply (UriSplit.split_iff sg2 fuel2 s p F2) in E2. apply (UriSplit.split_iff sg1 fuel1 s p F1) in E2. congruence.
Qed.
Print Assumptions C81_split.
Theorem C81_split_reference sg1 sg2 fuel1 fuel2 s o1 o2 : fits fuel1 s -> fits fuel2 s -> split_reference sg1 fuel1 s = Ok o1 -> split_reference sg2 fuel2 s = Ok o2 -> o1 = o2.
Proof.
  intros F1 F2 E1 E2. destruct o1 as [p|].
  - apply (split_reference_spec sg1 fuel1 s p F1) in E1. apply (split_reference_spec sg2 fuel2 s p F2) in E1. congruence.
  - destruct o2 as [p|]; [|reflexivity]. apply (split_reference_spec sg2 fuel2 s p F2) in E2. apply (split_reference_spec sg1 fuel1 s p F1) in E2. congruence.
Qed.
Print Assumptions C81_split_reference.
Theorem C81_valid sg1 sg2 fuel1 fuel2 p b1 b2 : parts_fit fuel1 p -> parts_fit fuel2 p -> parts_valid sg1 fuel1 p = Ok b1 -> parts_valid sg2 fuel2 p = Ok b2 -> b1 = b2.
Proof.
  intros F1 F2 E1 E2. destruct b1, b2; try reflexivity.
  - apply (C07_valid sg1 fuel1 p F1) in E1. apply (C07_valid sg2 fuel2 p F2) in E1. congruence.
  - apply (C07_valid sg2 fuel2 p F2) in E2. apply (C07_valid sg1 fuel1 p F1) in E2. congruence.
Qed.
Print Assumptions C81_valid.
Theorem C81_join sg1 sg2 fuel1 fuel2 base ref strict o1 o2 : fits fuel1 base -> fits fuel2 base -> fits fuel1 ref -> fits fuel2 ref ->
  join sg1 fuel1 base ref strict = Ok o1 -> join sg2 fuel2 base ref strict = Ok o2 -> o1 = o2.
Proof.
  intros B1 B2 R1 R2 E1 E2. unfold join in *.
  destruct (split sg1 fuel1 base) as [x1| |] eqn:S1; cbn [bind] in E1; try discriminate. destruct (split sg2 fuel2 base) as [x2| |] eqn:S2; cbn [bind] in E2; try discriminate.
  pose proof (C81_split _ _ _ _ _ _ _ B1 B2 S1 S2) as <-. destruct x1 as [b|]; [|congruence].
  destruct (split_reference sg1 fuel1 ref) as [y1| |] eqn:Y1; cbn [bind] in E1; try discriminate. destruct (split_reference sg2 fuel2 ref) as [y2| |] eqn:Y2; cbn [bind] in E2; try discriminate.
  pose proof (C81_split_reference _ _ _ _ _ _ _ R1 R2 Y1 Y2) as <-. congruence.
Qed.
Print Assumptions C81_join.
Theorem C81_undefined fuel s : fits fuel s ->
  (exists o, split false fuel s = Ok o /\ (split true fuel s = Ok o \/ (split true fuel s = Fault ctype_domain /\ o = None)))
  /\ exists o, split_reference false fuel s = Ok o /\ (split_reference true fuel s = Ok o \/ (split_reference true fuel s = Fault ctype_domain /\ o = None)).
Proof.
  intros F. split.
  - destruct (split_terminates false fuel s F) as [[o E]|[N _]]; [|destruct N; now left]. exists o. split; [exact E|].
    destruct (split_terminates true fuel s F) as [[o' E']|[_ E']]; [left; now rewrite (C81_split _ _ _ _ _ _ _ F F E E')|right]. split; [exact E'|].
    destruct o as [p|]; [|reflexivity]. apply (UriSplit.split_iff false fuel s p F) in E. apply (UriSplit.split_iff true fuel s p F) in E. congruence.
  - destruct (split_reference_terminates false fuel s F) as [[o E]|[N _]]; [|destruct N; now left]. exists o. split; [exact E|].
    destruct (split_reference_terminates true fuel s F) as [[o' E']|[_ E']]; [left; now rewrite (C81_split_reference _ _ _ _ _ _ _ F F E E')|right]. split; [exact E'|].
    destruct o as [p|]; [|reflexivity]. apply (split_reference_spec false fuel s p F) in E. apply (split_reference_spec true fuel s p F) in E. congruence.
Qed.
Print Assumptions C81_undefined.

(* --- ASCII text: one answer for all platforms, in all locales --------------------------------------------------- *)
Notation ascii_text := (Forall (fun c => (code c < 128)%N)).
Lemma ascii_safe sg s : ascii_text s -> ctype_safe sg s.
Proof. intros A. right. eapply Forall_impl; [|exact A]. cbv beta. auto. Qed.
Lemma own_fuel s : (N.of_nat (length s) < 2 ^ 32)%N -> fits (S (length s)) s.
Proof. intros H. split; [exact H|lia]. Qed.
Theorem C81_ascii s : ascii_text s -> (N.of_nat (length s) < 2 ^ 32)%N ->
  (exists o, forall L sg fuel, usable L -> length s < fuel -> split_in L sg fuel s = Ok o)
  /\ exists o, forall L sg fuel, usable L -> length s < fuel -> split_reference_in L sg fuel s = Ok o.
Proof.
  intros A N. pose proof (own_fuel s N) as F0. split.
  - destruct (split_terminates false _ s F0) as [[o E]|[K _]]; [|destruct K; now left]. exists o. intros L sg fuel U B. rewrite (proj1 (C54_ascii L sg fuel s U A)).
    assert (F : fits fuel s) by (split; assumption). destruct (split_terminates sg fuel s F) as [[o' E']|[K _]]; [|destruct K; now apply ascii_safe].
    rewrite E'. f_equal. symmetry. exact (C81_split _ _ _ _ _ _ _ F0 F E E').
  - destruct (split_reference_terminates false _ s F0) as [[o E]|[K _]]; [|destruct K; now left]. exists o. intros L sg fuel U B. rewrite (proj2 (C54_ascii L sg fuel s U A)).
    assert (F : fits fuel s) by (split; assumption). destruct (split_reference_terminates sg fuel s F) as [[o' E']|[K _]]; [|destruct K; now apply ascii_safe].
    rewrite E'. f_equal. symmetry. exact (C81_split_reference _ _ _ _ _ _ _ F0 F E E').
Qed.
Print Assumptions C81_ascii.
Theorem C81_ascii_join base ref strict : ascii_text base -> ascii_text ref -> (N.of_nat (length base) < 2 ^ 32)%N -> (N.of_nat (length ref) < 2 ^ 32)%N ->
  exists o, forall L sg fuel, usable L -> length base < fuel -> length ref < fuel -> join_in L sg fuel base ref strict = Ok o.
Proof.
  intros A B NA NB. set (f0 := S (length base + length ref)). assert (FA : fits f0 base) by (split; [exact NA|unfold f0; lia]). assert (FB : fits f0 ref) by (split; [exact NB|unfold f0; lia]).
  destruct (join_terminates false f0 base ref strict FA FB) as [[o E]|[[K|K] _]]; [|destruct K; now left|destruct K; now left].
  exists o. intros L sg fuel U LA LB. rewrite (C54_ascii_join L sg fuel base ref strict U A B). assert (GA : fits fuel base) by (split; assumption). assert (GB : fits fuel ref) by (split; assumption).
  destruct (join_terminates sg fuel base ref strict GA GB) as [[o' E']|[[K|K] _]]; [|destruct K; now apply ascii_safe|destruct K; now apply ascii_safe].
  rewrite E'. f_equal. symmetry. exact (C81_join _ _ _ _ _ _ _ _ _ FA GA FB GB E E').
Qed.
Print Assumptions C81_ascii_join.
Lemma texts_all (Q : str -> Prop) p : parts_all (fun _ => Q) p -> Forall Q (component_texts p).
Proof.
  intros (S & A & G & X & Y). unfold component_texts.
  assert (O : forall o, opt_all Q o -> Forall Q (opt_list o)) by (intros [x|] H; [constructor; [exact H|constructor]|constructor]).
  apply Forall_app. split; [now apply O|]. apply Forall_app. split; [|apply Forall_app; split; [exact G|apply Forall_app; split; now apply O]].
  destruct (p_authority p) as [a|]; [|constructor]. destruct A as (A1 & A2 & A3). apply Forall_app. split; [now apply O|]. constructor; [exact A2|now apply O].
Qed.
Theorem C81_ascii_valid p fuel0 : parts_all (fun _ => ascii_text) p -> parts_fit fuel0 p ->
  exists b, forall L sg fuel, usable L -> parts_fit fuel p -> parts_valid_in L sg fuel p = Ok b.
Proof.
  intros A F0. destruct (valid_terminates false fuel0 p F0) as [[b E]|[K _]].
  2: { destruct K. apply Forall_forall. intros s _. now left. }
  exists b. intros L sg fuel U F. rewrite (C54_ascii_valid L sg fuel p U A). destruct (valid_terminates sg fuel p F) as [[b' E']|[K _]].
  - rewrite E'. f_equal. symmetry. exact (C81_valid _ _ _ _ _ _ _ F0 F E E').
  - destruct K. eapply Forall_impl; [|apply (texts_all _ p A)]. intros s. apply ascii_safe.
Qed.
Print Assumptions C81_ascii_valid.

Example C81_ex : ascii_text (ss "http://h/p") /\ exists p, forall L sg fuel, usable L -> 10 < fuel -> split_in L sg fuel (ss "http://h/p") = Ok (Some p).
Proof.
  assert (A : ascii_text (ss "http://h/p")) by (repeat constructor). split; [exact A|].
  destruct (proj1 (C81_ascii (ss "http://h/p") A ltac:(vm_compute; reflexivity))) as [o H].
  pose proof (H latin1 true 100 latin1_usable ltac:(cbn; lia)) as E. destruct o as [p|]; [|exfalso; vm_compute in E; discriminate]. exists p. exact H.
Qed.
Example C81_ex_undefined : let s := ss "http://" ++ [chr 0xE9] in split true 100 s = Fault ctype_domain /\ split false 100 s = Ok None.
Proof. split; vm_compute; reflexivity. Qed.
