(* C40: the bounds of SpanCostUri.v with numbers, and termination. *)
From Verif Require Import Base ModelUri SpanSim SpanUri SpanValid SpecUri SpecPlaces PlacesFacts.
From Verif Require SpanCostUri PropSplitFacts.
From Verif Require Import ModelSpan.

Lemma K_URI : SpanCostUri.total SpanCostUri.c_URI = N.to_nat 11084. Proof. vm_compute. reflexivity. Qed.
Lemma K_reference : SpanCostUri.total SpanCostUri.c_URI_reference = N.to_nat 29700. Proof. vm_compute. reflexivity. Qed.
Lemma split_bound sg fuel s v n : split_places s sg fuel = Ok (v, n) -> (N.of_nat n <= 11084 * (N.of_nat (length s) + 1))%N.
Proof. intros H. apply SpanCostUri.split_steps in H. rewrite K_URI in H. lia. Qed.
Lemma split_reference_bound sg fuel s v n : split_reference_places s sg fuel = Ok (v, n) ->
  (N.of_nat n <= 29700 * (N.of_nat (length s) + 1))%N.
Proof. intros H. apply SpanCostUri.split_reference_steps in H. rewrite K_reference in H. lia. Qed.
Lemma split_work sg fuel s : fits fuel s -> ctype_safe sg s ->
  exists v n, split_places s sg fuel = Ok (v, n) /\ split sg fuel s = Ok (option_map (shown_parts s) v)
    /\ (N.of_nat n <= 11084 * (N.of_nat (length s) + 1))%N.
Proof.
  intros F C. destruct (PropSplitFacts.split_terminates sg fuel s F) as [[o H]|[H _]]; [|contradiction].
  destruct (from_agree_ok s _ _ o (split_texts s sg fuel) H) as (v & n & E & <-). exists v, n.
  repeat split; auto. eapply split_bound; eauto.
Qed.
Lemma split_reference_work sg fuel s : fits fuel s -> ctype_safe sg s ->
  exists v n, split_reference_places s sg fuel = Ok (v, n) /\ split_reference sg fuel s = Ok (option_map (shown_parts s) v)
    /\ (N.of_nat n <= 29700 * (N.of_nat (length s) + 1))%N.
Proof.
  intros F C. destruct (PropSplitFacts.split_reference_terminates sg fuel s F) as [[o H]|[H _]]; [|contradiction].
  destruct (from_agree_ok s _ _ o (split_reference_texts s sg fuel) H) as (v & n & E & <-). exists v, n.
  repeat split; auto. eapply split_reference_bound; eauto.
Qed.
Lemma valid_work sg fuel p b : parts_valid sg fuel p = Ok b ->
  exists n, check_parts sg fuel p = Ok (b, n) /\ (N.of_nat n <= 4542 * N.of_nat (parts_size p))%N.
Proof.
  intros H. destruct (upto_parts sg fuel p) as [A B]. destruct (agree_eq _ _ A b H) as [n E]. exists n. split; auto.
  apply B in E. rewrite K_value in E. lia.
Qed.
