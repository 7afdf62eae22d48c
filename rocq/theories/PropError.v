(* PROPERTY THEOREMS: the errors of Punycode decoding (C67).  Vocabulary: SpecError.v, SpecPuny.v, SpecStore.v. *)
From Verif Require Import Base ModelUri ModelParts ModelError SpecPuny SpecStore SpecViews SpecError.
From Verif Require Import ErrFacts PartsEx.
From Verif Require ModelPuny.
Local Open Scope list_scope.

(* --- C67: which error ---------------------------------------------------------------------------------- *)
(* "bad input" only for a text without any meaning *)
Theorem C67_bad_input s : (N.of_nat (length s) < 2 ^ 32)%N -> ModelPuny.decode s = Ok (inr ModelPuny.bad_input) -> forall u, ~ reads s u.
Proof. exact (c67_bad s). Qed.
Print Assumptions C67_bad_input.
(* "overflow" always for a text that stands for code points beyond 32 bits *)
Theorem C67_too_large s : (N.of_nat (length s) < 2 ^ 32)%N -> too_large s -> ModelPuny.decode s = Ok (inr ModelPuny.overflow).
Proof. exact (c67_large s). Qed.
Print Assumptions C67_too_large.
(* and only where the text begins with one that does, or whose continuation by the smallest digit does *)
Theorem C67_overflow s : (N.of_nat (length s) < 2 ^ 32)%N -> ModelPuny.decode s = Ok (inr ModelPuny.overflow) ->
  exists p rest, s = p ++ rest /\ (too_large p \/ too_large (p ++ ["a"%char])).
Proof. exact (c67_overflow s). Qed.
Print Assumptions C67_overflow.
(* decode of parts reports the error of the first label that cannot be decoded, and no other *)
Theorem C67_parts grow store p a s e : proper p -> v_authority p = Some a -> v_host a = Caller s ->
  ((exists st, parts_decode grow store p = Ok (st, inr e)) <-> exists q, first_bad s q /\ ModelPuny.decode q = Ok (inr e)).
Proof. exact (parts_reports grow store p a s e). Qed.
Print Assumptions C67_parts.
Theorem C67_first_unique s q q' : first_bad s q -> first_bad s q' -> q = q'.
Proof. exact (first_bad_fun s q q'). Qed.
Print Assumptions C67_first_unique.

(* what the returned code says, whatever it is compared with and whatever number is asked about *)
Theorem C67_codes : forall e,
  truthy (returned e) = true /\ category_of (returned e) = puny_category
  /\ message_of (returned e) = Some (match e with ModelPuny.bad_input => ss "bad input" | ModelPuny.overflow => ss "overflow" end)
  /\ (forall e', same_code (returned e) (returned e') = true <-> e = e')
  /\ (forall c, same_code (returned e) c = true <-> c = returned e)
  /\ (forall v, same_code (returned e) (mkerror v generic_category) = false)
  /\ same_code (returned e) (make_error_code none) = false.
Proof.
  intros e. assert (Z0 : forall c, same_code (returned e) c = true <-> c = returned e).
  { intros [v k]. unfold same_code. split.
    - intros H. apply andb_prop in H as [H1 H2]. destruct k; [|destruct e; discriminate]. cbn [value] in H2. apply Z.eqb_eq in H2. subst v. destruct e; reflexivity.
    - intros ->. destruct e; reflexivity. }
  split; [destruct e; reflexivity|]. split; [destruct e; reflexivity|]. split; [destruct e; reflexivity|].
  split; [intros e'; rewrite Z0; destruct e, e'; split; intros H; reflexivity || discriminate|]. split; [exact Z0|]. split; [intros v; destruct e; reflexivity|destruct e; reflexivity].
Qed.
Print Assumptions C67_codes.
Theorem C67_messages v : (puny_message v = ss "bad input" <-> v = 1%Z) /\ (puny_message v = ss "overflow" <-> v = 2%Z)
  /\ (puny_message v = ss "unknown error" <-> v <> 1%Z /\ v <> 2%Z) /\ puny_message v <> [].
Proof.
  unfold puny_message, to_int. destruct (Z.eqb_spec v 1) as [->|A]; [|destruct (Z.eqb_spec v 2) as [->|B]; [|destruct (Z.eqb_spec v 0)]];
    repeat split; intros; try discriminate; try reflexivity; try congruence; try tauto.
Qed.
Print Assumptions C67_messages.

(* The hypotheses are met: a text without meaning, one whose value is beyond 32 bits, one that becomes so *)
Example C67_ex : ModelPuny.decode (ss "a!") = Ok (inr ModelPuny.bad_input)
  /\ ModelPuny.decode (ss "99999999") = Ok (inr ModelPuny.bad_input)
  /\ ModelPuny.decode (ss "9999999999b") = Ok (inr ModelPuny.overflow)
  /\ ModelPuny.decode (ss "9999999999999999999999!") = Ok (inr ModelPuny.overflow).
Proof. vm_compute. repeat split. Qed.
Example C67_ex_parts : parts_decode (fun n => n) (Vec 0 9 (ss "x")) (with_host (ss "a.xn--bcher-kva.xn--9999999999b.xn--!")) = Ok (Vec 0 9 [], inr ModelPuny.overflow)
  /\ parts_decode (fun n => n) (Vec 0 9 (ss "x")) (with_host (ss "a.xn--!.xn--9999999999b")) = Ok (Vec 0 9 [], inr ModelPuny.bad_input).
Proof. vm_compute. split; reflexivity. Qed.
