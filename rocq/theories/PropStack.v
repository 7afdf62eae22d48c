(* C92: parsing needs a bounded stack: however long the text is, the calls of the parser that are under way at once are at most a fixed number. *)
From Verif Require Import Base ModelRule ModelUri ModelParse ModelStack StackFacts.
From Coq Require Import Lia.
Local Open Scope nat_scope.

(* what the instrumented function gives is what the function itself gives, and the depth it reports is at most K *)
Definition same_within {X} (K : nat) (instrumented : outcome (X * nat)) (plain : outcome X) : Prop :=
  match plain with
  | Ok x => exists d, instrumented = Ok (x, d) /\ d <= K
  | Fault e => instrumented = Fault e
  | Diverge => instrumented = Diverge
  end.
Lemma same {X} K (x : outcome (X * nat)) y : drop x = y -> below K x -> same_within K x y.
Proof.
  intros <- B. destruct x as [[z d]| |]; cbn; try reflexivity. exists d. split; [reflexivity|]. exact (B z d eq_refl).
Qed.

Theorem C92_split sg fuel s : same_within 53 (split_d sg fuel s) (split sg fuel s).
Proof. apply same; [apply drop_split|apply below_split]. Qed.
Print Assumptions C92_split.
Theorem C92_split_reference sg fuel s : same_within 56 (split_reference_d sg fuel s) (split_reference sg fuel s).
Proof. apply same; [apply drop_split_reference|apply below_split_reference]. Qed.
Print Assumptions C92_split_reference.
Theorem C92_join sg fuel b r strict : same_within 57 (join_d sg fuel b r strict) (join sg fuel b r strict).
Proof. apply same; [apply drop_join|apply below_join]. Qed.
Print Assumptions C92_join.
Theorem C92_valid sg fuel p : same_within 40 (parts_valid_d sg fuel p) (parts_valid sg fuel p).
Proof. apply same; [apply drop_valid|apply below_valid]. Qed.
Print Assumptions C92_valid.

(* the numbers are the least: some texts need that many *)
Theorem C92_least K :
  ((forall sg fuel s, same_within K (split_d sg fuel s) (split sg fuel s)) -> 53 <= K)
  /\ ((forall sg fuel s, same_within K (split_reference_d sg fuel s) (split_reference sg fuel s)) -> 56 <= K)
  /\ ((forall sg fuel b r strict, same_within K (join_d sg fuel b r strict) (join sg fuel b r strict)) -> 57 <= K)
  /\ ((forall sg fuel p, same_within K (parts_valid_d sg fuel p) (parts_valid sg fuel p)) -> 40 <= K).
Proof.
  assert (G : forall X (x : outcome (X * nat)) y d, x = Ok d -> drop x = y -> same_within K x y -> snd d <= K).
  { intros X x y [z d] -> <-. cbn. intros (d' & E & L). injection E as <-. exact L. }
  repeat apply conj; intros H.
  - specialize (H true 200 (ss "a://[::1]")). eapply G in H; [|vm_compute; reflexivity|apply drop_split]. exact H.
  - specialize (H true 200 (ss "//[::1]")). eapply G in H; [|vm_compute; reflexivity|apply drop_split_reference]. exact H.
  - specialize (H true 200 (ss "a:") (ss "//[::1]") true). eapply G in H; [|vm_compute; reflexivity|apply drop_join]. exact H.
  - specialize (H true 200 (mkparts (Some (ss "a")) (Some (mkauth None (ss "[::1]") None)) (mkpath false []) None None)). eapply G in H; [|vm_compute; reflexivity|apply drop_valid]. exact H.
Qed.
Print Assumptions C92_least.

(* for the rule library: star is one call deeper than the deepest call of what it repeats, however often it repeats it *)
Theorem C92_star {A} (f : matcher_d A) K fuel min max self r d :
  (forall x y e, f x = Ok (y, e) -> e <= K) -> star_d fuel f min max self = Ok (r, d) -> d <= S K.
Proof. intros H E. exact (below_star K f fuel min max self H r d E). Qed.
Print Assumptions C92_star.
(* and every grammar written with the library has its own bound, whatever is parsed with it *)
Theorem C92_grammar g : exists K, forall sg fuel s r d, parse_d sg fuel g s = Ok (r, d) -> d <= K.
Proof. exists (2 + Nat.max (dg g) 2). intros sg fuel s r d E. exact (below_parse sg fuel g s r d E). Qed.
Print Assumptions C92_grammar.

(* a text a hundred times as long is parsed with as many calls at once *)
Example C92_case1 : split_d true 2000 (ss "http://a/b") = Ok (Some (mkparts (Some (ss "http")) (Some (mkauth None (ss "a") None)) (mkpath true [ss "b"]) None None), 35).
Proof. vm_compute. reflexivity. Qed.
Example C92_case2 : match split_d true 2000 (ss "http://a/b" ++ repeat "x"%char 1000) with Ok (Some _, d) => d | _ => 0 end = 35.
Proof. vm_compute. reflexivity. Qed.
(* a text that is rejected counts too *)
Example C92_case3 : split_d true 200 (ss "a://[::") = Ok (None, 52).
Proof. vm_compute. reflexivity. Qed.
(* each part of the depth is there: nested alternatives cost a call each *)
Example C92_case4 : parse_d true 10 (Any [Single 0x61; Single 0x62]) (ss "a") = Ok (Some empty_parts, 9).
Proof. vm_compute. reflexivity. Qed.
Example C92_case5 : parse_d true 10 (Any [Single 0x61; Single 0x62]) (ss "b") = Ok (Some empty_parts, 10).
Proof. vm_compute. reflexivity. Qed.
