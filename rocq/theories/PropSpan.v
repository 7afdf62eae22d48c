(* PROPERTY THEOREMS: where the views returned by split and split_reference are, and the work done (C39, C40).
   Vocabulary: SpecPlaces.v. *)
From Verif Require Import Base ModelUri SpecUri SpecPlaces PlacesFacts WorkFacts ModelJoin SpecJoinViews JoinViews.
From Verif Require Import ModelSpan.

(* --- C39: the returned views refer to the caller's characters, in order, with only the delimiters between them -- *)
Theorem C39_split_places sg fuel s p : split sg fuel s = Ok (Some p) ->
  exists v n, split_places s sg fuel = Ok (Some v, n) /\ shown_parts s v = p /\ placed s v.
Proof. exact (split_views sg fuel s p). Qed.
Print Assumptions C39_split_places.
Theorem C39_split_reference_places sg fuel s p : split_reference sg fuel s = Ok (Some p) ->
  exists v n, split_reference_places s sg fuel = Ok (Some v, n) /\ shown_parts s v = p /\ placed s v.
Proof. exact (split_reference_views sg fuel s p). Qed.
Print Assumptions C39_split_reference_places.
(* so no view reaches outside the string; the only view without data is that of the empty segment of the path "/"
   of a URI without authority; and the places are determined by the string and the parts *)
Theorem C39_inside s v : placed s v -> Forall (inside s) (views v).
Proof. exact (placed_inside s v). Qed.
Print Assumptions C39_inside.
Theorem C39_null s v : placed s v -> In None (views v) ->
  pl_authority v = None /\ pl_absolute v = true /\ pl_segments v = [None].
Proof. exact (placed_null s v). Qed.
Print Assumptions C39_null.
Theorem C39_unique s v1 v2 : placed s v1 -> placed s v2 -> shown_parts s v1 = shown_parts s v2 -> v1 = v2.
Proof. exact (placed_unique s v1 v2). Qed.
Print Assumptions C39_unique.
Example C39_ex : exists n, split_places (ss "a://u@h:1/x//y?q#f") true 100 = Ok (Some
  (mkpparts (Some (Some (0, 1))) (Some (mkpauth (Some (Some (4, 1))) (Some (6, 1)) (Some (Some (8, 1))))) true
     [Some (10, 1); Some (12, 0); Some (13, 1)] (Some (Some (15, 1))) (Some (Some (17, 1)))), n).
Proof. eexists. vm_compute. reflexivity. Qed.
Example C39_ex_null : exists n, split_places (ss "a:/") true 100 = Ok (Some
  (mkpparts (Some (Some (0, 1))) None true [None] None None), n).
Proof. eexists. vm_compute. reflexivity. Qed.

(* --- C40: the work is linear in the input, accepted or not ------------------------------------------------ *)
(* a step: a call of a match function or of an acceptor, or the copy of an acceptor (ModelSpan.v) *)
Theorem C40_split_linear sg fuel s : fits fuel s -> ctype_safe sg s ->
  exists v n, split_places s sg fuel = Ok (v, n) /\ split sg fuel s = Ok (option_map (shown_parts s) v)
    /\ (N.of_nat n <= 11084 * (N.of_nat (length s) + 1))%N.
Proof. exact (split_work sg fuel s). Qed.
Print Assumptions C40_split_linear.
Theorem C40_split_reference_linear sg fuel s : fits fuel s -> ctype_safe sg s ->
  exists v n, split_reference_places s sg fuel = Ok (v, n) /\ split_reference sg fuel s = Ok (option_map (shown_parts s) v)
    /\ (N.of_nat n <= 29700 * (N.of_nat (length s) + 1))%N.
Proof. exact (split_reference_work sg fuel s). Qed.
Print Assumptions C40_split_reference_linear.
Theorem C40_valid_linear sg fuel p b : parts_valid sg fuel p = Ok b ->
  exists n, check_parts sg fuel p = Ok (b, n) /\ (N.of_nat n <= 4542 * N.of_nat (parts_size p))%N.
Proof. exact (valid_work sg fuel p b). Qed.
Print Assumptions C40_valid_linear.
(* no run, whatever the loop bound and the signedness, does more *)
Theorem C40_any_run sg fuel s v n : split_places s sg fuel = Ok (v, n) -> (N.of_nat n <= 11084 * (N.of_nat (length s) + 1))%N.
Proof. exact (split_bound sg fuel s v n). Qed.
Print Assumptions C40_any_run.
Example C40_ex : fits 100 (ss "a:b") /\ ctype_safe true (ss "a:b")
  /\ (exists v, split_places (ss "a:b") true 100 = Ok (Some v, 53))
  /\ (exists n, split_places (ss "a:[b") true 100 = Ok (None, n))
  /\ (exists n, check_parts true 100 (mkparts (Some (ss "a")) None (mkpath false [ss "b"]) None None) = Ok (true, n)).
Proof.
  split; [unfold fits; vm_compute; split; [reflexivity|repeat constructor]|].
  split; [right; repeat constructor|]. repeat split; eexists; vm_compute; reflexivity.
Qed.

(* --- C41: join returns views into its two arguments -------------------------------------------------------- *)
(* join (std::string_view, std::string_view): every view in the result is a view of the base string, of the reference
   string or of nothing, and shows what C13 says *)
Theorem C41_join_borrows sg fuel base ref strict p : ModelUri.join sg fuel base ref strict = Ok (Some p) ->
  exists v, join_views sg fuel base ref strict = Ok (Some v) /\ contents (scontent base ref) v = p
            /\ Forall (borrowed base ref) (all_views v).
Proof. exact (join_views_spec sg fuel base ref strict p). Qed.
Print Assumptions C41_join_borrows.
(* join (parts, parts), whatever the views are and refer to: only views of the arguments, or of nothing *)
Theorem C41_join_parts V (content : V -> str) (null : V) b r strict v :
  In v (all_views (vjoin content null b r strict)) -> In v (all_views b) \/ In v (all_views r) \/ v = null.
Proof.
  intros H. eapply (proj1 (Forall_forall (fun v => In v (all_views b) \/ In v (all_views r) \/ v = null) _)); [|exact H].
  apply join_forall; auto; apply Forall_forall; auto.
Qed.
Print Assumptions C41_join_parts.
(* ... and it does not matter to the result which views show the same characters *)
Theorem C41_join_contents V (content : V -> str) (null : V) b r strict : content null = [] ->
  contents content (vjoin content null b r strict) = ModelUri.join_parts (contents content b) (contents content r) strict.
Proof. intros H. exact (join_contents content null H b r strict). Qed.
Print Assumptions C41_join_contents.
Example C41_ex : join_views true 100 (ss "s://h/b/c/d") (ss "../g/.") true = Ok (Some
  (mkvparts (Some (Some (Base, (0, 1)))) (Some (mkvauth None (Some (Base, (4, 1))) None)) true
     [Some (Base, (6, 1)); Some (Reference, (3, 1)); None] None None)).
Proof. vm_compute. reflexivity. Qed.
