(* PROPERTY THEOREMS: C96 how much work resolving references takes.
   Vocabulary: SpecJoinWork.v (same_shape, nsegs, ordinary), SpecPath.v (is_dots). ModelJoinWork.v says what is counted. *)
From Verif Require Import Base ModelUri SpecUri SpecPath PathFacts LengthFacts ModelJoinWork SpecJoinWork JoinWorkFacts.
From Verif Require PropSplitFacts PropLength.
From Coq Require Import Lia.
Local Open Scope list_scope.

(* what is counted is join *)
Theorem C96_same_result base reference strict : fst (join_w base reference strict) = join_parts base reference strict.
Proof. apply join_result. Qed.
Print Assumptions C96_same_result.

(* one join: at most two comparisons and two writes for every segment of the base and of the reference *)
Theorem C96_linear base reference strict :
  let w := snd (join_w base reference strict) in
  compared w <= 2 * (nsegs base + nsegs reference) /\ written w <= 2 * (nsegs base + nsegs reference).
Proof. cbv zeta. destruct (join_eq base reference strict) as (c & w & -> & A & B). now split. Qed.
Print Assumptions C96_linear.
(* removing the dot segments: a path without any is not written to, and stays as it is *)
Theorem C96_no_dots p : Forall (fun s => ~ is_dots s) (segments p) -> remove_dot_segments_w p = (p, mkeffort (2 * length (segments p)) 0).
Proof.
  intros F. rewrite remove_w_eq, (late_plain _ F), (appended_plain _ F). unfold remove_dot_segments. rewrite (rds_plain _ F). destruct p as [ab l]. cbn [segments absolute] in *. f_equal. f_equal.
  induction F as [|s l D _ IH]; [reflexivity|]. cbn [tests length]. destruct (is_dot_spec s) as [->|]; [elim D; now left|]. lia.
Qed.
Print Assumptions C96_no_dots.
(* and otherwise: everything up to the first dot segment stays where it is, every ordinary segment after it is moved once,
   and one may be appended, which needs the path to end in a dot segment *)
Theorem C96_moved abs before d after n :
  Forall (fun s => ~ is_dots s) before -> is_dots d -> ordinary after n ->
  let w := written (snd (remove_dot_segments_w (mkpath abs (before ++ d :: after)))) in
  n <= w <= n + 1 /\ (~ is_dots (last (d :: after) []) -> w = n).
Proof.
  intros F D O. cbv zeta. rewrite remove_w_eq. cbn [snd written segments]. rewrite (late_app_dots _ _ F). cbn [late]. destruct (dotty_spec d); [|contradiction]. rewrite (late_ordinary _ _ O).
  pose proof (appended_le (before ++ d :: after)). split; [lia|]. intros L. destruct (exists_last (l := d :: after)) as (l & x & E); [discriminate|]. rewrite E in *. rewrite last_last in L.
  rewrite app_assoc, (appended_nodots _ _ L). lia.
Qed.
Print Assumptions C96_moved.
Example C96_moved_ex : remove_dot_segments_w (mkpath true [ss "a"; ss ".."; ss "b"; ss "c"]) = (mkpath true [ss "b"; ss "c"], mkeffort 8 2)
  /\ remove_dot_segments_w (mkpath true [ss "a"; ss "b"; ss "."]) = (mkpath true [ss "a"; ss "b"; []], mkeffort 5 1).
Proof. split; vm_compute; reflexivity. Qed.

(* the work depends on nothing but the shape: not on how long the segments are or on what they say *)
Theorem C96_shape base reference base' reference' : same_shape base base' -> same_shape reference reference' ->
  snd (join_w base reference true) = snd (join_w base' reference' true).
Proof. apply join_shape. Qed.
Print Assumptions C96_shape.
Example C96_shape_ex : forall s, s <> [] -> ~ is_dots s ->
  snd (join_w (mkparts (Some (ss "a")) None (mkpath true [s; ss ".."; []]) None None) (mkparts None None (mkpath false [ss ".."; s]) (Some s) None) true) = mkeffort 8 5.
Proof.
  intros s N D. rewrite (C96_shape _ _ (mkparts (Some (ss "a")) None (mkpath true [ss "b"; ss ".."; []]) None None) (mkparts None None (mkpath false [ss ".."; ss "b"]) None None)); [vm_compute; reflexivity| |];
    unfold same_shape, same_there; cbn [p_scheme p_authority p_path absolute segments];
    (split; [split; intros X; try discriminate X; reflexivity|]); (split; [split; auto|]); (split; [reflexivity|]);
    repeat (constructor; [unfold same_kind; first [tauto|repeat split; intros X; try discriminate X; subst; exfalso; first [now apply N|now apply D; left|now apply D; right]]|]); constructor.
Qed.

(* a chain of references, each resolved against the result so far *)
Theorem C96_chain_result base refs strict : fst (joins_w base refs strict) = fold_left (fun t r => join_parts t r strict) refs base.
Proof. apply joins_eq. Qed.
Print Assumptions C96_chain_result.
Theorem C96_chain base refs strict :
  let w := snd (joins_w base refs strict) in let n := nsegs base + list_sum (map nsegs refs) in
  compared w <= 2 * (length refs * n) /\ written w <= 2 * (length refs * n).
Proof. cbv zeta. now apply joins_le. Qed.
Print Assumptions C96_chain.
(* in texts: quadratic in their lengths *)
Lemma nsegs_len p : nsegs p <= S (length (compose p)).
Proof.
  rewrite compose_length, path_length. unfold nsegs, plen. destruct (segments (p_path p)) as [|x l]; cbn [length]; [lia|]. unfold str in *. lia.
Qed.
Theorem C96_texts sg fuel base b refs rs strict : fits fuel base -> split sg fuel base = Ok (Some b) -> Forall (fits fuel) refs ->
  Forall2 (fun ref r => split_reference sg fuel ref = Ok (Some r)) refs rs ->
  let w := snd (joins_w b rs strict) in let n := length base + 1 + list_sum (map (fun ref => length ref + 1) refs) in
  compared w <= 2 * (length refs * n) /\ written w <= 2 * (length refs * n).
Proof.
  intros F1 B F2 R. cbv zeta. assert (L : length refs = length rs) by (clear -R; induction R; cbn; congruence). rewrite L. apply joins_le.
  pose proof (nsegs_len b) as N. rewrite (PropSplitFacts.compose_split sg fuel base b F1 (or_introl B)) in N.
  assert (M : list_sum (map nsegs rs) <= list_sum (map (fun ref : str => length ref + 1) refs)).
  { clear - R F2. induction R as [|ref r refs rs H R IH]; [cbn; lia|]. pose proof (nsegs_len r) as N. rewrite (PropSplitFacts.compose_split sg fuel ref r (Forall_inv F2) (or_intror H)) in N.
    cbn [map]. change (list_sum (?a :: ?l)) with (a + list_sum l). specialize (IH (Forall_inv_tail F2)).
    change (list_sum (nsegs r :: map nsegs rs)) with (nsegs r + list_sum (map nsegs rs)).
    change (list_sum (length ref + 1 :: map (fun ref : str => length ref + 1) refs)) with ((length ref + 1) + list_sum (map (fun ref : str => length ref + 1) refs)). lia. }
  unfold str in *. lia.
Qed.
Print Assumptions C96_texts.
Lemma loop_a n : forall p, path_string_loop (ss "/") (repeat (ss "a") n ++ [[]]) p = p ++ List.concat (repeat (ss "/a") n) ++ ss "/".
Proof. induction n as [|n IH]; intros p; [reflexivity|]. cbn [repeat app path_string_loop List.concat]. rewrite IH. now rewrite <- !app_assoc. Qed.
(* "http://h/a/x/b" and then "../c", "./d/..", "/e": the segments compared and written, and where it leads *)
Example C96_texts_ex : exists b r1 r2 r3, split true 200 (ss "http://h/a/x/b") = Ok (Some b) /\ split_reference true 200 (ss "../c") = Ok (Some r1)
  /\ split_reference true 200 (ss "./d/..") = Ok (Some r2) /\ split_reference true 200 (ss "/e") = Ok (Some r3)
  /\ snd (joins_w b [r1; r2; r3] true) = mkeffort 17 12 /\ compose (fst (joins_w b [r1; r2] true)) = ss "http://h/a/" /\ compose (fst (joins_w b [r1; r2; r3] true)) = ss "http://h/e".
Proof. do 4 eexists. do 4 (split; [vm_compute; reflexivity|]). repeat split; vm_compute; reflexivity. Qed.
Example C96_no_dots_ex : remove_dot_segments_w (mkpath true [ss "..."; []; ss "a"]) = (mkpath true [ss "..."; []; ss "a"], mkeffort 6 0).
Proof. vm_compute. reflexivity. Qed.
(* and no better: "a/" resolved k times against http://h/a/ takes at least k * k comparisons, for the path grows each time *)
Theorem C96_chain_reached k strict : exists b r, split true 200 (ss "http://h/a/") = Ok (Some b) /\ split_reference true 200 (ss "a/") = Ok (Some r)
  /\ k * k <= compared (snd (joins_w b (repeat r k) strict)) /\ k * k <= 2 * written (snd (joins_w b (repeat r k) strict))
  /\ compose (fst (joins_w b (repeat r k) strict)) = ss "http://h" ++ List.concat (repeat (ss "/a") (S k)) ++ ss "/".
Proof.
  exists (deep (ss "http") (mkauth None (ss "h") None) 1), again. split; [vm_compute; reflexivity|]. split; [vm_compute; reflexivity|].
  destruct (again_joins (ss "http") (mkauth None (ss "h") None) k strict 1 (le_n _)) as (A & B & ->). split; [exact A|]. split; [lia|].
  change (1 + k) with (S k). generalize (S k). clear. intros n. unfold deep, compose.
  cbn [p_scheme p_authority p_path p_query p_fragment]. unfold path_string. cbn [absolute segments]. rewrite loop_a.
  replace (path_is_empty (mkpath true (repeat (ss "a") n ++ [[]]))) with false by (now destruct n). rewrite !app_nil_r. reflexivity.
Qed.
Print Assumptions C96_chain_reached.
