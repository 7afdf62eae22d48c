(* PROPERTY THEOREMS: C78 resolving references one after the other.
   Vocabulary: SpecSteps.v (settled, continues, rooted, document_in, below, no_double_slash), SpecPath.v (resolves, is_dots),
   SpecConfine.v (inside).  join(b, r) is join_parts b r true: strict. *)
From Verif Require Import Base ModelUri SpecUri SpecPath SpecConfine SpecSteps PathFacts StepsFacts StepsText.
Local Open Scope list_scope.

(* join(join(b, r1), r2) = join(b, join(r1, r2)), for all parts objects, if r2 does not depend on the directory of what it
   is resolved against *)
Theorem C78_settled b r1 r2 : settled r2 -> join_parts (join_parts b r1 true) r2 true = join_parts b (join_parts r1 r2 true) true.
Proof. exact (steps_settled b r1 r2). Qed.
Print Assumptions C78_settled.
(* whether that is so can be seen from the text of the reference *)
Theorem C78_text sg fuel ref r : fits fuel ref -> split_reference sg fuel ref = Ok (Some r) ->
  (settled r <-> ~ (local_reference ref /\ starts_with_segment ref)).
Proof. exact (text_settled sg fuel ref r). Qed.
Print Assumptions C78_text.
(* a chain of any length *)
Theorem C78_chain b r rs : Forall settled rs ->
  fold_left (fun t x => join_parts t x true) rs (join_parts b r true) = join_parts b (fold_left (fun t x => join_parts t x true) rs r) true.
Proof. exact (steps_chain b r rs). Qed.
Print Assumptions C78_chain.
(* a detour at the same origin leaves no trace once a reference from the root follows *)
Theorem C78_rooted b r1 r2 : p_scheme r1 = None -> p_authority r1 = None -> rooted r2 ->
  join_parts (join_parts b r1 true) r2 true = join_parts b r2 true.
Proof. exact (steps_rooted b r1 r2). Qed.
Print Assumptions C78_rooted.
(* r2 continues from the directory of r1, and r1 names its path from the root: no condition on b and on the dots of r2 *)
Theorem C78_continues_rooted b r1 r2 : rooted r1 -> continues r2 ->
  segments (p_path r1) = [] \/ (exists x, segments (p_path r1) = [x] /\ ~ is_dots x) \/ (exists d, document_in (segments (p_path r1)) d) ->
  join_parts (join_parts b r1 true) r2 true = join_parts b (join_parts r1 r2 true) true.
Proof. exact (steps_rooted_first b r1 r2). Qed.
Print Assumptions C78_continues_rooted.
(* both are relative: the two together must not climb out of the directory of b *)
Theorem C78_continues b r1 r2 k : ~ rooted r1 -> absolute (p_path r1) = false -> continues r2 -> below r1 r2 k -> k <> [] \/ no_double_slash b ->
  segments (p_path r1) = [] \/ (exists d x, segments (p_path r1) = d ++ [x] /\ d <> [] /\ ~ is_dots x /\ ~ resolves (directory (p_path b) ++ d) []) ->
  join_parts (join_parts b r1 true) r2 true = join_parts b (join_parts r1 r2 true) true.
Proof. exact (steps_relative b r1 r2 k). Qed.
Print Assumptions C78_continues.

Definition base_ex : parts := mkparts (Some (ss "http")) (Some (mkauth None (ss "h") None)) (mkpath true [ss "a"; ss "b"]) None None.
Definition ref_ex (segs : list str) : parts := mkparts None None (mkpath false segs) None None.
Definition base_text : str := ss "http://h/a/b".
(* the texts of both sides, from the texts of base and references *)
Definition both (strict : bool) (base ref1 ref2 : str) : outcome (option (str * str)) :=
  do b <- split true 200 base; do r1 <- split_reference true 200 ref1; do r2 <- split_reference true 200 ref2;
  match b, r1, r2 with
  | Some b, Some r1, Some r2 => Ok (Some (compose (join_parts (join_parts b r1 strict) r2 strict), compose (join_parts b (join_parts r1 r2 strict) strict)))
  | _, _, _ => Ok None
  end.
Example C78_ex : both true base_text (ss "x/y?q") (ss "/z/./w") = Ok (Some (ss "http://h/z/w", ss "http://h/z/w"))
  /\ both true base_text (ss "x/y?q") (ss "#f") = Ok (Some (ss "http://h/a/x/y?q#f", ss "http://h/a/x/y?q#f"))
  /\ both true base_text (ss "//i/x/y") (ss "../../../z") = Ok (Some (ss "http://i/z", ss "http://i/z"))
  /\ both true base_text (ss "x/y") (ss "../z") = Ok (Some (ss "http://h/a/z", ss "http://h/a/z"))
  /\ continues (ref_ex [dotdot; ss "z"]) /\ below (ref_ex [ss "x"; ss "y"]) (ref_ex [dotdot; ss "z"]) [ss "z"] /\ ~ rooted (ref_ex [ss "x"; ss "y"])
  /\ ~ resolves (directory (p_path base_ex) ++ [ss "x"]) [] /\ no_double_slash base_ex /\ document_in [ss "x"; ss "y"] [ss "x"].
Proof.
  assert (R : ~ resolves (directory (p_path base_ex) ++ [ss "x"]) []) by (intros H; apply resolves_iff in H; discriminate).
  repeat (split; [vm_compute; reflexivity|]). split; [intros [H|[H|[H|H]]]; cbn in H; congruence|]. split.
  { unfold below. cbn [ref_ex p_path segments removelast app]. apply (in_seg [ss "x"; dotdot] [] (ss "z")); [discriminate|discriminate|].
    apply (in_dotdot [ss "x"] [] (ss "x")). apply (in_seg [] [] (ss "x")); [discriminate|discriminate|constructor]. }
  split; [intros [H|[H|[_ H]]]; cbn in H; congruence|]. split; [exact R|]. split.
  - intros k H. apply resolves_iff in H. cbn in H. destruct k as [|x [|y k]]; discriminate.
  - exists (ss "y"), [ss "x"]. split; [reflexivity|]. split; [intros [H|H]; discriminate|]. split; [apply resolves_iff; reflexivity|discriminate].
Qed.
(* the conditions are needed: a first reference of one segment (it is kept as if it were a directory: C13); one that ends in
   dots; one that climbs out; a base with an empty directory; and a resolution that is not strict *)
Theorem C78_refuted : both true base_text (ss "x") (ss "y") = Ok (Some (ss "http://h/a/y", ss "http://h/a/x/y"))
  /\ both true base_text (ss "x/y/..") (ss "z") = Ok (Some (ss "http://h/a/x/z", ss "http://h/a/x/y/z"))
  /\ both true (ss "http://h/a/b/c") (ss "x/y") (ss "../../z") = Ok (Some (ss "http://h/a/z", ss "http://h/a/b/z"))
  /\ both true (ss "http://h/a//c") (ss "x/y") (ss "..") = Ok (Some (ss "http://h/a/", ss "http://h/a//"))
  /\ both false base_text (ss "x/y/w") (ss "http:z") = Ok (Some (ss "http://h/a/x/y/z", ss "http://h/a/z")).
Proof. repeat split; vm_compute; reflexivity. Qed.
Print Assumptions C78_refuted.
