(* What resolving a reference does, counted: join (parts, parts, strict), merge and parts::path::remove_dot_segments with a count of
   - the times a segment is compared with "." or ".." (operator== of string_view: constant work, since the sizes are compared first);
   - the times a segment (a string_view) is written to: copied into a vector, assigned over another one, or made by emplace_back.
   A vector's moves when it grows (amortised constant), and the six optional fields, which are copied once each at most, are not counted. *)
From Verif Require Import Base ModelUri.
Local Open Scope list_scope.

(* model device: the two counts *)
Record effort := mkeffort { compared : nat; written : nat }.
Definition spend (a b : effort) : effort := mkeffort (compared a + compared b) (written a + written b).

(* models lib/uri/uri.cpp:775-794, the loop of remove_dot_segments; ModelUri.rds_loop with the counts: "." takes one comparison, anything
   else two; an ordinary segment is assigned unless it is where it belongs (788) *)
Fixpoint rds_loop_w (n : nat) (it outit : nat) (last_dir : bool) (segs : list str) (w : effort) : (nat * bool * list str) * effort :=
  match n with
  | O => ((outit, last_dir, segs), w)
  | S n' =>
    let cur := nth it segs [] in
    let w1 := spend w (mkeffort 1 0) in
    if is_dot cur then rds_loop_w n' (S it) outit true segs w1
    else let w2 := spend w1 (mkeffort 1 0) in
    if is_dotdot cur then rds_loop_w n' (S it) (pred outit) true segs w2
    else
      let '(segs', w3) := if Nat.eqb outit it then (segs, w2) else (upd outit cur segs, spend w2 (mkeffort 0 1)) in
      rds_loop_w n' (S it) (S outit) (is_empty cur) segs' w3
  end.
(* models lib/uri/uri.cpp:769-805, remove_dot_segments; erase to the end moves no segment (795) *)
Definition rds_w (segs : list str) : list str * effort :=
  let '((outit, last_dir, s), w) := rds_loop_w (length segs) 0 0 false segs (mkeffort 0 0) in
  let kept := firstn outit s in
  if last_dir then
    match kept with
    | [] => ([[]], spend w (mkeffort 0 1))
    | _ => if is_empty (last kept []) then (kept, w) else (kept ++ [[]], spend w (mkeffort 0 1))
    end
  else (kept, w).
Definition remove_dot_segments_w (p : path) : path * effort := let '(l, w) := rds_w (segments p) in (mkpath (absolute p) l, w).

(* models the copying of a vector of segments (path's implicit copy assignment) and the two std::copy of merge *)
Definition copy_w (l : list str) : list str * effort := (l, mkeffort 0 (length l)).
(* models lib/uri/uri.cpp:730-752, merge *)
Definition merge_w (base ref : parts) : path * effort :=
  match p_authority base, path_is_empty (p_path base) with
  | Some _, true => let '(l, w) := copy_w (segments (p_path ref)) in (mkpath true l, w)
  | _, _ =>
    let bs := segments (p_path base) in
    let '(l1, w1) := copy_w (if Nat.ltb 1 (length bs) then firstn (length bs - 1) bs else bs) in
    let '(l2, w2) := copy_w (segments (p_path ref)) in
    (mkpath (absolute (p_path base)) (l1 ++ l2), spend w1 w2)
  end.
(* target.path = p; target.path.remove_dot_segments (): lib/uri/uri.cpp:953-954, 959-960, 968-969 *)
Definition tidied_copy_w (p : path) : path * effort :=
  let '(l, w1) := copy_w (segments p) in let '(q, w2) := remove_dot_segments_w (mkpath (absolute p) l) in (q, spend w1 w2).

(* models lib/uri/uri.cpp:940-983, join *)
Definition join_w (base reference : parts) (strict : bool) : parts * effort :=
  let ref_scheme :=
    if negb strict && opt_eqb str_eqb (p_scheme reference) (p_scheme base)
    then None else p_scheme reference in
  match ref_scheme with
  | Some s =>
    let '(p, w) := tidied_copy_w (p_path reference) in
    (mkparts (Some s) (p_authority reference) p (p_query reference) (p_fragment reference), w)
  | None =>
    match p_authority reference with
    | Some a =>
      let '(p, w) := tidied_copy_w (p_path reference) in
      (mkparts (p_scheme base) (Some a) p (p_query reference) (p_fragment reference), w)
    | None =>
      if path_is_empty (p_path reference) then
        let '(l, w) := copy_w (segments (p_path base)) in
        (mkparts (p_scheme base) (p_authority base) (mkpath (absolute (p_path base)) l)
                (match p_query reference with Some q => Some q | None => p_query base end)
                (p_fragment reference), w)
      else if absolute (p_path reference) then
        let '(p, w) := tidied_copy_w (p_path reference) in
        (mkparts (p_scheme base) (p_authority base) p (p_query reference) (p_fragment reference), w)
      else
        let '(m, w1) := merge_w base reference in            (* returned by value and moved: no segment is copied *)
        let '(p, w2) := remove_dot_segments_w m in
        (mkparts (p_scheme base) (p_authority base) p (p_query reference) (p_fragment reference), spend w1 w2)
    end
  end.

(* a caller that resolves one reference after another, each against the result so far *)
Fixpoint joins_w (base : parts) (refs : list parts) (strict : bool) : parts * effort :=
  match refs with
  | [] => (base, mkeffort 0 0)
  | r :: refs' => let '(t, w) := join_w base r strict in let '(u, w') := joins_w t refs' strict in (u, spend w w')
  end.
