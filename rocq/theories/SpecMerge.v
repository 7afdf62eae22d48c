(* Vocabulary for a base path of one segment, which join () keeps and RFC 3986 5.2.3 drops. *)
From Verif Require Import Base Rfc3986 SpecPath.

(* reading the segments, a ".." comes when nothing is left to go up from: "..", "a/../..", "./../b" *)
Definition climbs_out (segs : list str) : Prop := exists pre post, segs = pre ++ dotdot :: post /\ resolves pre [].
(* the path ends in "." or ".." and leaves nothing but empty segments: ".", "a/..", ".//." *)
Definition leaves_slashes (segs : list str) : Prop :=
  (exists l d, segs = l ++ [d] /\ is_dots d) /\ exists k, resolves segs k /\ Forall (fun s => s = []) k.
(* merge () is reached, the base path is the one segment x, and x is still there in the end *)
Definition keeps (strict : bool) (base r : components) (x : str) : Prop :=
  merge_applies strict base r /\ c_segments base = [x] /\ ~ is_dots x /\ ~ climbs_out (c_segments r).
(* when join () does what 5.2.2 asks for *)
Definition join_agrees (strict : bool) (base r : components) : Prop :=
  (exists x, keeps strict base r x /\ x = [] /\ leaves_slashes (c_segments r))
  \/ ((forall x, ~ keeps strict base r x) /\ forall abs segs, dotted_path strict base r abs segs -> ~ corner abs segs).
