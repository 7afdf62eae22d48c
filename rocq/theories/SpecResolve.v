(* SPECIFICATION vocabulary for C48: when the text of a resolved path can be read back. *)
From Verif Require Import Base Rfc3986 SpecPath.

(* segs is a path with or without a leading "/" and k is what resolving its dots leaves of it.  Written without
   an authority, the path must not begin with "//", and a relative path must not begin with "/" or vanish. *)
Definition text_form (abs : bool) (segs k : list str) : Prop :=
  match k with
  | [] => abs = true \/ segs = []         (* "/..", which becomes "/" *)
  | [[]] => abs = true                    (* "/" *)
  | x :: _ => x <> []
  end.

(* an empty segment that is not the last one: "a//b" *)
Definition inner_empty (segs : list str) : Prop := exists pre y post, segs = pre ++ [] :: y :: post.

(* The path whose dots join resolves: that of SpecPath.dotted_path, except that the only segment of a
   one-segment base path stays (C13_one_segment_base). *)
Inductive resolved_path (strict : bool) (base r : components) : bool -> list str -> Prop :=
| rp_own : ~ merge_applies strict base r -> resolved_path strict base r (c_absolute r) (c_segments r)
| rp_one x : merge_applies strict base r -> c_segments base = [x] ->
    resolved_path strict base r (c_absolute base) (x :: c_segments r)
| rp_merged : merge_applies strict base r -> (forall x, c_segments base <> [x]) ->
    resolved_path strict base r (fst (merged base r)) (snd (merged base r)).
