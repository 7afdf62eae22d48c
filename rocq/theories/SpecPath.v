(* SPECIFICATION, written from RFC 3986 section 5.2 (not from the code):
   5.2.4 remove_dot_segments on strings, 5.2.3 merge, 5.2.2 transform references, 5.3 recomposition. *)
From Verif Require Import Base Rfc3986.

(* ------------------------------------------------------------------ 5.2.4 *)
Fixpoint strip (pre s : str) : option str :=      (* s without its prefix pre *)
  match pre, s with
  | [], _ => Some s
  | a :: pre', b :: s' => if Ascii.eqb a b then strip pre' s' else None
  | _ :: _, [] => None
  end.
Definition slash : ascii := "/".
Fixpoint until_slash (s : str) : str * str :=     (* up to, not including, the next "/" *)
  match s with
  | [] => ([], [])
  | c :: s' => if Ascii.eqb c slash then ([], s) else let (a, b) := until_slash s' in (c :: a, b)
  end.
(* "the first path segment in the input buffer ... including the initial "/" character (if any) and any
   subsequent characters up to, but not including, the next "/" character or the end" *)
Definition first_segment (s : str) : str * str :=
  match s with [] => ([], []) | c :: s' => if Ascii.eqb c slash then let (a, b) := until_slash s' in (c :: a, b) else until_slash s end.
(* "remove the last segment and its preceding "/" (if any) from the output buffer" *)
Fixpoint drop_to_slash (s : str) : str :=
  match s with [] => [] | c :: s' => if Ascii.eqb c slash then s' else drop_to_slash s' end.
Definition remove_last_segment (out : str) : str := rev (drop_to_slash (rev out)).

(* Steps 2A-2E.  None: out of fuel; [rfc_remove_dot_segments_total] shows that it does not happen. *)
Fixpoint rds_rfc (fuel : nat) (inp out : str) : option str :=
  match fuel with
  | O => None
  | S fuel =>
    match inp with
    | [] => Some out
    | _ =>
      match strip (ss "../") inp with
      | Some r => rds_rfc fuel r out                                                     (* 2A *)
      | None =>
      match strip (ss "./") inp with
      | Some r => rds_rfc fuel r out                                                     (* 2A *)
      | None =>
      match strip (ss "/./") inp with
      | Some r => rds_rfc fuel (ss "/" ++ r) out                                         (* 2B *)
      | None =>
      if str_eqb inp (ss "/.") then rds_rfc fuel (ss "/") out                            (* 2B *)
      else
      match strip (ss "/../") inp with
      | Some r => rds_rfc fuel (ss "/" ++ r) (remove_last_segment out)                   (* 2C *)
      | None =>
      if str_eqb inp (ss "/..") then rds_rfc fuel (ss "/") (remove_last_segment out)     (* 2C *)
      else if str_eqb inp (ss ".") || str_eqb inp (ss "..") then rds_rfc fuel [] out     (* 2D *)
      else let (a, b) := first_segment inp in rds_rfc fuel b (out ++ a)                  (* 2E *)
      end end end end
    end
  end.
Definition rfc_remove_dot_segments (s : str) : option str := rds_rfc (length s + 2) s [].

(* ------------------------------------------------------------------ 5.2.3 *)
(* "all but the last segment of the base URI's path (i.e., excluding any characters after the right-most
   "/" in the base URI path, or excluding the entire base URI path if it does not contain any "/")" *)
Fixpoint from_slash (s : str) : str :=
  match s with [] => [] | c :: s' => if Ascii.eqb c slash then s else from_slash s' end.
Definition up_to_last_slash (s : str) : str := rev (from_slash (rev s)).

(* five-component view of a reference, as used by the pseudo code of 5.2.2 and 5.3 *)
Record uri5 := mkuri5 { u_scheme : option str; u_authority : option str; u_path : str; u_query : option str; u_fragment : option str }.

Definition rfc_merge (base ref : uri5) : str :=
  match u_authority base, u_path base with
  | Some _, [] => ss "/" ++ u_path ref
  | _, _ => up_to_last_slash (u_path base) ++ u_path ref
  end.

(* ------------------------------------------------------------------ 5.2.2 *)
(* [rds] is remove_dot_segments.  In non-strict mode a reference scheme equal to the base scheme is
   ignored; schemes are compared as given. *)
Definition rfc_transform (rds : str -> str) (strict : bool) (base r : uri5) : uri5 :=
  let r_scheme := if negb strict && opt_eqb str_eqb (u_scheme r) (u_scheme base) then None else u_scheme r in
  match r_scheme with
  | Some _ => mkuri5 r_scheme (u_authority r) (rds (u_path r)) (u_query r) (u_fragment r)
  | None =>
    match u_authority r with
    | Some _ => mkuri5 (u_scheme base) (u_authority r) (rds (u_path r)) (u_query r) (u_fragment r)
    | None =>
      match u_path r with
      | [] => mkuri5 (u_scheme base) (u_authority base) (u_path base)
                (match u_query r with Some _ => u_query r | None => u_query base end) (u_fragment r)
      | c :: _ =>
        mkuri5 (u_scheme base) (u_authority base)
          (if Ascii.eqb c slash then rds (u_path r) else rds (rfc_merge base r))
          (u_query r) (u_fragment r)
      end
    end
  end.

(* -------------------------------------------------------------------- 5.3 *)
Definition rfc_recompose (u : uri5) : str :=
  opt_post (u_scheme u) (ss ":") ++ opt_pre (ss "//") (u_authority u) ++ u_path u
  ++ opt_pre (ss "?") (u_query u) ++ opt_pre (ss "#") (u_fragment u).

(* the five components of a parsed reference *)
Definition authority_text (a : option str * str * option str) : str :=
  let '(u, h, p) := a in opt_post u (ss "@") ++ h ++ opt_pre (ss ":") p.
Definition path_text (abs : bool) (segs : list str) : str :=
  if abs then slashed segs else match segs with [] => [] | x :: rest => x ++ slashed rest end.
Definition five (c : components) : uri5 :=
  mkuri5 (c_scheme c) (option_map authority_text (c_authority c)) (path_text (c_absolute c) (c_segments c))
         (c_query c) (c_fragment c).

(* -------------------------------------------- vocabulary about segment lists *)
Definition no_slash (s : str) : Prop := ~ In slash s.
Definition dot : str := ss ".".
Definition dotdot : str := ss "..".
Definition is_dots (s : str) : Prop := s = dot \/ s = dotdot.

(* what is left of a list of segments when "." is dropped and ".." cancels the segment before it *)
Inductive resolves : list str -> list str -> Prop :=
| res_nil : resolves [] []
| res_dot l k : resolves l k -> resolves (l ++ [dot]) k
| res_dotdot_empty l : resolves l [] -> resolves (l ++ [dotdot]) []
| res_dotdot l k x : resolves l (k ++ [x]) -> resolves (l ++ [dotdot]) k
| res_seg l k x : x <> dot -> x <> dotdot -> resolves l k -> resolves (l ++ [x]) (k ++ [x]).

(* a relative path climbs above its first (real) segment: "a/..", "a/../b" *)
Definition climbs (segs : list str) : Prop :=
  exists pre post, segs = pre ++ post /\ resolves pre [] /\ exists x, In x pre /\ ~ is_dots x.
(* the last segment is "." or ".." and what is left ends in an empty segment: "/a//.", "/a//b/.." *)
Definition dots_after_empty (segs : list str) : Prop :=
  exists l x k, segs = l ++ [x] /\ is_dots x /\ resolves segs (k ++ [[]]).

(* the segments out are k, followed by an empty segment if the last of segs is "." or ".." and k does not
   already end in one *)
Definition rds_result (segs k out : list str) : Prop :=
  ((exists l x, segs = l ++ [x] /\ is_dots x) /\ (forall k', k <> k' ++ [[]]) /\ out = k ++ [[]])
  \/ (~ ((exists l x, segs = l ++ [x] /\ is_dots x) /\ (forall k', k <> k' ++ [[]])) /\ out = k).

(* the first list is obtained from the second by leaving elements out *)
Inductive subseq {T} : list T -> list T -> Prop :=
| sub_nil : subseq [] []
| sub_skip x a b : subseq a b -> subseq a (x :: b)
| sub_take x a b : subseq a b -> subseq (x :: a) (x :: b).

(* -------------------------------------------------- vocabulary about joining *)
Definition rds_total (s : str) : str := match rfc_remove_dot_segments s with Some r => r | None => [] end.

(* 5.2.2 reaches merge() *)
Definition merge_applies (strict : bool) (base r : components) : Prop :=
  (c_scheme r = None \/ (strict = false /\ c_scheme r = c_scheme base))
  /\ c_authority r = None /\ c_absolute r = false /\ c_segments r <> [].

(* the path from which 5.2.2 removes dot segments *)
Definition merged (base r : components) : bool * list str :=
  match c_authority base, c_segments base with
  | Some _, [] => (true, c_segments r)
  | _, _ => (c_absolute base, removelast (c_segments base) ++ c_segments r)
  end.
Inductive dotted_path (strict : bool) (base r : components) : bool -> list str -> Prop :=
| dp_own : ~ merge_applies strict base r -> dotted_path strict base r (c_absolute r) (c_segments r)
| dp_merged : merge_applies strict base r -> dotted_path strict base r (fst (merged base r)) (snd (merged base r)).

(* the corner cases of C12 *)
Definition corner (abs : bool) (segs : list str) : Prop :=
  (abs = false /\ climbs segs) \/ dots_after_empty segs.
