(* SPECIFICATION for C39: where, in the characters passed to split or split_reference, each returned view lies.
   A view is (offset, length); None is a view without data. *)
From Verif Require Import Base ModelUri.
From Verif Require Import ModelSpan.

Definition has (s : str) (o : nat) (c : ascii) : Prop := nth_error s o = Some c.
(* "/" segment "/" segment ... from offset o to offset e: each view starts right behind its slash *)
Inductive slashes (s : str) : nat -> list place -> nat -> Prop :=
| slashes_nil o : slashes s o [] o
| slashes_cons o k l e : has s o "/" -> slashes s (S o + k) l e -> slashes s o (Some (S o, k) :: l) e.
(* nothing, or the character c and right behind it the view *)
Definition mark (s : str) (c : ascii) (o : nat) (p : option place) (e : nat) : Prop :=
  match p with
  | None => e = o
  | Some v => exists k, has s o c /\ v = Some (S o, k) /\ e = S o + k
  end.
Definition userinfo_at (s : str) (o : nat) (p : option place) (e : nat) : Prop :=
  match p with
  | None => e = o
  | Some v => exists k, v = Some (o, k) /\ has s (o + k) "@" /\ e = S (o + k)
  end.
Definition authority_at (s : str) (o : nat) (a : pauth) (e : nat) : Prop :=
  has s o "/" /\ has s (S o) "/" /\
  exists o1 k, userinfo_at s (S (S o)) (pl_userinfo a) o1 /\ pl_host a = Some (o1, k) /\ mark s ":" (o1 + k) (pl_port a) e.
(* without an authority the path is empty, "/" (one segment, without data), "/" and a non-empty segment and
   more slashes and segments, or the same without the first slash *)
Definition path_at (s : str) (o : nat) (has_authority : bool) (abs : bool) (l : list place) (e : nat) : Prop :=
  if has_authority then slashes s o l e /\ abs = match l with [] => false | _ => true end
  else if abs then (match l with Some (_, S _) :: _ => slashes s o l e | _ => False end) \/ (l = [None] /\ has s o "/" /\ e = S o)
  else (l = [] /\ e = o) \/ (exists k l', 1 <= k /\ l = Some (o, k) :: l' /\ slashes s (o + k) l' e).
(* one component after the other, with exactly the delimiters between them, from the first character to the last *)
Definition placed (s : str) (v : pparts) : Prop :=
  exists o1 o2 o3 o4,
    match pl_scheme v with
    | None => o1 = 0
    | Some p => exists k, p = Some (0, k) /\ has s k ":" /\ o1 = S k
    end
    /\ match pl_authority v with None => o2 = o1 | Some a => authority_at s o1 a o2 end
    /\ path_at s o2 (match pl_authority v with None => false | _ => true end) (pl_absolute v) (pl_segments v) o3
    /\ mark s "?" o3 (pl_query v) o4
    /\ mark s "#" o4 (pl_fragment v) (length s).
(* the characters a view shows *)
Definition shown (s : str) (p : place) : str := match p with None => [] | Some (o, k) => firstn k (skipn o s) end.
Definition inside (s : str) (p : place) : Prop := match p with None => True | Some (o, k) => o + k <= length s end.
(* the parts that the views show *)
Definition shown_parts (s : str) (v : pparts) : parts :=
  mkparts (option_map (shown s) (pl_scheme v))
    (option_map (fun a => mkauth (option_map (shown s) (pl_userinfo a)) (shown s (pl_host a)) (option_map (shown s) (pl_port a)))
       (pl_authority v))
    (mkpath (pl_absolute v) (map (shown s) (pl_segments v)))
    (option_map (shown s) (pl_query v)) (option_map (shown s) (pl_fragment v)).
(* all the views of the parts *)
Definition views (v : pparts) : list place :=
  let opt p := match p with None => [] | Some x => [x] end in
  opt (pl_scheme v)
  ++ match pl_authority v with None => [] | Some a => opt (pl_userinfo a) ++ [pl_host a] ++ opt (pl_port a) end
  ++ pl_segments v ++ opt (pl_query v) ++ opt (pl_fragment v).
(* for C40: the number of characters of the components, counting each component once more *)
Definition opt_size (s : option str) : nat := match s with None => 0 | Some s => length s + 1 end.
Definition segs_size (l : list str) : nat := fold_right (fun s n => length s + 1 + n) 0 l.
Definition auth_size (a : authority) : nat := opt_size (ModelUri.userinfo a) + (length (ModelUri.host a) + 1) + opt_size (ModelUri.port a).
Definition parts_size (p : parts) : nat :=
  opt_size (p_scheme p) + match p_authority p with None => 0 | Some a => auth_size a end
  + segs_size (segments (p_path p)) + opt_size (p_query p) + opt_size (p_fragment p).
