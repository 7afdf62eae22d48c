(* A model of merge, remove_dot_segments and join (uri.cpp:721-804, 930-996) that keeps the identity of the views: a
   view is an element of any type [V]; [content] gives its characters and [null] is a default-constructed view.
   ModelUri.v models the same functions with views replaced by their contents. *)
From Verif Require Import Base ModelUri.
From Verif Require ModelSpan.
Local Open Scope list_scope.

Section Views.
Variable V : Type.
Variable content : V -> str.
Variable null : V.

(* uri.hpp:72-112 *)
Record vauth := mkvauth { v_userinfo : option V; v_host : V; v_port : option V }.
Record vparts := mkvparts {
  v_scheme : option V; v_authority : option vauth; v_absolute : bool; v_segments : list V;
  v_query : option V; v_fragment : option V }.

(* uri.cpp:769-804; *it == ".", *it == ".." and empty () look at the contents *)
Fixpoint vrds_loop (n : nat) (it outit : nat) (last_dir : bool) (segs : list V) : nat * bool * list V :=
  match n with
  | O => (outit, last_dir, segs)
  | S n' =>
    let cur := nth it segs null in
    if is_dot (content cur) then vrds_loop n' (S it) outit true segs
    else if is_dotdot (content cur) then vrds_loop n' (S it) (pred outit) true segs
    else vrds_loop n' (S it) (S outit) (is_empty (content cur)) (if Nat.eqb outit it then segs else upd outit cur segs)
  end.
Definition vrds (segs : list V) : list V :=
  let '(outit, last_dir, s) := vrds_loop (length segs) 0 0 false segs in
  let kept := firstn outit s in
  if last_dir then
    match kept with
    | [] => [null]                                              (* emplace_back () *)
    | _ => if is_empty (content (last kept null)) then kept else kept ++ [null]
    end
  else kept.
(* uri.cpp:730-753; the result is (absolute, segments) *)
Definition vmerge (base ref : vparts) : bool * list V :=
  match v_authority base, v_segments base with
  | Some _, [] => (true, v_segments ref)
  | _, bs =>
    (v_absolute base, (if Nat.ltb 1 (length bs) then firstn (length bs - 1) bs else bs) ++ v_segments ref)
  end.
(* uri.cpp:940-983 *)
Definition vjoin (base reference : vparts) (strict : bool) : vparts :=
  let ref_scheme :=
    if negb strict && opt_eqb str_eqb (option_map content (v_scheme reference)) (option_map content (v_scheme base))
    then None else v_scheme reference in
  match ref_scheme with
  | Some s =>
    mkvparts (Some s) (v_authority reference) (v_absolute reference) (vrds (v_segments reference))
             (v_query reference) (v_fragment reference)
  | None =>
    match v_authority reference with
    | Some a =>
      mkvparts (v_scheme base) (Some a) (v_absolute reference) (vrds (v_segments reference))
               (v_query reference) (v_fragment reference)
    | None =>
      match v_segments reference with
      | [] =>
        mkvparts (v_scheme base) (v_authority base) (v_absolute base) (v_segments base)
                 (match v_query reference with Some q => Some q | None => v_query base end) (v_fragment reference)
      | _ =>
        if v_absolute reference then
          mkvparts (v_scheme base) (v_authority base) true (vrds (v_segments reference)) (v_query reference) (v_fragment reference)
        else
          let '(abs, segs) := vmerge base reference in
          mkvparts (v_scheme base) (v_authority base) abs (vrds segs) (v_query reference) (v_fragment reference)
      end
    end
  end.
End Views.
Arguments mkvauth {V}. Arguments v_userinfo {V}. Arguments v_host {V}. Arguments v_port {V}. Arguments mkvparts {V}.
Arguments v_scheme {V}. Arguments v_authority {V}. Arguments v_absolute {V}. Arguments v_segments {V}. Arguments v_query {V}. Arguments v_fragment {V}.
Arguments vrds_loop {V}. Arguments vrds {V}. Arguments vmerge {V}. Arguments vjoin {V}.

(* the strings that the views of the result of join (std::string_view, std::string_view) can refer to *)
Inductive source := Base | Reference.
Definition sview : Type := option (source * ModelSpan.span).
Definition scontent (base reference : str) (v : sview) : str :=
  match v with
  | None => []
  | Some (Base, p) => ModelSpan.text base p
  | Some (Reference, p) => ModelSpan.text reference p
  end.
Definition from (src : source) (p : ModelSpan.place) : sview := option_map (fun s => (src, s)) p.
Definition from_parts (src : source) (p : ModelSpan.pparts) : vparts sview :=
  mkvparts (option_map (from src) (ModelSpan.pl_scheme p))
    (option_map (fun a => mkvauth (option_map (from src) (ModelSpan.pl_userinfo a)) (from src (ModelSpan.pl_host a))
                            (option_map (from src) (ModelSpan.pl_port a))) (ModelSpan.pl_authority p))
    (ModelSpan.pl_absolute p) (map (from src) (ModelSpan.pl_segments p))
    (option_map (from src) (ModelSpan.pl_query p)) (option_map (from src) (ModelSpan.pl_fragment p)).
(* uri.cpp:985-996 *)
Definition join_views (sg : bool) (fuel : nat) (base reference : str) (strict : bool) : outcome (option (vparts sview)) :=
  match ModelSpan.split_places base sg fuel with
  | Ok (None, _) => Ok None
  | Ok (Some b, _) =>
      match ModelSpan.split_reference_places reference sg fuel with
      | Ok (None, _) => Ok None
      | Ok (Some r, _) => Ok (Some (vjoin (scontent base reference) None (from_parts Base b) (from_parts Reference r) strict))
      | Fault e => Fault e
      | Diverge => Diverge
      end
  | Fault e => Fault e
  | Diverge => Diverge
  end.
