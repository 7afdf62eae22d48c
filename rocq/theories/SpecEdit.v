(* SPECIFICATION vocabulary for C52: changing the parts of a URI. *)
From Verif Require Import Base ModelUri ModelEdit Rfc3986 SpecHost SpecParts SpecUri SpecPath.
Local Open Scope list_scope.

(* the text put in belongs to the language of the component (RFC 3986 Appendix A; for the host see C02) *)
Definition text_ok (e : edit) : Prop :=
  match e with
  | EScheme x => in_opt scheme x
  | EUserinfo x => in_opt userinfo x
  | EHost x => L host x /\ host_unambiguous x
  | EPort x => in_opt port x
  | EAuthority (Some a) => well_formed_authority a
  | ESegment _ x | EPush x => L segment x
  | EQuery x => in_opt query x
  | EFragment x => in_opt fragment x
  | EAuthority None | EAbsolute _ | EPop | EDots => True
  end.
(* edits which leave the path alone and do not take the authority or the scheme away *)
Definition harmless (e : edit) : Prop :=
  match e with
  | EScheme (Some _) | EUserinfo _ | EHost _ | EPort _ | EAuthority (Some _) | EQuery _ | EFragment _ => True
  | _ => False
  end.
(* edits which take neither the authority nor the scheme away *)
Definition keeps_authority (e : edit) : Prop :=
  match e with EScheme None | EAuthority None => False | _ => True end.

(* the piece of the text of p that an edit is about, with its delimiter *)
Definition auth_of (p : parts) (f : ModelUri.authority -> str) : str := match p_authority p with Some a => f a | None => [] end.
Definition opt_text (f : str -> str) (o : option str) : str := match o with Some x => f x | None => [] end.
Definition piece (e : edit) (p : parts) : str :=
  match e with
  | EScheme _ => opt_text (fun x => x ++ ss ":") (p_scheme p)
  | EUserinfo _ => auth_of p (fun a => opt_text (fun x => x ++ ss "@") (ModelUri.userinfo a))
  | EHost _ => auth_of p ModelUri.host
  | EPort _ => auth_of p (fun a => opt_text (fun x => ss ":" ++ x) (ModelUri.port a))
  | ESegment i _ => nth i (segments (p_path p)) []
  | EQuery _ => opt_text (fun x => ss "?" ++ x) (p_query p)
  | EFragment _ => opt_text (fun x => ss "#" ++ x) (p_fragment p)
  | _ => []
  end.

(* edits of one component, and those of a component of the authority *)
Definition localised (e : edit) : Prop :=
  match e with EAuthority _ | EAbsolute _ | EPush _ | EPop | EDots => False | _ => True end.
Definition touches_authority (e : edit) : Prop :=
  match e with EUserinfo _ | EHost _ | EPort _ => True | _ => False end.
(* the text that takes the place of that piece *)
Definition new_text (e : edit) : str :=
  match e with
  | EScheme x => opt_text (fun x => x ++ ss ":") x
  | EUserinfo x => opt_text (fun x => x ++ ss "@") x
  | EHost x => x
  | EPort x => opt_text (fun x => ss ":" ++ x) x
  | ESegment _ x => x
  | EQuery x => opt_text (fun x => ss "?" ++ x) x
  | EFragment x => opt_text (fun x => ss "#" ++ x) x
  | _ => []
  end.

(* the authority in the text, and the path, which follows a "/" when it is absolute or there is an authority
   (path_text, SpecPath.v: nothing at all when there are no segments) *)
Definition auth_text (o : option ModelUri.authority) : str :=
  match o with
  | Some a => ss "//" ++ opt_text (fun x => x ++ ss "@") (ModelUri.userinfo a) ++ ModelUri.host a ++ opt_text (fun x => ss ":" ++ x) (ModelUri.port a)
  | None => []
  end.
Definition rooted_text (o : option ModelUri.authority) (abs : bool) (l : list str) : str :=
  path_text (match o with Some _ => true | None => abs end) l.
(* what an edit of the path does to the path (abs, l) *)
Definition path_edited (e : edit) (abs : bool) (l : list str) (abs' : bool) (l' : list str) : Prop :=
  match e with
  | EAbsolute b => abs' = b /\ l' = l
  | EPush x => abs' = abs /\ l' = l ++ [x]
  | EPop => abs' = abs /\ exists x, l = l' ++ [x]
  | EDots => abs' = abs /\ exists k, resolves l k /\ rds_result l k l'
  | _ => False
  end.
Definition edits_path (e : edit) : Prop := match e with EAbsolute _ | EPush _ | EPop | EDots => True | _ => False end.
