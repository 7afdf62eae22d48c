(* SPECIFICATION of uri::encode and uri::decode on whole parts: which text takes the place of which.  The
   only part of the model used is the record of a URI's components (ModelUri.parts, uri.hpp:43-129). *)
From Verif Require Import Base ModelUri SpecPct SpecPuny SpecIcu.
Local Open Scope list_scope.

Inductive field := Scheme | Userinfo | Host | Port | Segment | Query | Fragment.

(* --- lifting a relation on texts to whole parts: same shape, every component related --------------------- *)
Inductive opt_rel {A} (R : A -> A -> Prop) : option A -> option A -> Prop :=
| opt_none : opt_rel R None None
| opt_some a b : R a b -> opt_rel R (Some a) (Some b).
Definition auth_rel (R : field -> str -> str -> Prop) (a b : authority) : Prop :=
  opt_rel (R Userinfo) (userinfo a) (userinfo b) /\ R Host (host a) (host b) /\ opt_rel (R Port) (port a) (port b).
Definition parts_rel (R : field -> str -> str -> Prop) (p q : parts) : Prop :=
  opt_rel (R Scheme) (p_scheme p) (p_scheme q)
  /\ opt_rel (auth_rel R) (p_authority p) (p_authority q)
  /\ absolute (p_path p) = absolute (p_path q)
  /\ Forall2 (R Segment) (segments (p_path p)) (segments (p_path q))
  /\ opt_rel (R Query) (p_query p) (p_query q)
  /\ opt_rel (R Fragment) (p_fragment p) (p_fragment q).
(* every component satisfies P *)
Definition opt_all {A} (P : A -> Prop) (o : option A) : Prop := match o with None => True | Some a => P a end.
Definition parts_all (P : field -> str -> Prop) (p : parts) : Prop :=
  opt_all (P Scheme) (p_scheme p)
  /\ opt_all (fun a => opt_all (P Userinfo) (userinfo a) /\ P Host (host a) /\ opt_all (P Port) (port a)) (p_authority p)
  /\ Forall (P Segment) (segments (p_path p))
  /\ opt_all (P Query) (p_query p)
  /\ opt_all (P Fragment) (p_fragment p).

(* --- labels ---------------------------------------------------------------------------------------------- *)
(* a :: [b; c] separated by dots is a . b . c *)
Fixpoint joined {A} (dot : A) (l : list A) (ls : list (list A)) : list A :=
  match ls with [] => l | l' :: ls' => l ++ dot :: joined dot l' ls' end.
(* the labels of s, as many as there are dots and one more *)
Definition labels {A} (dot : A) (s : list A) (ls : list (list A)) : Prop :=
  exists l ls', ls = l :: ls' /\ s = joined dot l ls' /\ Forall (fun x => ~ In dot x) ls.
Definition dot32 : N := 0x2E.
Definition dot : ascii := "."%char.
Definition xn : str := ss "xn--".
Definition has_prefix (p s : str) : Prop := exists r, s = p ++ r.
Definition ascii_only (u : list N) : Prop := Forall (fun c => (c < 0x80)%N) u.

(* a label as it is written in a domain name: as it is, or "xn--" and its Punycode (RFC 3492, RFC 5890) *)
Definition label_encoded (u : list N) (e : str) : Prop :=
  (ascii_only u /\ map code e = u) \/ (~ ascii_only u /\ exists q, punycode_of u q /\ e = xn ++ q).
(* the text is read as UTF-8 *)
Definition host_encoded (s e : str) : Prop :=
  exists cs ok us es, reads8 (map code s) cs ok /\ labels dot32 cs us /\ labels dot e es /\ Forall2 label_encoded us es.

(* the text a Punycode stands for (a delimiter in front is skipped: C21), as UTF-8; what is not a scalar
   value becomes U+FFFD *)
Definition puny_text (q : str) (u : list N) : Prop :=
  (puny_decodes q u \/ exists q', q = hyphen :: q' /\ ~ In hyphen q' /\ puny_decodes q' u)
  /\ (forall c, In c u -> (c < 2 ^ 32)%N).
Definition label_decoded (e t : str) : Prop :=
  (~ has_prefix xn e /\ t = e)
  \/ exists q u cs ok, e = xn ++ q /\ puny_text q u /\ reads32 u cs ok /\ text utf8_of cs (map code t).
Definition host_decoded (e t : str) : Prop :=
  exists es ts, labels dot e es /\ Forall2 label_decoded es ts /\ exists l ls, ts = l :: ls /\ t = joined dot l ls.
(* some label cannot be decoded *)
Definition host_undecodable (e : str) : Prop :=
  exists es l, labels dot e es /\ In l es /\ has_prefix xn l /\ forall u, ~ puny_text (skipn 4 l) u.

(* --- what encode does to a component ---------------------------------------------------------------------- *)
(* the percent-encode sets; for a fragment the set of the standard without the backquote (C17); scheme and
   port get the C0 control set and the space *)
Definition field_set (f : field) (c : ascii) : Prop :=
  match f with
  | Userinfo => userinfo_set c \/ c = percent
  | Segment => path_set c \/ c = percent
  | Query => query_set c \/ c = percent
  | Fragment => (fragment_set c /\ c <> backquote) \/ c = percent
  | Scheme | Port | Host => c0_control_set c \/ c = " "%char
  end.
Definition encoded (f : field) (s e : str) : Prop :=
  match f with Host => host_encoded s e | _ => encodes (field_set f) s e end.
(* there is something to encode *)
Definition must_encode (f : field) (s : str) : Prop :=
  match f with Host => ~ ascii_only (map code s) | _ => exists c, In c s /\ field_set f c end.

(* --- what decode does to a component ------------------------------------------------------------------------ *)
(* A host all of whose text goes away ("xn--", "xn---") is left as it is. *)
Definition decoded (f : field) (e t : str) : Prop :=
  match f with
  | Host => (host_decoded e t /\ t <> []) \/ (host_decoded e [] /\ t = e)
  | _ => decodes e t
  end.
(* there is something to decode *)
Definition must_decode (f : field) (e : str) : Prop :=
  match f with
  | Host => (exists es l, labels dot e es /\ In l es /\ has_prefix xn l) /\ ~ host_decoded e []
  | _ => In percent e
  end.
