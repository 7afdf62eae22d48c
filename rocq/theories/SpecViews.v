(* SPECIFICATION vocabulary for parts made of string_views (ModelParts.view: null, the caller's, or inside
   the store): what they show, and how two such parts compare view by view. *)
From Verif Require Import Base ModelUri ModelParts SpecPct SpecIcu SpecStore.
Local Open Scope list_scope.

Inductive opt_rel2 {A B} (R : A -> B -> Prop) : option A -> option B -> Prop :=
| opt2_none : opt_rel2 R None None
| opt2_some a b : R a b -> opt_rel2 R (Some a) (Some b).
(* reading every view of vp, with the store as it is in st, gives the text of p *)
Definition shows (st : vec) (vp : vparts) (p : parts) : Prop :=
  let sh v s := read st v = Ok s in
  opt_rel2 sh (v_scheme vp) (p_scheme p)
  /\ opt_rel2 (fun va a => opt_rel2 sh (v_userinfo va) (userinfo a) /\ sh (v_host va) (host a) /\ opt_rel2 sh (v_port va) (port a))
       (v_authority vp) (p_authority p)
  /\ v_absolute vp = absolute (p_path p)
  /\ Forall2 sh (v_segments vp) (segments (p_path p))
  /\ opt_rel2 sh (v_query vp) (p_query p)
  /\ opt_rel2 sh (v_fragment vp) (p_fragment p).
(* view by view *)
Definition views_rel (R : field -> view -> view -> Prop) (p q : vparts) : Prop :=
  opt_rel2 (R Scheme) (v_scheme p) (v_scheme q)
  /\ opt_rel2 (fun a b => opt_rel2 (R Userinfo) (v_userinfo a) (v_userinfo b) /\ R Host (v_host a) (v_host b) /\ opt_rel2 (R Port) (v_port a) (v_port b))
       (v_authority p) (v_authority q)
  /\ v_absolute p = v_absolute q
  /\ Forall2 (R Segment) (v_segments p) (v_segments q)
  /\ opt_rel2 (R Query) (v_query p) (v_query q)
  /\ opt_rel2 (R Fragment) (v_fragment p) (v_fragment q).
(* every view of p satisfies P *)
Definition views_all (P : field -> view -> Prop) (p : vparts) : Prop := views_rel (fun f v _ => P f v) p p.
(* no view of p points into the store: they are null or the caller's *)
Definition outside (p : vparts) : Prop := views_all (fun _ v => match v with InStore _ _ _ => False | _ => True end) p.
(* the view lies inside what the store holds now *)
Definition inside (st : vec) (v : view) : Prop :=
  match v with InStore a off len => a = vc_alloc st /\ off + len <= length (vc_data st) | _ => False end.
(* the views of p in the order in which they are visited: scheme, path, authority, query, fragment *)
Definition opt_views (o : option view) : list view := match o with None => [] | Some v => [v] end.
Definition view_list (p : vparts) : list view :=
  opt_views (v_scheme p) ++ v_segments p
  ++ match v_authority p with None => [] | Some a => opt_views (v_userinfo a) ++ [v_host a] ++ opt_views (v_port a) end
  ++ opt_views (v_query p) ++ opt_views (v_fragment p).
(* those of them that point into allocation a lie there one after the other, without gap or overlap, from
   offset [off] to offset [stop]; none points into another allocation *)
Inductive consecutive (a : nat) : nat -> list view -> nat -> Prop :=
| seq_nil off : consecutive a off [] off
| seq_null off vs stop : consecutive a off vs stop -> consecutive a off (Null :: vs) stop
| seq_caller off s vs stop : consecutive a off vs stop -> consecutive a off (Caller s :: vs) stop
| seq_store off len vs stop : consecutive a (off + len) vs stop -> consecutive a off (InStore a off len :: vs) stop.
(* What the caller has to provide: no view into the store; and, the counters of the code having 32 bits,
   fewer than 2^32 - 6 path segments and a host shorter than 2^32 characters. *)
Definition few_segments (p : vparts) : Prop := (N.of_nat (length (v_segments p)) < 2 ^ 32 - 6)%N.
Definition short_host (p : vparts) : Prop :=
  views_all (fun f v => match f, v with Host, Caller s => (N.of_nat (length s) < 2 ^ 32)%N | _, _ => True end) p.
Definition proper (p : vparts) : Prop := outside p /\ few_segments p /\ short_host p.

(* What becomes of one view.  Null stays null; a text that needs nothing stays the very same view; any other
   is replaced by one into the store. *)
Definition becomes (must : field -> str -> Prop) (R : field -> str -> str -> Prop) (st : vec) (f : field) (v v' : view) : Prop :=
  match v with
  | Null => v' = Null
  | Caller s => (exists t, read st v' = Ok t /\ R f s t) /\ ((~ must f s /\ v' = Caller s) \/ (must f s /\ inside st v'))
  | InStore _ _ _ => False
  end.
Definition view_encoded : vec -> field -> view -> view -> Prop := becomes must_encode encoded.
Definition view_decoded : vec -> field -> view -> view -> Prop := becomes must_decode decoded.
(* some component has a text satisfying P *)
Definition some_view (P : field -> str -> Prop) (p : vparts) : Prop :=
  ~ views_all (fun f v => match v with Caller s => ~ P f s | _ => True end) p.
(* the host cannot be decoded *)
Definition undecodable (p : vparts) : Prop := exists a s, v_authority p = Some a /\ v_host a = Caller s /\ host_undecodable s.

(* The texts for which decoding the encoded text gives the text itself: any at all in userinfo, path, query
   and fragment; a scheme or port without an escape; a host of well-formed UTF-8 none of whose ASCII labels
   begins with "xn--". *)
Definition returns (f : field) (s : str) : Prop :=
  match f with
  | Scheme | Port => decodes s s
  | Host => (exists cs, text utf8_of cs (map code s))
            /\ forall ls l, labels dot s ls -> In l ls -> ascii_only (map code l) -> ~ has_prefix xn l
  | _ => True
  end.
(* no label of the host begins with "xn--" *)
Definition no_xn (p : parts) : Prop := forall a ls l, p_authority p = Some a -> labels dot (ModelUri.host a) ls -> In l ls -> ~ has_prefix xn l.
