(* Specification: a parts structure read as RFC 3986 components. *)
From Verif Require Import Base ModelUri Rfc3986.

Definition comps (p : parts) : components :=
  mkcomponents (p_scheme p)
    (match p_authority p with Some a => Some (ModelUri.userinfo a, ModelUri.host a, ModelUri.port a) | None => None end)
    (absolute (p_path p)) (segments (p_path p)) (p_query p) (p_fragment p).
