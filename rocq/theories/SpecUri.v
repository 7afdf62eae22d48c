(* Specification vocabulary for the properties of split / compose / valid. *)
From Verif Require Import Base ModelUri Rfc3986 SpecHost SpecParts.

(* What the loop bounds of the model require of a string: shorter than 2^32 bytes (rule::star counts
   its matches in an unsigned int) and than the fuel. *)
Definition fits (fuel : nat) (s : str) : Prop := (N.of_nat (length s) < 2 ^ 32)%N /\ (length s < fuel)%nat.
Definition opt_fits fuel (s : option str) : Prop := match s with Some s => fits fuel s | None => True end.
Definition parts_fit (fuel : nat) (p : parts) : Prop :=
  opt_fits fuel (p_scheme p)
  /\ match p_authority p with
     | Some a => opt_fits fuel (ModelUri.userinfo a) /\ fits fuel (ModelUri.host a) /\ opt_fits fuel (ModelUri.port a)
     | None => True
     end
  /\ Forall (fits fuel) (segments (p_path p))
  /\ opt_fits fuel (p_query p) /\ opt_fits fuel (p_fragment p).

(* Every component is in the language of its RFC 3986 rule, and the host is read the same way by
   first-match and by the RFC (SpecHost.v). *)
Definition well_formed_authority (a : ModelUri.authority) : Prop :=
  in_opt userinfo (ModelUri.userinfo a) /\ (L host (ModelUri.host a) /\ host_unambiguous (ModelUri.host a))
  /\ in_opt port (ModelUri.port a).
Definition well_formed (p : parts) : Prop :=
  (exists sch, p_scheme p = Some sch /\ L scheme sch)
  /\ match p_authority p with Some a => well_formed_authority a | None => True end
  /\ Forall (L segment) (segments (p_path p))
  /\ in_opt query (p_query p) /\ in_opt fragment (p_fragment p).

(* the same for a reference, which may lack the scheme *)
Definition well_formed_reference (p : parts) : Prop :=
  in_opt scheme (p_scheme p)
  /\ match p_authority p with Some a => well_formed_authority a | None => True end
  /\ Forall (L segment) (segments (p_path p))
  /\ in_opt query (p_query p) /\ in_opt fragment (p_fragment p).

(* No byte is in 0x80..0xFE, or char is unsigned: then every <cctype> argument is in range. *)
Definition ctype_safe (sg : bool) (s : str) : Prop :=
  sg = false \/ Forall (fun c => (code c < 128 \/ code c = 255)%N) s.

(* the texts of the components *)
Definition opt_list (o : option str) : list str := match o with Some x => [x] | None => [] end.
Definition component_texts (p : parts) : list str :=
  opt_list (p_scheme p)
  ++ match p_authority p with Some a => opt_list (ModelUri.userinfo a) ++ ModelUri.host a :: opt_list (ModelUri.port a) | None => [] end
  ++ segments (p_path p) ++ opt_list (p_query p) ++ opt_list (p_fragment p).

(* The parts whose text form can be read back (RFC 3986 section 3.3: without an authority a path cannot
   start with "//"; a path "absolute" without segments or with an empty first relative segment has no
   text form of its own). *)
Definition representable (p : parts) : Prop :=
  p_authority p <> None
  \/ match absolute (p_path p), segments (p_path p) with
     | true, [] => False
     | true, [[]] => True
     | true, x :: _ => x <> []
     | false, [] => True
     | false, x :: _ => x <> []
     end.
