(* PROPERTY THEOREMS: split, split_reference, compose, valid, operator== (C01-C08, C27).
   Vocabulary: Rfc3986.v (grammar, decompositions), SpecHost.v, SpecParts.v, SpecUri.v. *)
From Verif Require Import Base ModelUri Rfc3986 SpecHost SpecParts SpecUri PropSplitFacts.

(* --- C01: split accepts only URIs and returns their (unique) components ---- *)
Theorem C01_split_sound sg fuel s p : fits fuel s -> split sg fuel s = Ok (Some p) ->
  L URI s /\ URI_decomp s (comps p) /\ (forall c, URI_decomp s c -> c = comps p).
Proof. exact (split_sound sg fuel s p). Qed.
Print Assumptions C01_split_sound.
Example C01_ex : let s := ss "http://u@[::1]:80/a/%41?q#f" in fits 100 s /\
  split true 100 s = Ok (Some (mkparts (Some (ss "http")) (Some (mkauth (Some (ss "u")) (ss "[::1]") (Some (ss "80"))))
     (mkpath true [ss "a"; ss "%41"]) (Some (ss "q")) (Some (ss "f")))).
Proof. split; [unfold fits; vm_compute; split; [reflexivity|repeat constructor]|vm_compute; reflexivity]. Qed.

(* --- C02: split accepts every URI whose host is read alike by first-match and by the RFC --------- *)
Theorem C02_split_complete sg fuel s c : fits fuel s -> URI_decomp s c -> unambiguous c ->
  exists p, split sg fuel s = Ok (Some p) /\ comps p = c.
Proof. exact (split_complete sg fuel s c). Qed.
Print Assumptions C02_split_complete.
(* a string is in the language iff it has a decomposition, so C02 covers every URI *)
Theorem C02_every_URI_decomposes s : L URI s <-> exists c, URI_decomp s c.
Proof. exact (uri_has_decomp s). Qed.
Print Assumptions C02_every_URI_decomposes.
(* the rejected strings, exactly: those that are no URI and those whose (only) reading has an ambiguous host *)
Theorem C02_split_rejects sg fuel s : fits fuel s -> ctype_safe sg s ->
  (split sg fuel s = Ok None <-> forall c, URI_decomp s c -> ~ unambiguous c).
Proof. exact (split_rejects sg fuel s). Qed.
Print Assumptions C02_split_rejects.
Example C02_ex : unambiguous (mkcomponents (Some (ss "a")) (Some (None, ss "1.2.3.4", None)) false [] None None)
  /\ unambiguous (mkcomponents (Some (ss "a")) (Some (None, ss "www.x", None)) false [] None None).
Proof. exact unambiguous_examples. Qed.
(* the full statement, without the condition on the host, is false of the code *)
Theorem C02_refuted : exists s, L URI s /\ forall sg fuel, fits fuel s -> split sg fuel s = Ok None.
Proof. exact split_incomplete. Qed.
Print Assumptions C02_refuted.

(* --- C03: compose gives back the string that was split ---------------------------------------- *)
Theorem C03_compose_split sg fuel s p : fits fuel s ->
  split sg fuel s = Ok (Some p) \/ split_reference sg fuel s = Ok (Some p) -> compose p = s.
Proof. exact (compose_split sg fuel s p). Qed.
Print Assumptions C03_compose_split.
Example C03_ex : exists p, split_reference true 100 (ss "../a?q#") = Ok (Some p) /\ compose p = ss "../a?q#".
Proof. eexists; split; vm_compute; reflexivity. Qed.

(* --- C04: split_reference recognises URI-reference -------------------------------------------- *)
Theorem C04_split_reference sg fuel s p : fits fuel s ->
  (split_reference sg fuel s = Ok (Some p) <->
   (URI_decomp s (comps p) \/ relative_decomp s (comps p)) /\ unambiguous (comps p)).
Proof. exact (split_reference_spec sg fuel s p). Qed.
Print Assumptions C04_split_reference.
Theorem C04_unique s c1 c2 : (URI_decomp s c1 \/ relative_decomp s c1) -> (URI_decomp s c2 \/ relative_decomp s c2) -> c1 = c2.
Proof. exact (reference_unique s c1 c2). Qed.
Print Assumptions C04_unique.
Theorem C04_language s : L URI_reference s <-> exists c, URI_decomp s c \/ relative_decomp s c.
Proof. exact (reference_has_decomp s). Qed.
Print Assumptions C04_language.
Theorem C04_rejects sg fuel s : fits fuel s -> ctype_safe sg s ->
  (split_reference sg fuel s = Ok None <->
   forall c, URI_decomp s c \/ relative_decomp s c -> ~ unambiguous c).
Proof. exact (split_reference_rejects sg fuel s). Qed.
Print Assumptions C04_rejects.
Example C04_ex : exists p, split_reference true 100 (ss "//h/a:b") = Ok (Some p) /\ p_scheme p = None.
Proof. eexists; split; vm_compute; reflexivity. Qed.

(* --- C05: split inverts compose on valid parts exactly when they are representable -------------- *)
Theorem C05_roundtrip sg fuel p : fits fuel (compose p) -> parts_valid sg fuel p = Ok true ->
  (representable p <-> exists q, split sg fuel (compose p) = Ok (Some q) /\ parts_eqb q p = true).
Proof. exact (valid_roundtrip sg fuel p). Qed.
Print Assumptions C05_roundtrip.
Example C05_ex : let p := mkparts (Some (ss "a")) None (mkpath true [ss "x"; []]) (Some []) None in
  fits 100 (compose p) /\ parts_valid true 100 p = Ok true /\ representable p.
Proof. unfold fits, representable; vm_compute; intuition (try discriminate; try (repeat constructor)). Qed.
(* valid parts that compose to a string which is not a URI, or to one with other parts *)
Theorem C05_refuted :
  (exists p, parts_valid true 100 p = Ok true /\ split true 100 (compose p) = Ok None)
  /\ (exists p q, parts_valid true 100 p = Ok true /\ split true 100 (compose p) = Ok (Some q) /\ parts_eqb q p = false
        /\ p_authority p = None /\ p_authority q <> None).
Proof. exact valid_roundtrip_fails. Qed.
Print Assumptions C05_refuted.

(* --- C06: what split returns is valid ----------------------------------------------------------- *)
Theorem C06_split_valid sg fuel s p : fits fuel s -> split sg fuel s = Ok (Some p) ->
  parts_valid sg fuel p = Ok true
  /\ match p_authority p with Some a => authority_valid sg fuel a = Ok true | None => True end
  /\ path_valid sg fuel (p_path p) = Ok true.
Proof. exact (split_all_valid sg fuel s p). Qed.
Print Assumptions C06_split_valid.
Theorem C06_split_reference_valid sg fuel s p : fits fuel s -> split_reference sg fuel s = Ok (Some p) ->
  path_valid sg fuel (p_path p) = Ok true
  /\ match p_authority p with Some a => authority_valid sg fuel a = Ok true | None => True end
  /\ (p_scheme p <> None -> parts_valid sg fuel p = Ok true).
Proof. exact (split_ref_valid sg fuel s p). Qed.
Print Assumptions C06_split_reference_valid.

(* --- C07: valid() ----------------------------------------------------------------------------- *)
Theorem C07_valid sg fuel p : parts_fit fuel p ->
  (parts_valid sg fuel p = Ok true <->
   (exists sch, p_scheme p = Some sch /\ L scheme sch)
   /\ match p_authority p with
      | Some a => in_opt userinfo (ModelUri.userinfo a)
                  /\ (L host (ModelUri.host a) /\ host_unambiguous (ModelUri.host a)) /\ in_opt port (ModelUri.port a)
      | None => True end
   /\ Forall (L segment) (segments (p_path p)) /\ in_opt query (p_query p) /\ in_opt fragment (p_fragment p)).
Proof. exact (valid_spec sg fuel p). Qed.
Print Assumptions C07_valid.
(* valid() always answers, if char is unsigned or no component has a byte 0x80..0xFE *)
Theorem C07_valid_decides sg fuel p : parts_fit fuel p -> Forall (ctype_safe sg) (component_texts p) ->
  exists b, parts_valid sg fuel p = Ok b /\ (b = true <-> well_formed p).
Proof. exact (valid_decides sg fuel p). Qed.
Print Assumptions C07_valid_decides.
Theorem C07_authority_valid sg fuel a : opt_fits fuel (ModelUri.userinfo a) -> fits fuel (ModelUri.host a) -> opt_fits fuel (ModelUri.port a) ->
  (authority_valid sg fuel a = Ok true <-> in_opt userinfo (ModelUri.userinfo a)
     /\ (L host (ModelUri.host a) /\ host_unambiguous (ModelUri.host a)) /\ in_opt port (ModelUri.port a)).
Proof. exact (authority_valid_spec sg fuel a). Qed.
Print Assumptions C07_authority_valid.
Theorem C07_path_valid sg fuel p : Forall (fits fuel) (segments p) ->
  (path_valid sg fuel p = Ok true <-> Forall (L segment) (segments p)).
Proof. exact (path_valid_spec sg fuel p). Qed.
Print Assumptions C07_path_valid.
(* without the host condition the statement is false: a host in the RFC language that valid() rejects *)
Theorem C07_refuted : exists h, L host h /\ forall sg fuel, fits fuel h -> authority_valid sg fuel (mkauth None h None) <> Ok true.
Proof. exact valid_host_rejected. Qed.
Print Assumptions C07_refuted.

(* --- C08: totality ------------------------------------------------------------------------------ *)
Theorem C08_split_total sg fuel s : fits fuel s ->
  (exists o, split sg fuel s = Ok o) \/ (~ ctype_safe sg s /\ split sg fuel s = Fault ctype_domain).
Proof. exact (split_terminates sg fuel s). Qed.
Print Assumptions C08_split_total.
Theorem C08_split_reference_total sg fuel s : fits fuel s ->
  (exists o, split_reference sg fuel s = Ok o) \/ (~ ctype_safe sg s /\ split_reference sg fuel s = Fault ctype_domain).
Proof. exact (split_reference_terminates sg fuel s). Qed.
Print Assumptions C08_split_reference_total.
Theorem C08_join_total sg fuel b r strict : fits fuel b -> fits fuel r ->
  (exists o, join sg fuel b r strict = Ok o)
  \/ ((~ ctype_safe sg b \/ ~ ctype_safe sg r) /\ join sg fuel b r strict = Fault ctype_domain).
Proof. exact (join_terminates sg fuel b r strict). Qed.
Print Assumptions C08_join_total.
Theorem C08_valid_total sg fuel p : parts_fit fuel p ->
  (exists b, parts_valid sg fuel p = Ok b)
  \/ (~ Forall (ctype_safe sg) (component_texts p) /\ parts_valid sg fuel p = Fault ctype_domain).
Proof. exact (valid_terminates sg fuel p). Qed.
Print Assumptions C08_valid_total.
(* the undefined call does happen: a UTF-8 host on a signed-char platform *)
Theorem C08_refuted : exists s, split true 100 s = Fault ctype_domain /\ split false 100 s = Ok None.
Proof. exact split_undefined. Qed.
Print Assumptions C08_refuted.
Example C08_ex : ctype_safe true (ss "http://a/") /\ fits 100 (ss "http://a/").
Proof. exact ctype_safe_ex. Qed.

(* --- C27: equality ------------------------------------------------------------------------------ *)
Theorem C27_equivalence :
  (forall p, parts_eqb p p = true) /\ (forall p q, parts_eqb p q = parts_eqb q p)
  /\ (forall p q r, parts_eqb p q = true -> parts_eqb q r = true -> parts_eqb p r = true).
Proof. exact eqb_equivalence. Qed.
Print Assumptions C27_equivalence.
Theorem C27_exact p q : parts_eqb p q = true <->
  p_scheme p = p_scheme q /\ p_authority p = p_authority q /\ p_query p = p_query q /\ p_fragment p = p_fragment q
  /\ segments (p_path p) = segments (p_path q)
  /\ (p_authority p = None -> absolute (p_path p) = absolute (p_path q)).
Proof. exact (eqb_exact p q). Qed.
Print Assumptions C27_exact.
Theorem C27_compose p q : parts_eqb p q = true -> compose p = compose q.
Proof. exact (eqb_composes p q). Qed.
Print Assumptions C27_compose.
Example C27_ex : let a := Some (mkauth None (ss "h") None) in
  let p := mkparts None a (mkpath true [ss "x"]) None None in let q := mkparts None a (mkpath false [ss "x"]) None None in
  p <> q /\ parts_eqb p q = true.
Proof. split; [discriminate|vm_compute; reflexivity]. Qed.
(* composition distinguishes parts that differ, when both are valid and representable *)
Theorem C27_compose_injective sg fuel p q : fits fuel (compose p) ->
  parts_valid sg fuel p = Ok true -> parts_valid sg fuel q = Ok true -> representable p -> representable q ->
  compose p = compose q -> parts_eqb p q = true.
Proof. exact (compose_injective sg fuel p q). Qed.
Print Assumptions C27_compose_injective.
