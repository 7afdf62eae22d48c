(* PROPERTY THEOREMS: remove_dot_segments and join (C11-C14, C33).
   Vocabulary: SpecPath.v (RFC 3986 section 5 pseudo code), SpecParts.v, SpecUri.v. *)
From Verif Require Import Base ModelUri Rfc3986 SpecHost SpecParts SpecUri SpecPath PathFacts PathRfc JoinFacts PropPathFacts.

(* --- C11 ---------------------------------------------------------------------------------------- *)
Theorem C11_no_dots p : Forall (fun s => ~ is_dots s) (segments (remove_dot_segments p)).
Proof. exact (rds_no_dots (segments p)). Qed.
Print Assumptions C11_no_dots.
Theorem C11_idempotent p : remove_dot_segments (remove_dot_segments p) = remove_dot_segments p.
Proof. exact (rds_twice p). Qed.
Print Assumptions C11_idempotent.
Theorem C11_unchanged_without_dots p : Forall (fun s => ~ is_dots s) (segments p) -> remove_dot_segments p = p.
Proof. exact (rds_stays p). Qed.
Print Assumptions C11_unchanged_without_dots.
(* the result is what is left when ".." cancels its predecessor, with a final empty segment to keep the
   path a directory; it is a subsequence of the input *)
Theorem C11_result p : absolute (remove_dot_segments p) = absolute p
  /\ exists k, resolves (segments p) k /\ subseq k (segments p)
       /\ rds_result (segments p) k (segments (remove_dot_segments p)).
Proof. exact (rds_what p). Qed.
Print Assumptions C11_result.
Theorem C11_resolves_function l k k' : resolves l k -> resolves l k' -> k = k'.
Proof. exact (resolves_det l k k'). Qed.
Print Assumptions C11_resolves_function.
Example C11_ex : remove_dot_segments (mkpath true [ss "a"; ss "."; ss "b"; ss ".."; ss "c"; ss ".."]) = mkpath true [ss "a"; []].
Proof. vm_compute. reflexivity. Qed.

(* --- C12: RFC 3986 5.2.4, exactly --------------------------------------------------------------- *)
Theorem C12_rfc_algorithm p : Forall no_slash (segments p) ->
  (rfc_remove_dot_segments (path_string p) = Some (path_string (remove_dot_segments p))
   <-> ~ corner (absolute p) (segments p)).
Proof. exact (rds_rfc_iff p). Qed.
Print Assumptions C12_rfc_algorithm.
(* ... and by how much they differ: a leading "/" when a relative path climbs above its start, a trailing "/"
   when the dots follow an empty segment *)
Theorem C12_difference p : Forall no_slash (segments p) ->
  exists lead trail, rfc_remove_dot_segments (path_string p)
      = Some (path_text lead (segments (remove_dot_segments p)) ++ trail)
    /\ (lead = true <-> absolute p = true \/ climbs (segments p))
    /\ ((dots_after_empty (segments p) /\ trail = ss "/") \/ (~ dots_after_empty (segments p) /\ trail = [])).
Proof. exact (rds_rfc_exact p). Qed.
Print Assumptions C12_difference.
(* the fuel of the RFC algorithm always suffices *)
Theorem C12_rfc_total s : exists r, rfc_remove_dot_segments s = Some r.
Proof. exact (rfc_rds_total s). Qed.
Print Assumptions C12_rfc_total.
Example C12_ex : (* the RFC's own example *)
  rfc_remove_dot_segments (ss "/a/b/c/./../../g") = Some (ss "/a/g")
  /\ rfc_remove_dot_segments (ss "mid/content=5/../6") = Some (ss "mid/6").
Proof. vm_compute. split; reflexivity. Qed.
Theorem C12_refuted :
  (exists p, absolute p = true /\ Forall no_slash (segments p) /\ path_string p = ss "/a//."
     /\ path_string (remove_dot_segments p) = ss "/a/" /\ rfc_remove_dot_segments (path_string p) = Some (ss "/a//"))
  /\ (exists p, absolute p = false /\ Forall no_slash (segments p) /\ path_string p = ss "a/../b"
     /\ path_string (remove_dot_segments p) = ss "b" /\ rfc_remove_dot_segments (path_string p) = Some (ss "/b")).
Proof. exact rds_differs. Qed.
Print Assumptions C12_refuted.

(* --- C13: RFC 3986 5.2.2, 5.2.3, 5.3 ------------------------------------------------------------- *)
(* parts level *)
Theorem C13_join_parts sb sr b r strict : reference_decomp sb (comps b) -> reference_decomp sr (comps r) ->
  ~ (merge_applies strict (comps b) (comps r) /\ exists x, c_segments (comps b) = [x]) ->
  (forall abs segs, dotted_path strict (comps b) (comps r) abs segs -> ~ corner abs segs) ->
  five (comps (join_parts b r strict)) = rfc_transform rds_total strict (five (comps b)) (five (comps r)).
Proof. exact (join_rfc sb sr b r strict). Qed.
Print Assumptions C13_join_parts.
(* string level: composing the result gives the RFC's target string *)
Theorem C13_join_strings sg fuel base ref strict t cb cr : fits fuel base -> fits fuel ref ->
  join sg fuel base ref strict = Ok (Some t) -> URI_decomp base cb -> reference_decomp ref cr ->
  ~ (merge_applies strict cb cr /\ exists x, c_segments cb = [x]) ->
  (forall abs segs, dotted_path strict cb cr abs segs -> ~ corner abs segs) ->
  compose t = rfc_recompose (rfc_transform rds_total strict (five cb) (five cr)).
Proof. exact (join_string_rfc sg fuel base ref strict t cb cr). Qed.
Print Assumptions C13_join_strings.
(* the excluded case: a base path of one segment keeps it, where 5.2.3 drops it *)
Theorem C13_one_segment_base b r strict x : merge_applies strict (comps b) (comps r) -> segments (p_path b) = [x] ->
  join_parts b r strict = mkparts (p_scheme b) (p_authority b)
    (remove_dot_segments (mkpath (absolute (p_path b)) (x :: segments (p_path r)))) (p_query r) (p_fragment r).
Proof. exact (join_one_segment b r strict x). Qed.
Print Assumptions C13_one_segment_base.
Example C13_ex : (* the RFC's base and two of its examples (5.4) *)
  (exists t, join true 100 (ss "http://a/b/c/d;p?q") (ss "../../g") true = Ok (Some t) /\ compose t = ss "http://a/g")
  /\ (exists t, join true 100 (ss "http://a/b/c/d;p?q") (ss "g;x=1/../y") true = Ok (Some t) /\ compose t = ss "http://a/b/c/y").
Proof. split; eexists; split; vm_compute; reflexivity. Qed.
Theorem C13_refuted : exists t, join true 100 (ss "http://a/b") (ss "g") true = Ok (Some t)
  /\ compose t = ss "http://a/b/g"
  /\ exists cb cr, URI_decomp (ss "http://a/b") cb /\ reference_decomp (ss "g") cr
     /\ rfc_recompose (rfc_transform rds_total true (five cb) (five cr)) = ss "http://a/g".
Proof. exact join_differs. Qed.
Print Assumptions C13_refuted.

(* --- C14 ---------------------------------------------------------------------------------------- *)
Theorem C14_join sg fuel base ref strict o : join sg fuel base ref strict = Ok o <->
  (split sg fuel base = Ok None /\ o = None)
  \/ (exists b, split sg fuel base = Ok (Some b) /\ split_reference sg fuel ref = Ok None /\ o = None)
  \/ (exists b r, split sg fuel base = Ok (Some b) /\ split_reference sg fuel ref = Ok (Some r)
        /\ o = Some (join_parts b r strict)).
Proof. exact (join_strings sg fuel base ref strict o). Qed.
Print Assumptions C14_join.
Theorem C14_scheme_and_fragment b r strict : let t := join_parts b r strict in
  p_fragment t = p_fragment r
  /\ (p_scheme r = None -> p_scheme t = p_scheme b)
  /\ (p_scheme r <> None -> p_scheme t = p_scheme r).
Proof. exact (join_scheme b r strict). Qed.
Print Assumptions C14_scheme_and_fragment.
(* an absolute reference (strict) ignores the base altogether *)
Theorem C14_absolute_reference b r : p_scheme r <> None ->
  join_parts b r true = mkparts (p_scheme r) (p_authority r) (remove_dot_segments (p_path r)) (p_query r) (p_fragment r).
Proof. exact (join_absolute b r). Qed.
Print Assumptions C14_absolute_reference.
(* an empty reference gives the base without its fragment *)
Theorem C14_empty_reference b strict : p_scheme b <> None ->
  join_parts b empty_parts strict = mkparts (p_scheme b) (p_authority b) (p_path b) (p_query b) None.
Proof. exact (join_empty b strict). Qed.
Print Assumptions C14_empty_reference.

(* --- C33: the result of a join is valid, and usable as a base again -------------------------------- *)
Theorem C33_join_valid sg fuel base ref strict t : fits fuel base -> fits fuel ref ->
  join sg fuel base ref strict = Ok (Some t) -> well_formed t.
Proof. exact (join_valid sg fuel base ref strict t). Qed.
Print Assumptions C33_join_valid.
Theorem C33_join_valid_bool sg fuel base ref strict t : fits fuel base -> fits fuel ref -> parts_fit fuel t ->
  join sg fuel base ref strict = Ok (Some t) -> parts_valid sg fuel t = Ok true.
Proof. exact (join_valid_bool sg fuel base ref strict t). Qed.
Print Assumptions C33_join_valid_bool.
Theorem C33_no_dots b r strict : segments (p_path r) <> [] \/ Forall (fun s => ~ is_dots s) (segments (p_path b)) ->
  Forall (fun s => ~ is_dots s) (segments (p_path (join_parts b r strict))).
Proof. exact (join_no_dots b r strict). Qed.
Print Assumptions C33_no_dots.
Example C33_ex : fits 100 (ss "http://a/b/c") /\ fits 100 (ss "../d#x")
  /\ exists t, join true 100 (ss "http://a/b/c") (ss "../d#x") true = Ok (Some t) /\ compose t = ss "http://a/d#x"
               /\ parts_valid true 100 t = Ok true.
Proof. unfold fits. split; [|split]. 1,2: split; vm_compute; [reflexivity|repeat constructor].
  eexists. split; [vm_compute; reflexivity|]. split; vm_compute; reflexivity. Qed.
