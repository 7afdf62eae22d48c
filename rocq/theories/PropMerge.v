(* C13, continued: exactly when join () gives what RFC 3986 5.2.2 asks for. *)
From Verif Require Import Base ModelUri Rfc3986 SpecHost SpecParts SpecUri SpecPath SpecMerge UriProps JoinExact.

(* parts: the result is the RFC's if and only if join_agrees (SpecMerge.v) *)
Theorem C13_exact_parts sb sr b r strict : reference_decomp sb (comps b) -> reference_decomp sr (comps r) ->
  (five (comps (join_parts b r strict)) = rfc_transform rds_total strict (five (comps b)) (five (comps r))
   <-> join_agrees strict (comps b) (comps r)).
Proof. exact (join_exact sb sr b r strict). Qed.
Print Assumptions C13_exact_parts.
(* strings: the composed result is the RFC's target string under the very same condition *)
Theorem C13_exact_strings sg fuel base ref strict t cb cr : fits fuel base -> fits fuel ref ->
  join sg fuel base ref strict = Ok (Some t) -> URI_decomp base cb -> reference_decomp ref cr ->
  (compose t = rfc_recompose (rfc_transform rds_total strict (five cb) (five cr)) <-> join_agrees strict cb cr).
Proof. exact (join_string_exact sg fuel base ref strict t cb cr). Qed.
Print Assumptions C13_exact_strings.
(* a base whose path is "/": every reference that is merged and has no dot segments gets one slash too many *)
Theorem C13_root_base sg fuel base ref strict t cb cr : fits fuel base -> fits fuel ref ->
  join sg fuel base ref strict = Ok (Some t) -> URI_decomp base cb -> reference_decomp ref cr ->
  merge_applies strict cb cr -> c_segments cb = [[]] -> Forall (fun s => ~ is_dots s) (c_segments cr) ->
  u_path (five (comps t)) = ss "//" ++ path_text false (c_segments cr)
  /\ u_path (rfc_transform rds_total strict (five cb) (five cr)) = ss "/" ++ path_text false (c_segments cr).
Proof. exact (root_base sg fuel base ref strict t cb cr). Qed.
Print Assumptions C13_root_base.

(* concrete cases: what join gives, and what the RFC asks for *)
Definition both (base ref : string) : option (str * str) :=
  match split true 100 (ss base), split_reference true 100 (ss ref), join true 100 (ss base) (ss ref) true with
  | Ok (Some b), Ok (Some r), Ok (Some t) => Some (compose t, rfc_recompose (rfc_transform rds_total true (five (comps b)) (five (comps r))))
  | _, _, _ => None
  end.
Example C13_root : both "http://a/" "g" = Some (ss "http://a//g", ss "http://a/g").
Proof. vm_compute. reflexivity. Qed.
Example C13_root_dot : both "http://a/" "." = Some (ss "http://a/", ss "http://a/").       (* keeps and leaves_slashes *)
Proof. vm_compute. reflexivity. Qed.
Example C13_root_dots : both "http://a/" ".//." = Some (ss "http://a//", ss "http://a//").
Proof. vm_compute. reflexivity. Qed.
Example C13_climbs_out : both "http://a/b" "../g" = Some (ss "http://a/g", ss "http://a/g"). (* b does not stay *)
Proof. vm_compute. reflexivity. Qed.
Example C13_stays : both "http://a/b" "c/../g" = Some (ss "http://a/b/g", ss "http://a/g").
Proof. vm_compute. reflexivity. Qed.
Example C13_agrees_ex : exists cb cr, URI_decomp (ss "http://a/") cb /\ reference_decomp (ss "a/..") cr /\ join_agrees true cb cr.
Proof.
  assert (F : forall s, length s < 100 -> fits 100 s). { intros s H. split; [|exact H]. change (2 ^ 32)%N with 4294967296%N. Lia.lia. }
  pose (b := mkparts (Some (ss "http")) (Some (mkauth None (ss "a") None)) (mkpath true [[]]) None None).
  pose (r := mkparts None None (mkpath false [ss "a"; ss ".."]) None None).
  assert (Eb : split true 100 (ss "http://a/") = Ok (Some b)) by (vm_compute; reflexivity).
  assert (Er : split_reference true 100 (ss "a/..") = Ok (Some r)) by (vm_compute; reflexivity).
  apply UriSplit.split_iff in Eb; [|apply F; vm_compute; repeat constructor]. apply UriSplit.split_reference_iff in Er; [|apply F; vm_compute; repeat constructor].
  destruct Eb as [Eb _], Er as [Er _]. exists (comps b), (comps r). split; auto. split; auto.
  apply (C13_exact_parts (ss "http://a/") (ss "a/..") b r true); [now left|auto|].
  vm_compute. reflexivity.
Qed.
