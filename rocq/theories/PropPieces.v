(* PROPERTY THEOREMS: percent-encoding and percent-decoding piece by piece, and normal forms (C58).  Vocabulary:
   SpecPieces.v. *)
From Verif Require Import Base ModelPct SpecPct SpecPieces PctPieces.
From Coq Require Import Lia.

(* A text may be encoded in pieces. *)
Theorem C58_encode s t es e1 e2 : (es < 256)%N -> pctencode s es = Ok e1 -> pctencode t es = Ok e2 -> pctencode (s ++ t) es = Ok (e1 ++ e2).
Proof. exact (c58_encode s t es e1 e2). Qed.
Print Assumptions C58_encode.
(* It may be decoded in pieces exactly when no cut goes through an escape. *)
Theorem C58_decode s t d1 d2 : pctdecode s = Ok d1 -> pctdecode t = Ok d2 -> (pctdecode (s ++ t) = Ok (d1 ++ d2) <-> ~ cut_in_escape s t).
Proof. exact (c58_decode s t d1 d2). Qed.
Print Assumptions C58_decode.
(* Decoding changes a text exactly when there is an escape in it: so a second decoding does nothing exactly when the first
   one has left no escape. *)
Theorem C58_fixed s : pctdecode s = Ok s <-> ~ has_escape s.
Proof. exact (c58_fixed s). Qed.
Print Assumptions C58_fixed.
(* Decoding and encoding again gives a normal form: it means the same, and two texts have the same normal form exactly
   when they mean the same. *)
Theorem C58_normal s t es ds dt ns nt : (0 < es < 256)%N -> pctdecode s = Ok ds -> pctdecode t = Ok dt -> pctencode ds es = Ok ns -> pctencode dt es = Ok nt ->
  pctdecode ns = Ok ds /\ (ns = nt <-> ds = dt).
Proof. exact (c58_normal s t es ds dt ns nt). Qed.
Print Assumptions C58_normal.
(* "decoding is idempotent" is false, and so is "encoding is idempotent" *)
Theorem C58_twice_refuted : pctdecode (ss "%2541") = Ok (ss "%41") /\ pctdecode (ss "%41") = Ok (ss "A")
  /\ pctencode (ss "%") es_path = Ok (ss "%25") /\ pctencode (ss "%25") es_path = Ok (ss "%2525").
Proof. vm_compute. auto. Qed.
Print Assumptions C58_twice_refuted.
Example C58_ex : pctdecode (ss "a%4") = Ok (ss "a%4") /\ pctdecode (ss "1%20") = Ok (ss "1 ") /\ cut_in_escape (ss "a%4") (ss "1%20") /\ pctdecode (ss "a%41%20") = Ok (ss "aA ")
  /\ ~ cut_in_escape (ss "a%41") (ss "%20") /\ has_escape (ss "x%7ey") /\ ~ has_escape (ss "100% %g1")
  /\ pctdecode (ss "a%7e%2f") = Ok (ss "a~/") /\ pctdecode (ss "%61~%2F") = Ok (ss "a~/") /\ pctencode (ss "a~/") es_component = Ok (ss "a~%2F").
Proof.
  split; [vm_compute; reflexivity|]. split; [vm_compute; reflexivity|].
  split; [exists (ss "a"), "4"%char, "1"%char, (ss "%20"); split; [eexists; vm_compute; reflexivity|]; split; [eexists; vm_compute; reflexivity|right; split; reflexivity]|].
  split; [vm_compute; reflexivity|]. split; [apply (c58_decode (ss "a%41") (ss "%20") (ss "aA") (ss " ")); vm_compute; reflexivity|].
  split; [exists (ss "x"), "7"%char, "e"%char, (ss "y"); split; [eexists; vm_compute; reflexivity|]; split; [eexists; vm_compute; reflexivity|reflexivity]|].
  split; [apply c58_fixed; vm_compute; reflexivity|]. vm_compute. auto.
Qed.
