(* PROPERTY THEOREMS: percent-encoding and decoding (C15-C18, C34).  Vocabulary: SpecPct.v, Rfc3986.v. *)
From Verif Require Import Base ModelPct SpecPct Rfc3986 PctFacts PctProps.

(* --- C15: decoding inverts encoding, also in front of any other text --------------------------- *)
Theorem C15_decode_encode s es : (0 < es < 256)%N -> exists e, pctencode s es = Ok e /\ pctdecode e = Ok s
  /\ forall t d, pctdecode t = Ok d -> pctdecode (e ++ t) = Ok (s ++ d).
Proof. exact (c15 s es). Qed.
Print Assumptions C15_decode_encode.
Theorem C15_encode_injective s s' es e : (0 < es < 256)%N -> pctencode s es = Ok e -> pctencode s' es = Ok e -> s = s'.
Proof. exact (c15_injective s s' es e). Qed.
Print Assumptions C15_encode_injective.
(* the set "none" does not encode '%', so nothing of the sort holds for it *)
Theorem C15_none_refuted : exists s e, pctencode s es_none = Ok e /\ pctdecode e <> Ok s.
Proof. exact c15_refuted. Qed.
Print Assumptions C15_none_refuted.
Example C15_ex : pctencode (ss "a b%41/") es_path = Ok (ss "a%20b%2541/") /\ pctdecode (ss "a%20b%2541/") = Ok (ss "a b%41/").
Proof. vm_compute. split; reflexivity. Qed.

(* --- C16: what encoding does ---------------------------------------------------------------------- *)
Theorem C16_encode s es : (es < 256)%N -> exists e, pctencode s es = Ok e
  /\ encodes (fun c => needs_byte (code c) es = Ok true) s e
  /\ (forall e', encodes (fun c => needs_byte (code c) es = Ok true) s e' -> e' = e).
Proof. exact (c16 s es). Qed.
Print Assumptions C16_encode.
Theorem C16_size_and_needs s es : (es < 256)%N -> exists e b, pctencode s es = Ok e /\ needs_pctencode s es = Ok b
  /\ length e = length s + 2 * length (filter (fun c => match needs_byte (code c) es with Ok true => true | _ => false end) s)
  /\ (b = true <-> exists c, In c s /\ needs_byte (code c) es = Ok true)
  /\ (b = false <-> e = s).
Proof. exact (c16_length s es). Qed.
Print Assumptions C16_size_and_needs.
Theorem C16_nothing_left s es e c : (es < 256)%N -> pctencode s es = Ok e -> In c e ->
  needs_byte (code c) es = Ok true -> c = percent.
Proof. exact (c16_clear s es e c). Qed.
Print Assumptions C16_nothing_left.
Example C16_ex : encodes (fun c => c = " "%char) (ss "a b") (ss "a%20b").
Proof. apply enc_copy; [discriminate|]. apply (enc_escape _ " "%char); [reflexivity|]. apply enc_copy; [discriminate|]. constructor. Qed.

(* --- C17: the WHATWG sets ---------------------------------------------------------------------- *)
Theorem C17_sets c :
  (needs_byte (code c) es_fragment = Ok true <-> (fragment_set c /\ c <> backquote) \/ c = percent)
  /\ (needs_byte (code c) es_query = Ok true <-> query_set c \/ c = percent)
  /\ (needs_byte (code c) es_special_query = Ok true <-> special_query_set c \/ c = percent)
  /\ (needs_byte (code c) es_path = Ok true <-> path_set c \/ c = percent)
  /\ (needs_byte (code c) es_userinfo = Ok true <-> userinfo_set c \/ c = percent)
  /\ (needs_byte (code c) es_component = Ok true <-> component_set c)
  /\ (needs_byte (code c) es_form_urlencoded = Ok true <-> form_urlencoded_set c)
  /\ (needs_byte (code c) es_none = Ok true <-> c0_control_set c \/ c = " "%char).
Proof. exact (c17 c). Qed.
Print Assumptions C17_sets.
(* a union of sets is their union, and the function always answers *)
Theorem C17_union c es : (es < 256)%N -> es <> 0%N ->
  (needs_byte (code c) es = Ok true <->
   exists k, (k < 8)%N /\ N.testbit es k = true /\ needs_byte (code c) (2 ^ k) = Ok true).
Proof. exact (c17_union c es). Qed.
Print Assumptions C17_union.
Theorem C17_total c es : (es < 256)%N -> exists b, needs_byte (code c) es = Ok b.
Proof. exact (needs_total c es). Qed.
Print Assumptions C17_total.
(* the fragment set of the standard contains U+0060, the code's does not *)
Theorem C17_fragment_refuted : fragment_set backquote /\ needs_byte (code backquote) es_fragment = Ok false.
Proof. exact c17_refuted. Qed.
Print Assumptions C17_fragment_refuted.

(* --- C18: decoding ------------------------------------------------------------------------------- *)
Theorem C18_decode s t : pctdecode s = Ok t <-> decodes s t.
Proof. exact (pctdecode_iff s t). Qed.
Print Assumptions C18_decode.
Theorem C18_total s : exists t, decodes s t /\ forall t', decodes s t' -> t' = t.
Proof. exact (c18_function s). Qed.
Print Assumptions C18_total.
Theorem C18_unescaped_unchanged s : needs_pctdecode s = false -> pctdecode s = Ok s.
Proof. exact (c18_plain s). Qed.
Print Assumptions C18_unescaped_unchanged.
Theorem C18_needs s : needs_pctdecode s = true <-> In percent s.
Proof. exact (needs_pctdecode_iff s). Qed.
Print Assumptions C18_needs.
Theorem C18_size s t : pctdecode s = Ok t -> length t <= length s <= 3 * length t.
Proof. exact (c18_size s t). Qed.
Print Assumptions C18_size.
Example C18_ex : pctdecode (ss "%%41%4g%7e%2") = Ok (ss "%A%4g~%2").
Proof. vm_compute. reflexivity. Qed.
(* std::ranges::iter_move on the iterator does not decode *)
Theorem C18_iter_move_refuted : exists s, deref s = Ok "A"%char /\ iter_move s = Ok percent.
Proof. exact c18_iter_move_refuted. Qed.
Print Assumptions C18_iter_move_refuted.

(* --- C34: encoding produces RFC 3986 text ---------------------------------------------------------- *)
Theorem C34_any_bytes es s e : es = es_component \/ es = es_userinfo \/ es = es_form_urlencoded -> pctencode s es = Ok e ->
  L segment e /\ L query e /\ L fragment e /\ L userinfo e /\ L reg_name e.
Proof. exact (c34 es s e). Qed.
Print Assumptions C34_any_bytes.
Theorem C34_keeps_valid es s e : (0 < es < 256)%N -> pctencode s es = Ok e ->
  (L segment s -> L segment e) /\ (L query s -> L query e) /\ (L fragment s -> L fragment e)
  /\ (L userinfo s -> L userinfo e) /\ (L reg_name s -> L reg_name e).
Proof. exact (c34_keeps es s e). Qed.
Print Assumptions C34_keeps_valid.
(* the sets named after a component do not make arbitrary text valid in that component *)
Theorem C34_named_sets_refuted : exists s, pctencode s es_path = Ok s /\ ~ L segment s
  /\ pctencode s es_query = Ok s /\ ~ L query s /\ pctencode s es_fragment = Ok s /\ ~ L fragment s.
Proof. exact c34_refuted. Qed.
Print Assumptions C34_named_sets_refuted.
Example C34_ex : exists e, pctencode [chr 0; chr 255; "/"%char] es_component = Ok e /\ e = ss "%00%FF%2F".
Proof. eexists; vm_compute; split; reflexivity. Qed.
