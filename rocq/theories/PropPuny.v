(* PROPERTY THEOREMS: find_last, starts_with (C28) and Punycode (C19-C21, C35).  Vocabulary: SpecPuny.v. *)
From Verif Require Import Base ModelAlgo ModelPuny SpecPuny AlgoFacts PunyProps PunyLoop.
Local Open Scope N_scope.
Local Open Scope list_scope.

(* --- C19: decoding inverts encoding ------------------------------------------------------------------ *)
Theorem C19_decode_encode u plain : N.of_nat (length u) < 2 ^ 32 -> (forall c, In c u -> c < 2 ^ 32) ->
  plain = false \/ (exists c, In c u /\ 0x80 <= c) ->
  exists e b, encode u plain = Ok (e, b) /\ decode e = Ok (inl u).
Proof. exact (c19 u plain). Qed.
Print Assumptions C19_decode_encode.
Example C19_ex : encode [0x62; 0xFC; 0x63; 0x68; 0x65; 0x72] true = Ok (ss "bcher-kva", true)
  /\ decode (ss "bcher-kva") = Ok (inl [0x62; 0xFC; 0x63; 0x68; 0x65; 0x72]).
Proof. vm_compute. split; reflexivity. Qed.
Example C19_ex2 : exists e, encode [0x4ED6; 0x4EEC; 0x2D; 0x41; 0xFFFFFFFF; 0x4ED6] false = Ok (e, true)
  /\ decode e = Ok (inl [0x4ED6; 0x4EEC; 0x2D; 0x41; 0xFFFFFFFF; 0x4ED6]).
Proof. exists (match encode [0x4ED6; 0x4EEC; 0x2D; 0x41; 0xFFFFFFFF; 0x4ED6] false with Ok (e, _) => e | _ => [] end). vm_compute. split; reflexivity. Qed.

(* --- C20: the form of the output ---------------------------------------------------------------------- *)
Theorem C20_shape u plain : N.of_nat (length u) < 2 ^ 32 -> (forall c, In c u -> c < 2 ^ 32) ->
  let literal := map chr (filter (fun c => c <? 0x80) u) in
  exists e b, encode u plain = Ok (e, b) /\ (b = true <-> exists c, In c u /\ 0x80 <= c)
  /\ (plain = true -> b = false -> e = literal)
  /\ (plain = false \/ b = true -> exists digits,
        e = (match literal with [] => [] | l => l ++ ["-"%char] end) ++ digits
        /\ (forall c, In c digits -> In c (ss "abcdefghijklmnopqrstuvwxyz0123456789")))
  /\ (forall c, In c e -> code c < 0x80).
Proof. exact (c20 u plain). Qed.
Print Assumptions C20_shape.
Theorem C20_injective u u' plain e b : N.of_nat (length u) < 2 ^ 32 -> (forall c, In c u -> c < 2 ^ 32) ->
  N.of_nat (length u') < 2 ^ 32 -> (forall c, In c u' -> c < 2 ^ 32) ->
  encode u plain = Ok (e, b) -> encode u' plain = Ok (e, b) -> u = u'.
Proof. exact (c20_injective u u' plain e b). Qed.
Print Assumptions C20_injective.
Example C20_ex : encode [0x61; 0x2D] true = Ok (ss "a-", false) /\ encode [0x61; 0x2D] false = Ok (ss "a--", false)
  /\ encode [] false = Ok ([], false).
Proof. vm_compute. repeat split. Qed.

(* --- C21: decoding any text --------------------------------------------------------------------------- *)
Theorem C21_total s : N.of_nat (length s) < 2 ^ 32 -> exists r, decode s = Ok r.
Proof. exact (decode_total s). Qed.
Print Assumptions C21_total.
(* success exactly when RFC 3492 decodes the text (or the text behind a leading delimiter) to code
   points below 2^32; anything else is reported *)
Theorem C21_decode s u : N.of_nat (length s) < 2 ^ 32 ->
  (decode s = Ok (inl u) <->
   (puny_decodes s u \/ exists s', s = "-"%char :: s' /\ ~ In "-"%char s' /\ puny_decodes s' u)
   /\ (forall c, In c u -> c < 2 ^ 32)).
Proof. exact (decode_iff s u). Qed.
Print Assumptions C21_decode.
Theorem C21_code_points s u c : decode s = Ok (inl u) -> N.of_nat (length s) < 2 ^ 32 -> In c u ->
  c < 2 ^ 32 /\ (c < 0x80 -> exists x, In x s /\ code x = c).
Proof. exact (c21_codes s u c). Qed.
Print Assumptions C21_code_points.
Theorem C21_non_ascii_literal a b c : In c a -> 0x80 <= code c -> ~ In "-"%char b ->
  decode (a ++ "-"%char :: b) = Ok (inr bad_input).
Proof. exact (c21_plain_nonascii a b c). Qed.
Print Assumptions C21_non_ascii_literal.
(* beyond what RFC 3492 allows: a leading delimiter; and code points that are not Unicode scalar values *)
Theorem C21_delimiter_refuted : exists s u, decode s = Ok (inl u) /\ ~ puny_decodes s u.
Proof. exact c21_delimiter. Qed.
Print Assumptions C21_delimiter_refuted.
Theorem C21_unicode_refuted : exists s s', decode s = Ok (inl [0xD800]) /\ decode s' = Ok (inl [0x110000]).
Proof. exact c21_unicode. Qed.
Print Assumptions C21_unicode_refuted.
Example C21_ex : decode (ss "99999999") = Ok (inr bad_input) /\ decode (ss "99999999999999999b") = Ok (inr overflow)
  /\ decode (ss "a!") = Ok (inr bad_input) /\ decode (ss "BCHER-KVA") = Ok (inl [0x42; 0xFC; 0x43; 0x48; 0x45; 0x52]).
Proof. vm_compute. repeat split. Qed.

(* --- C28 ------------------------------------------------------------------------------------------------- *)
Theorem C28_find_last_agree {A} (f : A -> bool) l : find_last_bidi f l = Ok (find_last_forward f l).
Proof. exact (find_last_bidi_forward f l). Qed.
Print Assumptions C28_find_last_agree.
Theorem C28_find_last {A} (f : A -> bool) l p e : find_last_forward f l = (p, e) ->
  e = length l /\ ((p < e)%nat -> last_at (fun x => f x = true) l p) /\ (p = e <-> forall x, In x l -> f x = false) /\ (p <= e)%nat.
Proof. exact (find_last_spec f l p e). Qed.
Print Assumptions C28_find_last.
Theorem C28_last_unique {A} (P : A -> Prop) l p q : last_at P l p -> last_at P l q -> p = q.
Proof. exact (last_at_unique P l p q). Qed.
Print Assumptions C28_last_unique.
Theorem C28_starts_with {A B} (pred : A -> B -> bool) l1 l2 :
  starts_with pred l1 l2 = true <-> exists p q, l1 = p ++ q /\ Forall2 (fun a b => pred a b = true) p l2.
Proof. exact (starts_with_spec pred l1 l2). Qed.
Print Assumptions C28_starts_with.
Example C28_ex : find_last_forward (Nat.eqb 1) [1; 2; 1; 3]%nat = (2, 4)%nat /\ find_last_bidi (Nat.eqb 9) [1; 2]%nat = Ok (2, 2)%nat
  /\ starts_with Nat.eqb [1; 2; 3]%nat [1; 2]%nat = true /\ starts_with Nat.eqb [1]%nat [1; 2]%nat = false.
Proof. vm_compute. repeat split. Qed.

(* --- C35: the output is the Punycode of RFC 3492 ----------------------------------------------------------- *)
Theorem C35_rfc3492 u plain : N.of_nat (length u) < 2 ^ 32 -> (forall c, In c u -> c < 2 ^ 32) ->
  plain = false \/ (exists c, In c u /\ 0x80 <= c) ->
  exists e b, encode u plain = Ok (e, b) /\ punycode_of u e /\ (forall e', punycode_of u e' -> e' = e).
Proof. exact (c35 u plain). Qed.
Print Assumptions C35_rfc3492.
Theorem C35_decoding_unique s u u' : puny_decodes s u -> puny_decodes s u' -> u = u'.
Proof. exact (puny_decodes_fun s u u'). Qed.
Print Assumptions C35_decoding_unique.
