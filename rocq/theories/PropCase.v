(* PROPERTY THEOREMS: C85 the case of letters.
   Vocabulary: SpecCase.v (same_letter, same_text, same_parts, same_answer, same_escapes, same_points, same_marks), SpecLayers.v
   (encode_call, decode_call, decode_fails), SpecUri.v (fits). *)
From Verif Require Import Base ModelRule ModelUri ModelPct ModelPuny ModelParts SpecUri SpecPct SpecStore SpecViews SpecLayers SpecCase UriSplit
  CaseFacts CaseUri CasePuny CaseHost PropSplitFacts PartsEx PartsHost.
From Coq Require Import Lia.
Local Open Scope list_scope.

(* --- parsing ------------------------------------------------------------------------------------------------------------ *)
(* Two texts that differ in the case of letters only are both accepted or both rejected, and split at the same places: the
   components are the same but for case.  No condition on the texts. *)
Theorem C85_split sg fuel s t : same_text s t -> same_answer (opt_rel same_parts) (split sg fuel s) (split sg fuel t).
Proof. exact (split_sim sg fuel s t). Qed.
Print Assumptions C85_split.
Theorem C85_split_reference sg fuel s t : same_text s t ->
  same_answer (opt_rel same_parts) (split_reference sg fuel s) (split_reference sg fuel t).
Proof. exact (split_reference_sim sg fuel s t). Qed.
Print Assumptions C85_split_reference.
Theorem C85_valid sg fuel p q : same_parts p q -> parts_valid sg fuel p = parts_valid sg fuel q.
Proof. exact (valid_sim sg fuel p q). Qed.
Print Assumptions C85_valid.
Theorem C85_compose p q : same_parts p q -> same_text (compose p) (compose q).
Proof. exact (compose_sim p q). Qed.
Print Assumptions C85_compose.
(* Case normalisation (RFC 3986 6.2.2.1) is safe: after splitting, change the case of any letters in any components; the
   composed text is accepted again, and splits into just these components. *)
Theorem C85_normalise sg fuel s p q : fits fuel s -> same_parts p q ->
  (split sg fuel s = Ok (Some p) -> split sg fuel (compose q) = Ok (Some q))
  /\ (split_reference sg fuel s = Ok (Some p) -> split_reference sg fuel (compose q) = Ok (Some q)).
Proof.
  intros F H. assert (K : forall f : bool -> nat -> str -> outcome (option parts), (forall s t, same_text s t -> same_answer (opt_rel same_parts) (f sg fuel s) (f sg fuel t)) ->
    (forall s p, fits fuel s -> f sg fuel s = Ok (Some p) -> compose p = s) -> f sg fuel s = Ok (Some p) -> f sg fuel (compose q) = Ok (Some q)).
  { intros f Sim Comp E. pose proof (Comp s p F E) as C. pose proof (compose_sim p q H) as T. rewrite C in T. pose proof (Sim _ _ T) as A. rewrite E in A. remember (f sg fuel (compose q)) as o eqn:O. destruct o as [x| |]; inversion A as [a b R E1 E2| |].
    destruct x as [q'|]; inversion R as [|p0 q0 R' E3 E4]. symmetry in O. pose proof T as T'. apply text_length in T'.
    assert (F' : fits fuel (compose q)) by (unfold fits in *; rewrite <- T'; exact F). pose proof (Comp _ _ F' O) as C2. f_equal. f_equal.
    apply compose_inj; [|exact C2]. eapply parts_trans; [apply parts_sym; exact R'|exact H]. }
  split; intros E.
  - apply (K split); [exact (split_sim sg fuel)| |exact E]. intros s0 p0 F0 E0. apply (compose_split sg fuel s0 p0 F0). now left.
  - apply (K split_reference); [exact (split_reference_sim sg fuel)| |exact E]. intros s0 p0 F0 E0. apply (compose_split sg fuel s0 p0 F0). now right.
Qed.
Print Assumptions C85_normalise.
(* nor can anything else have the text: components that differ only in case have different texts *)
Theorem C85_apart p q : same_parts p q -> compose p = compose q -> p = q.
Proof. exact (compose_inj p q). Qed.
Print Assumptions C85_apart.
Example C85_ex : same_text (ss "HTTP://Www.Example.COM/%7Eabc?X#y") (ss "http://www.example.com/%7eABC?x#Y")
  /\ exists p q, split true 100 (ss "HTTP://Www.Example.COM/%7Eabc?X#y") = Ok (Some p) /\ split true 100 (ss "http://www.example.com/%7eABC?x#Y") = Ok (Some q)
  /\ p_scheme p = Some (ss "HTTP") /\ p_scheme q = Some (ss "http") /\ segments (p_path q) = [ss "%7eABC"].
Proof. split; [repeat constructor|]. do 2 eexists. split; [vm_compute; reflexivity|]. split; [vm_compute; reflexivity|]. vm_compute. auto. Qed.

(* --- resolution ----------------------------------------------------------------------------------------------------------- *)
Theorem C85_join sg fuel b b' r r' : same_text b b' -> same_text r r' ->
  same_answer (opt_rel same_parts) (join sg fuel b r true) (join sg fuel b' r' true).
Proof.
  intros B R. unfold join. eapply answer_bind; [exact (split_sim sg fuel b b' B)|]. intros x y X. destruct X as [|p q X]; [constructor; constructor|].
  eapply answer_bind; [exact (split_reference_sim sg fuel r r' R)|]. intros x y Y. destruct Y as [|p' q' Y]; [constructor; constructor|]. constructor. constructor. apply join_parts_sim; auto.
Qed.
Print Assumptions C85_join.
(* non-strict too, as long as the change of case makes the two schemes neither equal nor different *)
Theorem C85_join_nonstrict b b' r r' strict : same_parts b b' -> same_parts r r' -> (p_scheme r = p_scheme b <-> p_scheme r' = p_scheme b') ->
  same_parts (join_parts b r strict) (join_parts b' r' strict).
Proof. intros B R H. apply join_parts_sim; auto. Qed.
Print Assumptions C85_join_nonstrict.
(* Without this condition it is false: the schemes are compared letter by letter (RFC 3986 3.1 and 6.2.2.1: "HTTP" is "http") *)
Theorem C85_nonstrict_refuted : exists p q, same_text (ss "http:b") (ss "HTTP:b")
  /\ join true 100 (ss "http://h/a/c") (ss "http:b") false = Ok (Some p) /\ join true 100 (ss "http://h/a/c") (ss "HTTP:b") false = Ok (Some q)
  /\ compose p = ss "http://h/a/b" /\ compose q = ss "HTTP:b" /\ ~ same_parts p q.
Proof.
  do 2 eexists. split; [repeat constructor|]. split; [vm_compute; reflexivity|]. split; [vm_compute; reflexivity|]. split; [vm_compute; reflexivity|]. split; [vm_compute; reflexivity|].
  intros (_ & H & _). inversion H.
Qed.
Print Assumptions C85_nonstrict_refuted.
(* removing dot segments *)
Theorem C85_path l m : Forall2 same_text l m -> Forall2 same_text (rds_segments l) (rds_segments m).
Proof. exact (rds_sim l m). Qed.
Print Assumptions C85_path.

(* --- percent-encoding ------------------------------------------------------------------------------------------------------ *)
Theorem C85_pctencode es s t : same_text s t -> same_answer same_text (pctencode s es) (pctencode t es).
Proof. exact (pctencode_sim es s t). Qed.
Print Assumptions C85_pctencode.
Theorem C85_pctdecode s t : same_text s t -> same_answer same_text (pctdecode s) (pctdecode t).
Proof. exact (pctdecode_sim s t). Qed.
Print Assumptions C85_pctdecode.
(* the case of the digits of an escape has no meaning at all (RFC 3986 2.1) *)
Theorem C85_escapes s t : same_escapes s t -> pctdecode s = pctdecode t.
Proof. exact (pctdecode_escapes s t). Qed.
Print Assumptions C85_escapes.
Example C85_escapes_ex : same_escapes (ss "a%3aB%C3%bc") (ss "a%3AB%c3%BC") /\ ss "a%3aB%C3%bc" <> ss "a%3AB%c3%BC".
Proof.
  split; [|discriminate]. apply se_char. apply (se_escape "3" "a" "3" "A"); [discriminate|discriminate|reflexivity|reflexivity|]. apply se_char.
  apply (se_escape "C" "3" "c" "3"); [discriminate|discriminate|reflexivity|reflexivity|]. apply (se_escape "b" "c" "B" "C"); [discriminate|discriminate|reflexivity|reflexivity|constructor].
Qed.

(* --- Punycode, and whole URIs ------------------------------------------------------------------------------------------------ *)
Theorem C85_punycode_encode u v plain : same_points u v ->
  same_answer (fun x y => same_text (fst x) (fst y) /\ snd x = snd y) (encode u plain) (encode v plain).
Proof. exact (encode_sim u v plain). Qed.
Print Assumptions C85_punycode_encode.
Theorem C85_punycode_decode s t : same_text s t -> same_answer (sum_rel same_points) (decode s) (decode t).
Proof. exact (decode_sim s t). Qed.
Print Assumptions C85_punycode_decode.
Theorem C85_encode p q p' q' : same_parts p q -> encode_call p p' -> encode_call q q' -> same_parts p' q'.
Proof. exact (encode_call_same p q p' q'). Qed.
Print Assumptions C85_encode.
(* decoding: if "xn--" in lower case stands before the same labels of the two hosts *)
Theorem C85_decode p q p' q' : same_parts p q -> same_host_marks p q -> decode_call p p' -> decode_call q q' -> same_parts p' q'.
Proof. exact (decode_call_same p q p' q'). Qed.
Print Assumptions C85_decode.
Theorem C85_decode_fails p q r : same_parts p q -> same_host_marks p q -> decode_fails p -> ~ decode_call q r.
Proof. exact (decode_fails_same p q r). Qed.
Print Assumptions C85_decode_fails.

Definition host_only (h : str) : parts := mkparts None (Some (mkauth None h None)) (mkpath false []) None None.
Lemma host_decode_call h vq st t : (length h < 100)%nat -> parts_decode (fun n => n) (Vec 0 0 []) (with_host h) = Ok (st, inl vq) -> shows st vq (host_only t) ->
  decode_call (host_only h) (host_only t).
Proof.
  intros L E S. exists (fun n => n), (Vec 0 0 []), (with_host h), st, vq. split; [|split; [|split; assumption]].
  - split; [repeat constructor|]. split; [reflexivity|]. split; [constructor|]. split; [constructor; split; [constructor|split; [|constructor]]|split; [reflexivity|split; [constructor|split; constructor]]]. change (N.of_nat (length h) < 4294967296)%N. lia.
  - repeat constructor.
Qed.
(* two hosts with "xn--" before the same label *)
Example C85_decode_ex : let p := host_only (ss "www.xn--Bcher-KVA") in let q := host_only (ss "WWW.xn--bCHER-kva") in same_parts p q /\ same_host_marks p q
  /\ decode_call p (host_only (ss "www.B" ++ [chr 0xC3; chr 0xBC] ++ ss "cher")) /\ decode_call q (host_only (ss "WWW.b" ++ [chr 0xC3; chr 0xBC] ++ ss "CHER")).
Proof.
  intros p q. split; [repeat constructor|]. split; [|split].
  - intros a b A B ls ms L M. injection A as <-. injection B as <-. cbn [ModelUri.host] in L, M.
    assert (L0 : labels dot (ss "www.xn--Bcher-KVA") [ss "www"; ss "xn--Bcher-KVA"]) by (exists (ss "www"), [ss "xn--Bcher-KVA"]; repeat split; repeat constructor; cbn; intuition discriminate).
    assert (M0 : labels dot (ss "WWW.xn--bCHER-kva") [ss "WWW"; ss "xn--bCHER-kva"]) by (exists (ss "WWW"), [ss "xn--bCHER-kva"]; repeat split; repeat constructor; cbn; intuition discriminate).
    rewrite (labels_fun _ _ _ _ L L0), (labels_fun _ _ _ _ M M0). constructor; [|constructor; [|constructor]].
    + split; intros (z & Z); discriminate Z.
    + split; intros _; eexists; reflexivity.
  - eapply host_decode_call; [cbn; lia|vm_compute; reflexivity|]. repeat constructor.
  - eapply host_decode_call; [cbn; lia|vm_compute; reflexivity|]. repeat constructor.
Qed.
(* Without this condition it is false: the prefix "XN--" is not known (RFC 3490 5: it is compared ignoring case) *)
Theorem C85_ace_refuted : exists p q p' q', same_parts p q /\ decode_call p p' /\ decode_call q q' /\ ~ same_parts p' q'.
Proof.
  exists (host_only (ss "xn--tda")), (host_only (ss "XN--tda")), (host_only [chr 0xC3; chr 0xBC]), (host_only (ss "XN--tda")).
  split; [repeat constructor|]. split; [|split].
  - eapply host_decode_call; [cbn; lia|vm_compute; reflexivity|]. repeat constructor.
  - eapply host_decode_call; [cbn; lia|vm_compute; reflexivity|]. repeat constructor.
  - intros (_ & H & _). inversion H as [|a b (_ & K & _)]. cbn in K. inversion K as [|? ? ? ? _ K']. inversion K' as [|? ? ? ? _ K'']. inversion K''.
Qed.
Print Assumptions C85_ace_refuted.
