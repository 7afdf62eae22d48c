(* PROPERTY THEOREMS: C84 encoding several times, decoding several times.
   Vocabulary: SpecLayers.v (times, encode_call, decode_call, decode_fails), SpecViews.v (returns, no_xn), SpecStore.v, SpecPct.v. *)
From Verif Require Import Base ModelUri ModelParts SpecPct SpecStore SpecViews SpecLayers LayersFacts SpecIcu PartsHost PartsDec PartsEx.
Local Open Scope list_scope.

(* n calls of encode, then n calls of decode, each with any store: the parts of the beginning.  ([returns] is the condition
   of C24; besides, no label of the host may begin with "xn--", ASCII or not) *)
Theorem C84_round_trip n p q r : parts_all returns p -> no_xn p -> times n encode_call p q -> times n decode_call q r -> r = p.
Proof. exact (layers n p q r). Qed.
Print Assumptions C84_round_trip.
(* nor does decode report an error on the way, however often it is called *)
Theorem C84_never_fails n k p q r : parts_all returns p -> no_xn p -> times n encode_call p q -> times k decode_call q r -> ~ decode_fails r.
Proof. exact (never_fails n k p q r). Qed.
Print Assumptions C84_never_fails.
(* the userinfo, a path segment, the query, the fragment, or any other text with any set that has the percent sign: decoding
   takes off exactly one layer, so the layers can be counted *)
Theorem C84_one_layer (P : ascii -> Prop) n k s e t : P percent -> k <= n ->
  times n (encodes P) s e -> times k decodes e t -> times (n - k) (encodes P) s t.
Proof. exact (layers_text P n k s e t). Qed.
Print Assumptions C84_one_layer.
(* scheme, host and port have one layer only: encoding what is encoded changes nothing, nor does decoding what is decoded *)
Theorem C84_settled f s e t : f = Scheme \/ f = Host \/ f = Port ->
  (returns f s -> encoded f s e -> encoded f e e)
  /\ (returns f s -> (f = Host -> forall ls l, labels dot s ls -> In l ls -> ~ has_prefix xn l) -> decoded f s t -> t = s).
Proof.
  intros H. assert (S : settles f = true) by (destruct H as [->|[->| ->]]; reflexivity).
  split; [intros R E; exact (encoded_no_must f s e S R E)|]. intros R X D. apply (good_fixed f s t S); [split; assumption|exact D].
Qed.
Print Assumptions C84_settled.

Definition one_segment (s : string) : parts := mkparts (Some (ss "http")) None (mkpath false [ss s]) None None.
Definition one_view (s : string) : vparts := mkvparts (Some (Caller (ss "http"))) None false [Caller (ss s)] None None.
Lemma one_proper s : proper (one_view s).
Proof. split; [|split]; [repeat constructor|reflexivity|repeat constructor]. Qed.
Example C84_ex : parts_all returns (one_segment "a b") /\ no_xn (one_segment "a b")
  /\ times 2 encode_call (one_segment "a b") (one_segment "a%2520b") /\ times 2 decode_call (one_segment "a%2520b") (one_segment "a b").
Proof.
  split; [split; [apply PctFacts.decodes_plain; cbn; intuition discriminate|split; [exact I|split; [repeat constructor|split; exact I]]]|]. split; [intros a ls l E; discriminate E|].
  assert (E : forall s t, (exists st vq, parts_encode (fun n => n) (Vec 0 0 []) (one_view s) = Ok (st, vq) /\ shows st vq (one_segment t)) -> encode_call (one_segment s) (one_segment t)).
  { intros s t (st & vq & A & B). exists (fun n => n), (Vec 0 0 []), (one_view s), st, vq. split; [apply one_proper|]. split; [repeat constructor|]. split; [exact A|exact B]. }
  assert (D : forall s t, (exists st vq, parts_decode (fun n => n) (Vec 0 0 []) (one_view s) = Ok (st, inl vq) /\ shows st vq (one_segment t)) -> decode_call (one_segment s) (one_segment t)).
  { intros s t (st & vq & A & B). exists (fun n => n), (Vec 0 0 []), (one_view s), st, vq. split; [apply one_proper|]. split; [repeat constructor|]. split; [exact A|exact B]. }
  split.
  - exists (one_segment "a%20b"). split; [apply E; do 2 eexists; split; [vm_compute; reflexivity|repeat constructor]|]. exists (one_segment "a%2520b"). split; [apply E; do 2 eexists; split; [vm_compute; reflexivity|repeat constructor]|reflexivity].
  - exists (one_segment "a%20b"). split; [apply D; do 2 eexists; split; [vm_compute; reflexivity|repeat constructor]|]. exists (one_segment "a b"). split; [apply D; do 2 eexists; split; [vm_compute; reflexivity|repeat constructor]|reflexivity].
Qed.
(* decoding more often than was encoded loses text: "%41" comes back as "A"; and a host with a label "xn--" and something that is
   not ASCII comes back once, but cannot be decoded again *)
Theorem C84_too_often_refuted :
  (exists e, times 1 (encodes (field_set Segment)) (ss "%41") e /\ times 2 decodes e (ss "A"))
  /\ let s := ss "xn--" ++ [chr 0xC3; chr 0xBC] in returns Host s /\ host_undecodable s.
Proof.
  split.
  - exists (ss "%2541"). assert (N : forall c, In c (ss "41") -> ~ field_set Segment c).
    { intros c I [H|H]; cbn in I; [|intuition (subst; discriminate)]. destruct I as [<-|[<-|[]]]; destruct H as [[[H|H]|[H|H]]|[H|H]]; vm_compute in H; intuition discriminate. }
    split.
    + eexists. split; [|reflexivity]. apply (enc_escape _ percent (ss "41") (ss "41")); [now right|]. apply enc_copy; [apply N; cbn; auto|]. apply enc_copy; [apply N; cbn; auto|constructor].
    + exists (ss "%41"). split; [|exists (ss "A"); split; [|reflexivity]].
      * eapply (dec_escape _ percent (ss "41")); [exists "2"%char, "5"%char, 2%N, 5%N; repeat split|]. apply PctFacts.decodes_plain. cbn. intuition discriminate.
      * eapply (dec_escape _ "A"%char []); [exists "4"%char, "1"%char, 4%N, 1%N; repeat split|constructor].
  - cbv zeta. split.
    + assert (Lb : labels dot (ss "xn--" ++ [chr 0xC3; chr 0xBC]) [ss "xn--" ++ [chr 0xC3; chr 0xBC]]) by (apply one_label; no_in). split.
      * exists [0x78; 0x6E; 0x2D; 0x2D; 0xFC]%N. change (map code (ss "xn--" ++ [chr 0xC3; chr 0xBC])) with ([0x78] ++ [0x6E] ++ [0x2D] ++ [0x2D] ++ [0xC0 + 0xFC / 2 ^ 6; 0x80 + 0xFC mod 2 ^ 6] ++ [])%N.
        do 4 (constructor; [apply utf8_1; reflexivity|]). constructor; [apply utf8_2; [discriminate|reflexivity]|constructor].
      * intros ls l HL Hl A _. rewrite (labels_fun _ _ _ _ HL Lb) in Hl. destruct Hl as [<-|[]]. unfold ascii_only in A. rewrite Forall_forall in A. specialize (A 0xC3%N ltac:(vm_compute; auto 7)). discriminate A.
    + exists [ss "xn--" ++ [chr 0xC3; chr 0xBC]], (ss "xn--" ++ [chr 0xC3; chr 0xBC]). split; [apply one_label; no_in|]. split; [now left|]. split; [eexists; reflexivity|].
      intros u H. apply decode_puny_text in H; [|vm_compute; reflexivity]. vm_compute in H. discriminate H.
Qed.
Print Assumptions C84_too_often_refuted.
