(* PROPERTY THEOREMS: internationalised hosts (C68).  Vocabulary: SpecIdn.v, SpecStore.v, SpecViews.v. *)
From Verif Require Import Base ModelUri ModelParts SpecPuny SpecIcu SpecStore SpecViews SpecIdn.
From Verif Require Import IdnFacts PartsEx.
Local Open Scope list_scope.

(* --- C68: what decode may show as a host -------------------------------------------------------------------- *)
(* label by label: each as it is, or well-formed UTF-8 whose ASCII characters stand in front of the label's last hyphen *)
Theorem C68_decode grow store p pc a st q : proper p -> shows store p pc -> p_authority pc = Some a -> parts_decode grow store p = Ok (st, inl q) ->
  exists qc b, shows st q qc /\ p_authority qc = Some b /\ host_shown (host a) (host b).
Proof. exact (c68_decode grow store p pc a st q). Qed.
Print Assumptions C68_decode.
(* so that no ASCII character, and no delimiter in particular, is shown that was not in the host *)
Theorem C68_no_new_ascii s t c : host_shown s t -> In c t -> (code c < 0x80)%N -> In c s.
Proof. exact (shown_host_ascii s t c). Qed.
Print Assumptions C68_no_new_ascii.
Theorem C68_utf8 s t : host_shown s t -> ascii_only (map code s) -> utf8_text t.
Proof. exact (shown_host_utf8 s t). Qed.
Print Assumptions C68_utf8.
(* a host written as encode writes it is decoded, and encode makes it out of what is shown *)
Theorem C68_back grow store p pc a : proper p -> shows store p pc -> p_authority pc = Some a -> normal_host (host a) ->
  exists st q qc, parts_decode grow store p = Ok (st, inl q) /\ shows st q qc
  /\ forall grow2 st2 p2, proper p2 -> shows st2 p2 qc ->
       exists st3 r rc c, parts_encode grow2 st2 p2 = Ok (st3, r) /\ shows st3 r rc /\ p_authority rc = Some c /\ host c = host a.
Proof. exact (c68_back grow store p pc a). Qed.
Print Assumptions C68_back.
(* which every host made by encode is *)
Theorem C68_encode_normal s e : returns Host s -> host_encoded s e -> normal_host e.
Proof. exact (encode_normal s e). Qed.
Print Assumptions C68_encode_normal.
(* two such hosts are never shown alike *)
Theorem C68_distinct grow store p pc a st q qc b grow' store' p' pc' a' st' q' qc' b' :
  proper p -> shows store p pc -> p_authority pc = Some a -> normal_host (host a) ->
  parts_decode grow store p = Ok (st, inl q) -> shows st q qc -> p_authority qc = Some b ->
  proper p' -> shows store' p' pc' -> p_authority pc' = Some a' -> normal_host (host a') ->
  parts_decode grow' store' p' = Ok (st', inl q') -> shows st' q' qc' -> p_authority qc' = Some b' ->
  host b = host b' -> host a = host a'.
Proof. exact (c68_injective grow store p pc a st q qc b grow' store' p' pc' a' st' q' qc' b'). Qed.
Print Assumptions C68_distinct.
(* other hosts are: for ASCII text, for digits in upper case, for a superfluous delimiter *)
Theorem C68_alike_refuted :
  (exists st q, parts_decode (fun n => n) (Vec 0 0 []) (with_host (ss "xn--paypal-")) = Ok (st, inl q)
     /\ shows st q (mkparts None (Some (mkauth None (ss "paypal") None)) (mkpath false []) None None))
  /\ (exists st q, let t := mkparts None (Some (mkauth None [chr 0xC3; chr 0xBC] None)) (mkpath false []) None None in
       parts_decode (fun n => n) (Vec 0 0 []) (with_host (ss "xn--tda")) = Ok (st, inl q) /\ shows st q t
       /\ parts_decode (fun n => n) (Vec 0 0 []) (with_host (ss "xn--TDA")) = Ok (st, inl q)
       /\ parts_decode (fun n => n) (Vec 0 0 []) (with_host (ss "xn---tda")) = Ok (st, inl q)).
Proof.
  split; [|cbv zeta]; eexists _, _; (split; [vm_compute; reflexivity|]); [|split; [|split; vm_compute; reflexivity]]; unfold shows; cbn; repeat constructor.
Qed.
Print Assumptions C68_alike_refuted.
(* and what is shown may be a host to decode again *)
Theorem C68_twice_refuted : exists st q st' q',
  parts_decode (fun n => n) (Vec 0 0 []) (with_host (ss "xn--xn--tda-")) = Ok (st, inl q)
  /\ shows st q (mkparts None (Some (mkauth None (ss "xn--tda") None)) (mkpath false []) None None)
  /\ parts_decode (fun n => n) (Vec 0 0 []) (with_host (ss "xn--tda")) = Ok (st', inl q')
  /\ shows st' q' (mkparts None (Some (mkauth None [chr 0xC3; chr 0xBC] None)) (mkpath false []) None None).
Proof.
  eexists _, _, _, _. split; [vm_compute; reflexivity|]. split; [unfold shows; cbn; repeat constructor|]. split; [vm_compute; reflexivity|]. unfold shows; cbn; repeat constructor.
Qed.
Print Assumptions C68_twice_refuted.

Example C68_ex : let p := with_host (ss "www.xn--bcher-kva") in
  let pc := mkparts None (Some (mkauth None (ss "www.xn--bcher-kva") None)) (mkpath false []) None None in
  proper p /\ shows (Vec 0 0 []) p pc /\ normal_host (ss "www.xn--bcher-kva").
Proof.
  cbv zeta. split; [apply ok_proper; vm_compute; reflexivity|]. split; [unfold shows; cbn; repeat constructor|]. exact ex_normal.
Qed.
