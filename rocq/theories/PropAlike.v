(* PROPERTY THEOREMS: C89 internationalised names that mean the same.
   Vocabulary: SpecAlike.v (tidy, tidy_label, tidy_host), SpecStore.v (labels, puny_text), SpecViews.v (proper, shows). *)
From Verif Require Import Base ModelUri ModelParts SpecPct SpecPuny SpecIcu SpecStore SpecViews SpecIdn SpecAlike.
From Verif Require Import PunyProps PunyLoop PartsHost PartsDec PartsProps IdnFacts AlikeFacts.
From Verif Require ModelPuny Rfc3986.
From Coq Require Import Lia.
Local Open Scope list_scope.

Lemma vli_nonempty bias k q s : vli bias k q s -> (1 <= length s)%nat.
Proof. destruct 1; cbn; lia. Qed.
Lemma decoding_length n i bias out s u : decoding n i bias out s u -> (length u <= length out + length s)%nat.
Proof. induction 1 as [|? ? ? ? ? ? ? ? ? ? ? ? V size A N' I' P D IH]; [lia|]. apply vli_nonempty in V. rewrite !app_length in *. cbn [length] in *. lia. Qed.
Lemma puny_length q u : puny_text q u -> (length u <= length q)%nat.
Proof.
  intros [[(l & d & C & _ & _ & D)|(q' & -> & _ & (l & d & C & _ & _ & D))] _]; apply decoding_length in D; rewrite map_length in D; destruct C as [[-> _]|[-> ->]]; cbn [length] in *; rewrite ?app_length in *; cbn [length] in *; lia.
Qed.
Lemma decoded_puny q u : (N.of_nat (length q) < 2 ^ 32)%N -> ModelPuny.decode q = Ok (inl u) -> puny_text q u.
Proof. intros H D. apply (decode_iff q u H) in D. exact D. Qed.

(* --- Punycode: encoding what was decoded gives the tidy spelling of the text --- *)
Theorem C89_punycode q u : (N.of_nat (length q) < 2 ^ 32)%N -> ModelPuny.decode q = Ok (inl u) ->
  exists e b, tidy q e /\ ModelPuny.encode u false = Ok (e, b) /\ ModelPuny.decode e = Ok (inl u).
Proof.
  intros H D. pose proof (decoded_puny q u H D) as P. destruct (tidy_total q) as [e T]. pose proof (puny_text_tidy q u e P T) as U. pose proof (puny_length q u P) as LU. destruct P as [_ B].
  destruct (c35 u false) as (e' & b & E & U' & Un); [lia|exact B|now left|]. rewrite <- (Un e U) in E. exists e, b. split; [exact T|]. split; [exact E|].
  apply (decode_puny_text e); [unfold short_text; pose proof (tidy_length q e T); lia|]. now apply punycode_text.
Qed.
Print Assumptions C89_punycode.
(* so two texts stand for the same code points exactly if their tidy spellings are the same *)
Theorem C89_punycode_alike q q' u u' : (N.of_nat (length q) < 2 ^ 32)%N -> (N.of_nat (length q') < 2 ^ 32)%N ->
  ModelPuny.decode q = Ok (inl u) -> ModelPuny.decode q' = Ok (inl u') -> (u = u' <-> exists e, tidy q e /\ tidy q' e).
Proof.
  intros H H' D D'. destruct (C89_punycode q u H D) as (e & b & T & E & F). destruct (C89_punycode q' u' H' D') as (e' & b' & T' & E' & F'). split.
  - intros <-. rewrite E in E'. injection E' as <- _. exists e. auto.
  - intros (x & X & X'). rewrite <- (tidy_fun q x e X T) in F. rewrite <- (tidy_fun q' x e' X' T') in F'. congruence.
Qed.
Print Assumptions C89_punycode_alike.
(* every text has one tidy spelling, which is not longer and is its own *)
Theorem C89_tidy q : exists e, tidy q e /\ (forall e', tidy q e' -> e' = e) /\ tidy e e /\ (length e <= length q)%nat.
Proof.
  destruct (tidy_total q) as [e T]. exists e. split; [exact T|]. split; [intros e' T'; exact (tidy_fun _ _ _ T' T)|]. split; [exact (tidy_self _ _ T)|exact (tidy_length _ _ T)].
Qed.
Print Assumptions C89_tidy.

(* --- hosts: decode and then encode gives the tidy spelling of the host --- *)
Theorem C89_host grow store p pc a e : proper p -> shows store p pc -> p_authority pc = Some a -> tidy_host (host a) e -> e <> [] ->
  exists st q qc, parts_decode grow store p = Ok (st, inl q) /\ shows st q qc
  /\ forall grow2 st2 p2, proper p2 -> shows st2 p2 qc ->
       exists st3 r rc c, parts_encode grow2 st2 p2 = Ok (st3, r) /\ shows st3 r rc /\ p_authority rc = Some c /\ host c = e.
Proof. exact (c89_host grow store p pc a e). Qed.
Print Assumptions C89_host.
(* two hosts are shown alike exactly if their tidy spellings are the same *)
Theorem C89_host_alike grow store p pc a e st q qc b grow' store' p' pc' a' e' st' q' qc' b' :
  proper p -> shows store p pc -> p_authority pc = Some a -> tidy_host (host a) e -> e <> [] ->
  parts_decode grow store p = Ok (st, inl q) -> shows st q qc -> p_authority qc = Some b ->
  proper p' -> shows store' p' pc' -> p_authority pc' = Some a' -> tidy_host (host a') e' -> e' <> [] ->
  parts_decode grow' store' p' = Ok (st', inl q') -> shows st' q' qc' -> p_authority qc' = Some b' ->
  (host b = host b' <-> e = e').
Proof. exact (c89_alike grow store p pc a e st q qc b grow' store' p' pc' a' e' st' q' qc' b'). Qed.
Print Assumptions C89_host_alike.
(* the tidy spelling is a host as encode writes it, and a host as encode writes it is its own tidy spelling *)
Theorem C89_tidy_normal s : (forall e, tidy_host s e -> normal_host e) /\ (normal_host s -> tidy_host s s).
Proof.
  split; [exact (tidy_normal s)|]. intros (ls & L & F). exists ls, ls. split; [exact L|]. split; [exact L|]. clear L. induction F as [|l ls N _ IH]; constructor; [|exact IH].
  destruct N as [[A N]|(q & u & -> & P & S & NA)]; [left; auto|]. right. exists q, u. split; [reflexivity|].
  assert (PT : puny_text q u). { apply punycode_text; [exact P|]. intros c Hc. pose proof (proj1 (Forall_forall _ _) S c Hc) as Sc. unfold scalar in Sc. lia. }
  split; [exact PT|]. split; [exact S|]. right. split; [exact NA|]. exists q. split; [|reflexivity]. destruct (tidy_total q) as [e T]. pose proof (puny_text_tidy q u e PT T) as P'. now rewrite (punycode_unique u q e P P') at 2.
Qed.
Print Assumptions C89_tidy_normal.

Example C89_ex : tidy (ss "bcher-KVA") (ss "bcher-kva") /\ tidy (ss "-TDA") (ss "tda") /\ tidy (ss "TDA") (ss "tda") /\ tidy (ss "B-C-TDA") (ss "B-C-tda")
  /\ ModelPuny.decode (ss "bcher-KVA") = Ok (inl [0x62; 0xFC; 0x63; 0x68; 0x65; 0x72]%N) /\ ModelPuny.encode [0x62; 0xFC; 0x63; 0x68; 0x65; 0x72]%N false = Ok (ss "bcher-kva", true).
Proof.
  split; [exists (ss "bcher"), (ss "KVA"); split; [now left|split; [cbn; intuition discriminate|reflexivity]]|].
  split; [exists [], (ss "TDA"); split; [now left|split; [cbn; intuition discriminate|reflexivity]]|].
  split; [exists [], (ss "TDA"); split; [right; auto|split; [cbn; intuition discriminate|reflexivity]]|].
  split; [exists (ss "B-C"), (ss "TDA"); split; [now left|split; [cbn; intuition discriminate|reflexivity]]|].
  vm_compute. repeat split.
Qed.
Example C89_ex_host : tidy_host (ss "www.xn--bcher-KVA.xn--paypal-") (ss "www.xn--bcher-kva.paypal") /\ ss "www.xn--bcher-kva.paypal" <> [].
Proof.
  split; [|discriminate]. exists [ss "www"; xn ++ ss "bcher-KVA"; xn ++ ss "paypal-"], [ss "www"; xn ++ ss "bcher-kva"; ss "paypal"].
  assert (L : forall a b c, forallb (fun x => negb (Ascii.eqb x dot)) (a ++ b ++ c) = true -> Forall (fun x => ~ In dot x) [a; b; c]).
  { intros a b c H. rewrite !forallb_app in H. apply andb_prop in H as [H1 H]. apply andb_prop in H as [H2 H3]. repeat constructor; intros I; [apply (proj1 (forallb_forall _ _) H1) in I|apply (proj1 (forallb_forall _ _) H2) in I|apply (proj1 (forallb_forall _ _) H3) in I]; discriminate I. }
  split; [eexists _, _; split; [reflexivity|]; split; [reflexivity|]; apply L; reflexivity|]. split; [eexists _, _; split; [reflexivity|]; split; [reflexivity|]; apply L; reflexivity|].
  constructor; [left; split; [repeat constructor|split; [intros (r & E); discriminate E|reflexivity]]|]. constructor; [|constructor; [|constructor]].
  - right. exists (ss "bcher-KVA"), [0x62; 0xFC; 0x63; 0x68; 0x65; 0x72]%N. split; [reflexivity|]. split; [apply decode_puny_text; [reflexivity|vm_compute; reflexivity]|]. split; [repeat constructor|].
    right. split; [intros A; inversion A as [|? ? _ A2]; subst; inversion A2 as [|? ? K _]; subst; discriminate K|]. exists (ss "bcher-kva"). split; [|reflexivity]. exact (proj1 C89_ex).
  - right. exists (ss "paypal-"), (map code (ss "paypal")). split; [reflexivity|]. split; [apply decode_puny_text; [reflexivity|vm_compute; reflexivity]|]. split; [repeat constructor|].
    left. split; [repeat constructor|]. split; [intros (r & E); discriminate E|reflexivity].
Qed.
(* why tidy_label has the condition on xn--: one name is shown as the other one is spelt (C68_twice_refuted) *)
Example C89_ex_again : exists q q', ModelPuny.decode (ss "xn--tda-") = Ok (inl q) /\ q = map code (ss "xn--tda") /\ ModelPuny.decode (ss "tda") = Ok (inl q') /\ ModelPuny.encode q' true = Ok (ss "tda", true)
  /\ ModelPuny.encode q true = Ok (ss "xn--tda", false) /\ q <> q'.
Proof. exists (map code (ss "xn--tda")), [0xFC]%N. vm_compute. repeat split. discriminate. Qed.
