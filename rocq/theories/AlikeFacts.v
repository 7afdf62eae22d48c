(* Internationalised names that mean the same: proofs for C89. *)
From Verif Require Import Base ModelUri ModelParts SpecPct SpecPuny SpecIcu SpecStore SpecViews SpecIdn SpecParts SpecAlike.
From Verif Require Import PctFacts PunyProps PunyLoop IcuUtf8 IcuRead8 IcuEnc IcuProps PartsHost PartsDec PartsProps IdnFacts.
From Verif Require ModelPuny Rfc3986.
From Coq Require Import Lia.
Local Open Scope list_scope.

Lemma nth_lower d c : nth_error lower_digits d = Some c \/ nth_error upper_digits d = Some c -> nth_error lower_digits d = Some (Rfc3986.lower c).
Proof.
  assert (E1 : map Rfc3986.lower lower_digits = lower_digits) by (vm_compute; reflexivity). assert (E2 : map Rfc3986.lower upper_digits = lower_digits) by (vm_compute; reflexivity).
  intros [H|H]; [rewrite <- E1|rewrite <- E2]; now apply map_nth_error.
Qed.
Lemma has_value_lower c d : has_value c d -> has_value (Rfc3986.lower c) d. Proof. intros H. left. exact (nth_lower _ _ H). Qed.
Lemma has_value_digit c d : has_value c d -> In (Rfc3986.lower c) lower_digits. Proof. intros H. exact (nth_error_In _ _ (nth_lower _ _ H)). Qed.
Lemma vli_lower bias k q s : vli bias k q s -> vli bias k q (map Rfc3986.lower s).
Proof. induction 1; cbn [map]; [constructor; [now apply has_value_lower|assumption]|eapply vli_more; [apply has_value_lower; eassumption|eassumption..]]. Qed.
Lemma vli_digits bias k q s : vli bias k q s -> forall c, In c (map Rfc3986.lower s) -> In c lower_digits.
Proof. induction 1; cbn [map]; intros x [<-|I]; try (eapply has_value_digit; eassumption); [destruct I|auto]. Qed.
Lemma decoding_lower n i bias out s u : decoding n i bias out s u -> decoding n i bias out (map Rfc3986.lower s) u.
Proof. induction 1; cbn [map]; [constructor|]. rewrite map_app. eapply dc_step; try eassumption. now apply vli_lower. Qed.
Lemma decoding_digits n i bias out s u : decoding n i bias out s u -> forall c, In c (map Rfc3986.lower s) -> In c lower_digits.
Proof. induction 1; cbn [map]; [intros c []|]. rewrite map_app. intros c I. apply in_app_or in I as [I|I]; [eapply vli_digits; eassumption|auto]. Qed.

Lemma hyphen_lower ds : ~ In hyphen ds -> ~ In hyphen (map Rfc3986.lower ds).
Proof. intros N I. apply in_map_iff in I as (c & E & H). apply N. replace hyphen with c; [exact H|]. revert E. clear. destruct c as [[] [] [] [] [] [] [] []]; vm_compute; congruence. Qed.
Lemma tidy_parts lit ds lit' ds' : ~ In hyphen ds -> ~ In hyphen ds' ->
  forall s, (s = lit ++ hyphen :: ds \/ (s = ds /\ lit = [])) -> (s = lit' ++ hyphen :: ds' \/ (s = ds' /\ lit' = [])) -> lit = lit' /\ ds = ds'.
Proof.
  intros N N' s [->|[-> ->]] [E|[E ->]].
  - symmetry in E. apply hyphen_split_unique in E as [-> ->]; auto.
  - exfalso. apply N'. rewrite <- E. apply in_or_app. right; left; reflexivity.
  - exfalso. apply N. rewrite E. apply in_or_app. right; left; reflexivity.
  - auto.
Qed.
Lemma tidy_fun s e e' : tidy s e -> tidy s e' -> e = e'.
Proof. intros (lit & ds & S & N & ->) (lit' & ds' & S' & N' & ->). destruct (tidy_parts lit ds lit' ds' N N' s S S') as [-> ->]. reflexivity. Qed.
Lemma lower_idem c : Rfc3986.lower (Rfc3986.lower c) = Rfc3986.lower c. Proof. destruct c as [[] [] [] [] [] [] [] []]; vm_compute; reflexivity. Qed.
Lemma tidy_self s e : tidy s e -> tidy e e.
Proof.
  intros (lit & ds & S & N & ->). exists lit, (map Rfc3986.lower ds). split; [destruct lit; [right; auto|left; now rewrite <- app_assoc]|]. split; [now apply hyphen_lower|].
  f_equal. rewrite map_map. apply map_ext. intros c. now rewrite lower_idem.
Qed.
Lemma tidy_total s : exists e, tidy s e.
Proof. destruct (hyphen_split s) as [N|(a & b & -> & N)]; eexists; [exists [], s|exists a, b]; (split; [|split; [exact N|reflexivity]]); auto. Qed.
Lemma tidy_length s e : tidy s e -> length e <= length s.
Proof. intros (lit & ds & [->|[-> ->]] & _ & ->); cbn [app]; rewrite ?app_length, map_length; [|lia]. cbn [length]. destruct lit; [cbn; lia|]. rewrite app_length. cbn [length]. lia. Qed.

Lemma puny_text_tidy q u e : puny_text q u -> tidy q e -> punycode_of u e.
Proof.
  intros [H B] (lit & ds & S & N & ->).
  assert (K : exists lit0 ds0, (q = lit0 ++ hyphen :: ds0 \/ (q = ds0 /\ lit0 = [])) /\ ~ In hyphen ds0 /\ (forall c, In c lit0 -> (code c < 0x80)%N) /\ decoding rfc_initial_n 0 rfc_initial_bias (map code lit0) ds0 u).
  { destruct H as [(l & d & C & ND & Lo & D)|(q' & -> & N' & (l & d & C & ND & Lo & D))].
    - exists l, d. split; [destruct C as [[-> _]|[-> ->]]; auto|auto].
    - destruct C as [[-> _]|[-> ->]]; [elim N'; apply in_or_app; right; left; reflexivity|]. exists [], d. split; [now left|auto]. }
  destruct K as (l0 & d0 & S0 & N0 & Lo & D). destruct (tidy_parts lit ds l0 d0 N N0 q S S0) as [<- <-]. exists lit, (map Rfc3986.lower ds).
  split; [destruct lit; [right; auto|left; split; [now rewrite <- app_assoc|discriminate]]|]. split; [eapply decoding_digits; eassumption|]. split; [exact Lo|now apply decoding_lower].
Qed.

(* --- labels and hosts --- *)
Definition stands (u : list N) (e : str) : Prop :=
  (ascii_only u /\ ~ has_prefix xn e /\ map code e = u) \/ (~ ascii_only u /\ exists q, punycode_of u q /\ e = xn ++ q).
Lemma stands_encoded u e : stands u e -> label_encoded u e.
Proof. intros [(A & _ & E)|H]; [left; auto|right; exact H]. Qed.
Lemma tidy_back l t e : tidy_label l e -> label_decoded l t -> exists u, Forall scalar u /\ text utf8_of u (map code t) /\ stands u e.
Proof.
  intros [(A & N & ->)|(q & u & -> & P & S & C)] [[NX ->]|(q' & u' & cs & ok & E & P' & R & T)].
  - exists (map code l). split; [|split; [apply ascii_text; exact A|left; auto]]. revert A. apply Forall_impl. intros c Hc. unfold scalar. lia.
  - subst l. elim N. exists q'. reflexivity.
  - elim NX. exists q. reflexivity.
  - apply app_inv_head in E. subst q'. rewrite (puny_text_fun _ _ _ P' P) in R. pose proof (reads32_scalars u S) as R'. destruct (reads32_fun _ _ _ R _ _ R') as [-> ->].
    exists u. split; [exact S|]. split; [exact T|]. destruct C as [C|(NA & q' & Tq & ->)]; [left; exact C|]. right. split; [exact NA|]. exists q'. split; [exact (puny_text_tidy q u q' P Tq)|reflexivity].
Qed.
Lemma tidy_normal_label l e : tidy_label l e -> normal_label e.
Proof.
  intros [(A & N & ->)|(q & u & -> & P & S & [(A & N & E)|(NA & q' & T & ->)])]; [left; auto|left; split; [now rewrite E|exact N]|].
  right. exists q', u. split; [reflexivity|]. split; [exact (puny_text_tidy q u q' P T)|auto].
Qed.
Lemma tidy_normal s e : tidy_host s e -> normal_host e.
Proof. intros (ls & es & _ & L & F). exists es. split; [exact L|]. clear L. induction F; constructor; [eapply tidy_normal_label; eassumption|assumption]. Qed.
Lemma tidy_texts ls es ts : Forall2 tidy_label ls es -> Forall2 label_decoded ls ts ->
  exists us, Forall (Forall scalar) us /\ Forall2 (fun u t => text utf8_of u (map code t)) us ts /\ Forall2 stands us es.
Proof.
  intros F. revert ts. induction F as [|l e ls es T _ IH]; intros ts G; inversion G as [|? t ? ts' D G']; subst; [exists []; repeat split; constructor|].
  destruct (IH ts' G') as (us & A & B & C). destruct (tidy_back l t e T D) as (u & A' & B' & C'). exists (u :: us). repeat split; constructor; assumption.
Qed.
Lemma host_tidy s t e : tidy_host s e -> host_decoded s t -> host_encoded t e.
Proof.
  intros (ls & es & L & M & F) (es' & ts & L' & G & t0 & ts0 & -> & ->). rewrite (labels_fun _ _ _ _ L' L) in G. clear L' es'.
  assert (NT : Forall (fun x => ~ In dot x) (t0 :: ts0)).
  { eapply shown_no_dots; [eapply forall2_mono; [exact label_decoded_shown|exact G]|]. destruct L as (? & ? & _ & _ & N). exact N. }
  destruct (tidy_texts ls es (t0 :: ts0) F G) as (us & _ & B & C). destruct us as [|u us]; [inversion B|].
  assert (D : Forall (fun u => ~ In dot32 u) (u :: us)).
  { clear - NT B. revert NT. induction B; intros N; constructor; inversion N; subst; [eapply text_no_dot; eassumption|auto]. }
  exists (joined dot32 u us), true, (u :: us), es. split; [apply text_reads8, text_joined; exact B|]. split; [exists u, us; auto|]. split; [exact M|].
  eapply forall2_mono; [exact stands_encoded|exact C].
Qed.
Lemma tidy_decodable s e : tidy_host s e -> ~ host_undecodable s.
Proof.
  intros (ls & es & L & _ & F) (ls' & l & L' & Hl & HX & N). rewrite (labels_fun _ _ _ _ L' L) in Hl. clear L L'. induction F as [|l0 e0 ls es T _ IH]; [destruct Hl|].
  destruct Hl as [->|Hl]; [|auto]. destruct T as [(_ & NX & _)|(q & u & -> & P & _)]; [contradiction|]. apply (N u). exact P.
Qed.
Lemma tidy_not_empty s e : tidy_host s e -> host_decoded s [] -> e = [].
Proof.
  intros T D. pose proof (host_tidy s [] e T D) as (cs & ok & us & es & R & L & M & F).
  assert (cs = []) as ->. { pose proof (text_reads8 [] [] (text_nil _)) as R'. destruct (reads8_fun _ _ _ _ _ (codes_small []) R R') as [-> _]. reflexivity. }
  destruct L as (u & us' & -> & E & _). destruct us' as [|u' us']; [|destruct u; discriminate E]. cbn in E. subst u. inversion F as [|? e0 ? ? G G' ]; subst. inversion G'; subst.
  destruct M as (x & xs & EL & -> & _). injection EL as <- <-. cbn. destruct G as [[_ G]|[NA _]]; [destruct e0; [reflexivity|discriminate G]|]. elim NA. constructor.
Qed.
Lemma tidy_encoded s t e : tidy_host s e -> e <> [] -> decoded Host s t -> host_encoded t e.
Proof. intros T N [[D _]|[D _]]; [exact (host_tidy s t e T D)|]. elim N. exact (tidy_not_empty s e T D). Qed.
(* what is shown for the tidy spelling *)
Lemma tidy_label_decoded l e t : tidy_label l e -> label_decoded l t -> label_decoded e t.
Proof.
  intros T D. destruct (tidy_back l t e T D) as (u & S & X & [(A & N & E)|(A & q & P & ->)]).
  - left. split; [exact N|]. apply map_code_inj'. rewrite E. exact (text_ascii _ _ A X).
  - right. exists q, u, u, true. split; [reflexivity|]. split; [apply punycode_text; [exact P|]|split; [now apply reads32_scalars|exact X]].
    intros c Hc. pose proof (proj1 (Forall_forall _ _) S c Hc) as Sc. unfold scalar in Sc. lia.
Qed.
Lemma tidy_host_decoded s e t : tidy_host s e -> host_decoded s t -> host_decoded e t.
Proof.
  intros (ls & es & L & M & F) (es' & ts & L' & G & J). rewrite (labels_fun _ _ _ _ L' L) in G. exists es, ts. split; [exact M|]. split; [|exact J]. clear - F G. revert ts G.
  induction F as [|l e ls es T _ IH]; intros ts G; inversion G; subst; constructor; [eapply tidy_label_decoded; eassumption|auto].
Qed.
Lemma tidy_decoded s t e : tidy_host s e -> e <> [] -> decoded Host s t -> host_decoded e t.
Proof. intros T N [[D _]|[D _]]; [exact (tidy_host_decoded s e t T D)|]. elim N. exact (tidy_not_empty s e T D). Qed.
Lemma host_encoded_any t e e' : host_encoded t e -> host_encoded t e' -> e = e'.
Proof.
  intros (cs & ok & us & es & R & L & M & F) (cs' & ok' & us' & es' & R' & L' & M' & F').
  destruct (reads8_fun _ _ _ _ _ (codes_small _) R R') as [<- <-]. rewrite (labels_fun _ _ _ _ L' L) in F'.
  pose proof (forall2_fun _ label_encoded_any _ _ _ F F') as EE. subst es'. destruct M as (x & xs & -> & -> & _), M' as (y & ys & EL & -> & _). congruence.
Qed.
(* --- the interface --- *)
Lemma c89_host grow store p pc a e : proper p -> shows store p pc -> p_authority pc = Some a -> tidy_host (host a) e -> e <> [] ->
  exists st q qc, parts_decode grow store p = Ok (st, inl q) /\ shows st q qc
  /\ forall grow2 st2 p2, proper p2 -> shows st2 p2 qc ->
       exists st3 r rc c, parts_encode grow2 st2 p2 = Ok (st3, r) /\ shows st3 r rc /\ p_authority rc = Some c /\ host c = e.
Proof.
  intros P S E T N. destruct (decode_all grow store p P) as [(_ & st & q & D & _)|(U & _)].
  - destruct (c26_decode_text grow store p pc st q P S D) as (qc & S' & R). exists st, q, qc. split; [exact D|]. split; [exact S'|].
    intros grow2 st2 p2 P2 S2. destruct (encode_all grow2 st2 p2 P2) as (st3 & r & En & _). destruct (c26_encode_text grow2 st2 p2 qc st3 r P2 S2 En) as (rc & S3 & R3).
    destruct (rel_authority _ _ _ _ R E) as (b & Eb & Rb). destruct (rel_authority _ _ _ _ R3 Eb) as (c & Ec & Rc).
    exists st3, r, rc, c. split; [exact En|]. split; [exact S3|]. split; [exact Ec|]. apply (host_encoded_any (host b)); [exact Rc|exact (tidy_encoded _ _ _ T N Rb)].
  - exfalso. destruct U as (va & s & Ea & Eh & U). destruct (host_view store p pc a (proj1 P) S E) as (va' & Ea' & H). assert (va' = va) by congruence. subst va'.
    destruct H as [H|[H _]]; rewrite Eh in H; [|discriminate]. injection H as ->. exact (tidy_decodable _ _ T U).
Qed.
Lemma c89_alike grow store p pc a e st q qc b grow' store' p' pc' a' e' st' q' qc' b' :
  proper p -> shows store p pc -> p_authority pc = Some a -> tidy_host (host a) e -> e <> [] -> parts_decode grow store p = Ok (st, inl q) -> shows st q qc -> p_authority qc = Some b ->
  proper p' -> shows store' p' pc' -> p_authority pc' = Some a' -> tidy_host (host a') e' -> e' <> [] -> parts_decode grow' store' p' = Ok (st', inl q') -> shows st' q' qc' -> p_authority qc' = Some b' ->
  (host b = host b' <-> e = e').
Proof.
  assert (X : forall grow store p pc a e st q qc b, proper p -> shows store p pc -> p_authority pc = Some a -> tidy_host (host a) e -> e <> [] -> parts_decode grow store p = Ok (st, inl q) -> shows st q qc -> p_authority qc = Some b ->
     host_encoded (host b) e /\ host_decoded e (host b)).
  { clear. intros grow store p pc a e st q qc b P S E T N D S' Eb. destruct (c26_decode_text grow store p pc st q P S D) as (qc2 & S2 & R). destruct (rel_authority _ _ _ _ R E) as (b2 & Eb2 & Rb).
    assert (EH : host b2 = host b).
    { destruct S' as (_ & H1 & _), S2 as (_ & H2 & _). rewrite Eb in H1. rewrite Eb2 in H2. destruct (v_authority q); [|inversion H1]. inversion H1 as [|? ? (_ & K1 & _)]; inversion H2 as [|? ? (_ & K2 & _)]; subst. congruence. }
    rewrite <- EH. split; [exact (tidy_encoded _ _ _ T N Rb)|exact (tidy_decoded _ _ _ T N Rb)]. }
  intros P S E T N D S1 Eb P' S' E' T' N' D' S1' Eb'.
  destruct (X _ _ _ _ _ _ _ _ _ _ P S E T N D S1 Eb) as [H K]. destruct (X _ _ _ _ _ _ _ _ _ _ P' S' E' T' N' D' S1' Eb') as [H' K']. split.
  - intros EQ. rewrite <- EQ in H'. exact (host_encoded_any _ _ _ H H').
  - intros <-. exact (host_decoded_fun _ _ _ K K').
Qed.
