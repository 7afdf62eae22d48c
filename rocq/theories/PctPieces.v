From Verif Require Import Base ModelPct SpecPct SpecPieces Rfc3986 PctFacts PctProps.
From Coq Require Import Lia.
Lemma esc_hex s b rest : escaped_at s b rest -> exists h l, hexadecimal h /\ hexadecimal l /\ s = percent :: h :: l :: rest.
Proof. intros (h & l & x & y & -> & X & Y & _). exists h, l. unfold hexadecimal. eauto. Qed.
Lemma hex_esc h l rest : hexadecimal h -> hexadecimal l -> exists b, escaped_at (percent :: h :: l :: rest) b rest.
Proof. intros [x X] [y Y]. exists (chr (16 * x + y)), h, l, x, y. auto. Qed.
Lemma hex_not_percent h : hexadecimal h -> h <> percent.
Proof. intros [x X] ->. discriminate X. Qed.
Lemma copy_hex h s d : hexadecimal h -> decodes s d -> decodes (h :: s) (h :: d).
Proof. intros H D. apply dec_copy; [|exact D]. intros b rest E. apply esc_hex in E. destruct E as (h' & l & _ & _ & [= E _]). exact (hex_not_percent h H E). Qed.
Lemma cut_cons c s t : cut_in_escape s t -> cut_in_escape (c :: s) t.
Proof. intros (before & h & l & after & H1 & H2 & [[-> ->]|[-> ->]]); exists (c :: before), h, l, after; auto. Qed.
Lemma pieces s d1 t d2 : decodes s d1 -> decodes t d2 -> ~ cut_in_escape s t -> decodes (s ++ t) (d1 ++ d2).
Proof.
  induction 1 as [|s b rest d E D IH|c s d N D IH]; intros T C; cbn [app]; [exact T|..].
  - destruct (esc_hex _ _ _ E) as (h & l & _ & _ & ->). eapply dec_escape; [|apply IH; [exact T|intros C'; apply C; do 3 apply cut_cons; exact C']].
    destruct E as (h' & l' & x & y & [= <- <-] & X). exists h, l, x, y. auto.
  - apply dec_copy; [|apply IH; [exact T|intros C'; apply C, cut_cons, C']].
    intros b rest E. destruct (esc_hex _ _ _ E) as (h & l & H1 & H2 & [= -> E2]). destruct s as [|h' [|l' s]]; cbn [app] in E2.
    + apply C. exists [], h, l, rest. subst t. auto.
    + injection E2 as -> ->. apply C. exists [], h, l, rest. auto.
    + injection E2 as -> -> E2. destruct (hex_esc h l s H1 H2) as [b' Eb]. exact (N _ _ Eb).
Qed.
Lemma cut_first c s t : cut_in_escape (c :: s) t -> cut_in_escape s t \/ exists b rest, escaped_at (c :: s ++ t) b rest.
Proof.
  intros (before & h & l & after & H1 & H2 & [[E ->]|[E ->]]).
  - destruct before as [|c' before]; cbn in E; injection E as -> ->; [right|left; exists before, h, l, after; auto]. destruct (hex_esc h l after H1 H2) as [b Eb]. eauto.
  - destruct before as [|c' before]; cbn in E; injection E as -> ->; [right|left; exists before, h, l, after; auto]. destruct (hex_esc h l after H1 H2) as [b Eb]. eauto.
Qed.
Lemma shorter s d1 t d2 : decodes s d1 -> decodes t d2 -> forall d, decodes (s ++ t) d -> cut_in_escape s t -> length d < length d1 + length d2.
Proof.
  induction 1 as [|s b rest d1 E D IH|c s d1 N D IH]; intros T d X C.
  - destruct C as (before & h & l & after & _ & _ & [[E _]|[E _]]); destruct before; discriminate.
  - destruct (esc_hex _ _ _ E) as (h & l & H1 & H2 & ->). cbn [app] in X. destruct (hex_esc h l (rest ++ t) H1 H2) as [b' Eb]. inversion X; subst.
    2: { exfalso. eapply H3. exact Eb. }
    destruct (escaped_at_fun _ _ _ _ _ H Eb) as [-> ->]. cbn [length]. assert (C' : cut_in_escape rest t).
    { destruct C as (before & h2 & l2 & after & G1 & G2 & C). assert (Hh := hex_not_percent h H1). assert (Hl := hex_not_percent l H2).
      destruct C as [[E3 ->]|[E3 ->]]; destruct before as [|c1 [|c2 [|c3 before]]]; cbn in E3; injection E3; intros; subst; try congruence; try (destruct rest; discriminate); exists before, h2, l2, after; auto. }
    specialize (IH T _ H0 C'). lia.
  - cbn [app] in X. inversion X; subst.
    + destruct (esc_hex _ _ _ H) as (h & l & H1 & H2 & [= -> E2]). destruct s as [|h' [|l' s]]; cbn [app] in E2.
      * subst t. inversion D; subst; [|match goal with E : escaped_at [] _ _ |- _ => destruct (esc_hex _ _ _ E) as (? & ? & _ & _ & E9); discriminate E9 end].
        pose proof (decodes_fun _ _ T _ (copy_hex h _ _ H1 (copy_hex l _ _ H2 H0))) as ->. cbn. lia.
      * injection E2 as -> ->. pose proof (decodes_fun _ _ D _ (copy_hex h _ _ H1 dec_nil)) as ->.
        pose proof (decodes_fun _ _ T _ (copy_hex l _ _ H2 H0)) as ->. cbn. lia.
      * injection E2 as -> -> E2. destruct (hex_esc h l s H1 H2) as [b' Eb]. destruct (N _ _ Eb).
    + destruct (cut_first _ _ _ C) as [C'|(b & rest & E)]; [|exfalso; match goal with Y : forall b rest, ~ _ |- _ => exact (Y _ _ E) end]. match goal with Y : decodes (s ++ t) _ |- _ => specialize (IH T _ Y C') end. cbn. lia.
Qed.
Lemma c58_decode s t d1 d2 : pctdecode s = Ok d1 -> pctdecode t = Ok d2 -> (pctdecode (s ++ t) = Ok (d1 ++ d2) <-> ~ cut_in_escape s t).
Proof.
  rewrite !pctdecode_iff. intros D1 D2. split; [|now apply pieces]. intros D C. pose proof (shorter _ _ _ _ D1 D2 _ D C). rewrite app_length in H. lia.
Qed.
Lemma c58_encode s t es e1 e2 : (es < 256)%N -> pctencode s es = Ok e1 -> pctencode t es = Ok e2 -> pctencode (s ++ t) es = Ok (e1 ++ e2).
Proof. intros H. rewrite !pctencode_enc by assumption. intros [= <-] [= <-]. f_equal. induction s as [|c s IH]; cbn; [reflexivity|]. destruct (needs c es); cbn; now rewrite IH. Qed.
Lemma decodes_self s : decodes s s <-> ~ has_escape s.
Proof.
  split.
  - intros D (before & h & l & after & H1 & H2 & ->). destruct (pctdecode_ok before) as (d1 & _ & D1). destruct (pctdecode_ok after) as (d2 & _ & D2).
    destruct (hex_esc h l after H1 H2) as [b Eb]. pose proof (dec_escape _ _ _ _ Eb D2) as D3.
    destruct (decodes_length _ _ D1) as [L1 _]. destruct (decodes_length _ _ D2) as [L2 _].
    assert (C : cut_in_escape before (percent :: h :: l :: after) \/ ~ cut_in_escape before (percent :: h :: l :: after)).
    { right. intros (b0 & h0 & l0 & a0 & G1 & G2 & [[_ E]|[_ E]]); injection E; intros; subst; [exact (hex_not_percent _ G1 eq_refl)|exact (hex_not_percent _ G2 eq_refl)]. }
    destruct C as [C|C].
    + pose proof (shorter _ _ _ _ D1 D3 _ D C). rewrite app_length in H. cbn in H. lia.
    + pose proof (decodes_fun _ _ D _ (pieces _ _ _ _ D1 D3 C)) as E. apply (f_equal (@length _)) in E. rewrite !app_length in E. cbn in E. lia.
  - induction s as [|c s IH]; intros N; [constructor|]. apply dec_copy; [|apply IH; intros (before & h & l & after & H1 & H2 & ->); apply N; exists (c :: before), h, l, after; auto].
    intros b rest E. destruct (esc_hex _ _ _ E) as (h & l & H1 & H2 & E2). apply N. exists [], h, l, rest. auto.
Qed.
Lemma c58_fixed s : pctdecode s = Ok s <-> ~ has_escape s.
Proof. rewrite pctdecode_iff. apply decodes_self. Qed.
Lemma c58_normal s t es ds dt es' et : (0 < es < 256)%N -> pctdecode s = Ok ds -> pctdecode t = Ok dt -> pctencode ds es = Ok es' -> pctencode dt es = Ok et ->
  pctdecode es' = Ok ds /\ (es' = et <-> ds = dt).
Proof.
  intros H D1 D2 E1 E2. destruct (c15 ds es H) as (e & E & F & _). assert (es' = e) by congruence. subst e. split; [exact F|]. split; [|congruence]. intros <-. exact (c15_injective _ _ _ _ H E1 E2).
Qed.
