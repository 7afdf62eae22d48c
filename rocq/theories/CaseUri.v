(* Composing, resolving, percent-encoding and Punycode do not see the case of letters: proofs for C85. *)
From Verif Require Import Base ModelUri ModelPct Rfc3986 SpecPct SpecStore SpecCase SpecUri SpecParts SpecPath CommuteFacts CaseFacts PropPct PropSplit.
From Coq Require Import Lia.
Local Open Scope list_scope.

(* --- compose --- *)
Lemma path_loop_sim l l' : Forall2 same_text l l' -> forall sep a a', same_text a a' -> same_text (path_string_loop sep l a) (path_string_loop sep l' a').
Proof.
  induction 1 as [|x y l l' H F IH]; intros sep a a' A; cbn [path_string_loop]; [exact A|]. apply IH. apply text_app; [exact A|]. apply text_app; [apply text_refl|exact H].
Qed.
Lemma path_string_sim p p' : absolute p = absolute p' -> Forall2 same_text (segments p) (segments p') -> same_text (path_string p) (path_string p').
Proof. intros A F. unfold path_string. rewrite <- A. apply path_loop_sim; [exact F|constructor]. Qed.
Lemma path_empty_sim p p' : Forall2 same_text (segments p) (segments p') -> path_is_empty p = path_is_empty p'.
Proof. intros F. unfold path_is_empty. destruct F; reflexivity. Qed.
Lemma compose_sim p q : same_parts p q -> same_text (compose p) (compose q).
Proof.
  intros (P1 & P2 & P3 & P4 & P5 & P6). unfold compose. rewrite <- (path_empty_sim _ _ P4), <- P3.
  apply text_app; [destruct P1; [constructor|apply text_app; [assumption|apply text_refl]]|].
  apply text_app.
  - destruct P2 as [|a b (A1 & A2 & A3)]; [constructor|]. apply text_app; [apply text_refl|]. apply text_app; [|apply text_refl]. unfold authority_string.
    apply text_app; [destruct A1; [constructor|apply text_app; [assumption|apply text_refl]]|]. apply text_app.
    + replace (match ModelUri.host a with [] => [] | h => h end) with (ModelUri.host a) by (destruct (ModelUri.host a); reflexivity).
      replace (match ModelUri.host b with [] => [] | h => h end) with (ModelUri.host b) by (destruct (ModelUri.host b); reflexivity). exact A2.
    + destruct A3 as [|x y H]; [constructor|]. apply text_app; [apply text_refl|]. destruct H; [constructor|now constructor].
  - apply text_app; [now apply path_string_sim|]. apply text_app; [destruct P5|destruct P6]; try constructor; try reflexivity; assumption.
Qed.

(* texts of the same length are told apart by what is composed of them *)
Lemma app_eq_len {A} (a b c d : list A) : length a = length c -> a ++ b = c ++ d -> a = c /\ b = d.
Proof. revert c. induction a as [|x a IH]; intros [|y c] L H; try discriminate L; [auto|]. cbn in L, H. injection H as -> H. destruct (IH c) as [-> ->]; auto. Qed.
Lemma path_loop_inj l l' : Forall2 same_text l l' -> forall sep a a', length a = length a' -> path_string_loop sep l a = path_string_loop sep l' a' -> l = l' /\ a = a'.
Proof.
  induction 1 as [|x y l l' H F IH]; intros sep a a' A E; cbn [path_string_loop] in E; [auto|].
  apply IH in E; [|rewrite !app_length, (text_length x y H), A; reflexivity]. destruct E as [-> E]. apply app_eq_len in E; [|exact A]. destruct E as [-> E]. apply app_inv_head in E. now subst.
Qed.
Lemma authority_eta (a b : ModelUri.authority) : ModelUri.userinfo a = ModelUri.userinfo b -> ModelUri.host a = ModelUri.host b -> ModelUri.port a = ModelUri.port b -> a = b.
Proof. destruct a, b. cbn. congruence. Qed.
Lemma authority_text a : authority_string a = match ModelUri.userinfo a with Some u => u ++ ss "@" | None => [] end ++ ModelUri.host a ++ match ModelUri.port a with Some p => ss ":" ++ p | None => [] end.
Proof. unfold authority_string. destruct (ModelUri.host a), (ModelUri.port a) as [[|]|]; reflexivity. Qed.
Definition pre_len (o : option str) (x : str) : list ascii := match o with Some s => s ++ x | None => [] end.
Lemma pre_inj o o' x : opt_rel same_text o o' -> pre_len o x = pre_len o' x -> o = o'.
Proof. intros H E. destruct H as [|s t H]; [reflexivity|]. cbn in E. apply app_inv_tail in E. now subst. Qed.
Lemma post_inj o o' (x : str) : opt_rel same_text o o' -> match o with Some s => x ++ s | None => [] end = match o' with Some s => x ++ s | None => [] end -> o = o'.
Proof. intros H E. destruct H as [|s t H]; [reflexivity|]. apply app_inv_head in E. now subst. Qed.
Lemma pre_length o o' x : opt_rel same_text o o' -> length (pre_len o x) = length (pre_len o' x).
Proof. intros H. destruct H as [|s t H]; [reflexivity|]. cbn. now rewrite !app_length, (text_length s t H). Qed.
Lemma post_length o o' (x : str) : opt_rel same_text o o' -> length (match o with Some s => x ++ s | None => [] end) = length (match o' with Some s => x ++ s | None => [] end).
Proof. intros H. destruct H as [|s t H]; [reflexivity|]. now rewrite !app_length, (text_length s t H). Qed.
Lemma compose_inj p q : same_parts p q -> compose p = compose q -> p = q.
Proof.
  intros (P1 & P2 & P3 & P4 & P5 & P6). unfold compose. rewrite <- (path_empty_sim _ _ P4), <- P3. intros E.
  apply app_eq_len in E; [|apply (pre_length _ _ (ss ":") P1)]. destruct E as [E1 E]. apply (pre_inj _ _ (ss ":") P1) in E1.
  apply app_eq_len in E.
  2:{ destruct P2 as [|a b (A1 & A2 & A3)]; [reflexivity|]. rewrite !authority_text, !app_length. f_equal. f_equal. f_equal; [apply (pre_length _ _ (ss "@") A1)|]. f_equal; [now apply text_length|apply (post_length _ _ (ss ":") A3)]. }
  destruct E as [E2 E]. apply app_eq_len in E; [|apply text_length; now apply path_string_sim]. destruct E as [E3 E].
  apply app_eq_len in E; [|apply (post_length _ _ (ss "?") P5)]. destruct E as [E4 E5]. apply (post_inj _ _ (ss "?") P5) in E4. apply (post_inj _ _ (ss "#") P6) in E5.
  unfold path_string in E3. rewrite <- P3 in E3. apply path_loop_inj in E3; [|exact P4|reflexivity]. destruct E3 as [E3 _].
  assert (A : p_authority p = p_authority q).
  { destruct P2 as [|a b (A1 & A2 & A3)]; [reflexivity|]. f_equal. apply app_inv_head in E2. apply app_inv_tail in E2. rewrite !authority_text in E2.
    apply app_eq_len in E2; [|apply (pre_length _ _ (ss "@") A1)]. destruct E2 as [X E2]. apply app_eq_len in E2; [|now apply text_length]. destruct E2 as [Y Z].
    apply authority_eta; [exact (pre_inj _ _ (ss "@") A1 X)|exact Y|exact (post_inj _ _ (ss ":") A3 Z)]. }
  destruct p as [a1 a2 [a3 a4] a5 a6], q as [b1 b2 [b3 b4] b5 b6]. cbn in *. congruence.
Qed.

(* --- dots, and join --- *)
Lemma dot_lower c d : same_letter c d -> Ascii.eqb c "." = Ascii.eqb d ".".
Proof.
  intros H. assert (E : forall x, Ascii.eqb (lower x) "." = Ascii.eqb x ".") by (intros x; every x). rewrite <- (E c), <- (E d). unfold same_letter in H. now rewrite H.
Qed.
Lemma str_eqb_true a b : str_eqb a b = true <-> a = b.
Proof. unfold str_eqb. destruct (list_eq_dec ascii_dec a b); split; congruence. Qed.
Lemma dots_sim s t : same_text s t -> is_dot s = is_dot t /\ is_dotdot s = is_dotdot t /\ is_empty s = is_empty t.
Proof.
  intros H. assert (K : forall n, str_eqb s (repeat "."%char n) = str_eqb t (repeat "."%char n)).
  { induction H as [|a b s t AB F IH]; intros n; [reflexivity|]. destruct n as [|n]; [reflexivity|]. cbn [repeat]. specialize (IH n).
    assert (B : forall (a : ascii) s l, str_eqb (a :: s) ("."%char :: l) = Ascii.eqb a "." && str_eqb s l).
    { intros x u l. apply Bool.eq_iff_eq_true. rewrite Bool.andb_true_iff, !str_eqb_true, Ascii.eqb_eq. split; [intros E; now injection E|intros [-> ->]; reflexivity]. }
    now rewrite !B, IH, (dot_lower a b AB). }
  split; [exact (K 1)|]. split; [exact (K 2)|]. destruct H; reflexivity.
Qed.
Definition R0 : field -> str -> str -> Prop := fun _ => same_text.
Lemma segs_alike l l' : Forall2 same_text l l' -> Forall2 (alike R0) l l'.
Proof. induction 1 as [|x y l l' H F IH]; constructor; auto. split; [exact H|now apply dots_sim]. Qed.
Lemma rds_sim l l' : Forall2 same_text l l' -> Forall2 same_text (rds_segments l) (rds_segments l').
Proof. intros F. apply (alike_R R0). apply alike_rds; [constructor|now apply segs_alike]. Qed.
Lemma join_parts_sim b b' r r' strict : same_parts b b' -> same_parts r r' -> strict = true \/ (p_scheme r = p_scheme b <-> p_scheme r' = p_scheme b') ->
  same_parts (join_parts b r strict) (join_parts b' r' strict).
Proof.
  intros B R H. apply (join_alike R0); [constructor| | |exact H]; split; auto; apply segs_alike; [apply B|apply R].
Qed.

(* --- percent-encoding --- *)
Lemma hex_lower c : hexval (lower c) = hexval c. Proof. every c. Qed.
Lemma hex_same a b : same_letter a b -> hexval a = hexval b. Proof. intros H. rewrite <- (hex_lower a), <- (hex_lower b). unfold same_letter in H. now rewrite H. Qed.
Lemma percent_same c : same_letter percent c -> c = percent.
Proof. unfold same_letter. destruct c as [[] [] [] [] [] [] [] []]; intros H; vm_compute in H; try discriminate H; reflexivity. Qed.
Lemma escape_same s t b rest : same_text s t -> escaped_at s b rest -> exists rest', escaped_at t b rest' /\ same_text rest rest'.
Proof.
  intros S (h & l & x & y & -> & X & Y & ->). inversion S as [|? c ? t1 C S1]; subst. inversion S1 as [|? h' ? t2 HH S2]; subst. inversion S2 as [|? l' ? t3 LL S3]; subst.
  apply percent_same in C. subst c. exists t3. split; [|exact S3]. exists h', l', x, y. rewrite <- (hex_same _ _ HH), <- (hex_same _ _ LL). auto.
Qed.
Lemma decodes_same s d : decodes s d -> forall t, same_text s t -> exists d', decodes t d' /\ same_text d d'.
Proof.
  induction 1 as [|s b rest d E D IH|c s d E D IH]; intros t S.
  - inversion S; subst. exists []. split; constructor.
  - destruct (escape_same _ _ _ _ S E) as (rest' & E' & S'). destruct (IH _ S') as (d' & D' & T). exists (b :: d'). split; [now apply (dec_escape t b rest')|]. constructor; [reflexivity|exact T].
  - inversion S as [|? c' ? t' C S1]; subst. destruct (IH _ S1) as (d' & D' & T). exists (c' :: d'). split; [|now constructor]. constructor; [|exact D'].
    intros b rest E'. apply text_sym in S. destruct (escape_same _ _ _ _ S E') as (rest' & E2 & _). exact (E _ _ E2).
Qed.
Lemma pctdecode_sim s t : same_text s t -> same_answer same_text (pctdecode s) (pctdecode t).
Proof.
  intros S. destruct (C18_total s) as (d & D & _). destruct (decodes_same s d D t S) as (d' & D' & T).
  rewrite (proj2 (C18_decode s d) D), (proj2 (C18_decode t d') D'). now constructor.
Qed.
Lemma escapes_cons c s t : same_escapes (c :: s) t -> c <> percent -> exists t', t = c :: t' /\ same_escapes s t'.
Proof. intros H N. inversion H; subst; [eauto|congruence]. Qed.
Lemma hex_not_percent a x : hexval a = Some x -> a <> percent. Proof. intros H ->. vm_compute in H. discriminate. Qed.
Lemma escapes_sym s t : same_escapes s t -> same_escapes t s.
Proof. induction 1 as [|c s t E IH|a b a' b' s t A B AA BB E IH]; [constructor|now constructor|]. constructor; auto; try (unfold same_letter in *; congruence); [now rewrite <- (hex_same _ _ AA)|now rewrite <- (hex_same _ _ BB)]. Qed.
Lemma escapes_at s t b rest : same_escapes s t -> escaped_at s b rest -> exists rest', escaped_at t b rest' /\ same_escapes rest rest'.
Proof.
  intros S (h & l & x & y & -> & X & Y & ->). inversion S as [|c s0 t0 S0|a1 b1 a' b' s0 t0 A B AA BB S0]; subst.
  - destruct (escapes_cons _ _ _ S0 (hex_not_percent _ _ X)) as (t1 & -> & S1). destruct (escapes_cons _ _ _ S1 (hex_not_percent _ _ Y)) as (t2 & -> & S2).
    exists t2. split; [|exact S2]. exists h, l, x, y. auto.
  - exists t0. split; [|exact S0]. exists a', b', x, y. rewrite <- (hex_same _ _ AA), <- (hex_same _ _ BB). auto.
Qed.
Lemma decodes_escapes s d : decodes s d -> forall t, same_escapes s t -> decodes t d.
Proof.
  induction 1 as [|s b rest d E D IH|c s d E D IH]; intros t S.
  - inversion S; subst. constructor.
  - destruct (escapes_at _ _ _ _ S E) as (rest' & E' & S'). apply (dec_escape t b rest'); auto.
  - inversion S as [|? ? t' S1|a1 b1 a' b' s0 t0 A B AA BB S1]; subst.
    + constructor; [|now apply IH]. intros b rest E'. apply escapes_sym in S. destruct (escapes_at _ _ _ _ S E') as (rest' & E2 & _). exact (E _ _ E2).
    + exfalso. destruct (hexval a1) as [x|] eqn:HA; [|congruence]. destruct (hexval b1) as [y|] eqn:HB; [|congruence]. eapply E. exists a1, b1, x, y. eauto.
Qed.
Lemma pctdecode_escapes s t : same_escapes s t -> pctdecode s = pctdecode t.
Proof.
  intros S. destruct (C18_total s) as (d & D & _). rewrite (proj2 (C18_decode s d) D). symmetry. apply C18_decode. now apply (decodes_escapes s).
Qed.
Lemma needs_cases es c : lower c = c \/ (needs_byte (code c) es = Ok false /\ needs_byte (code (lower c)) es = Ok false).
Proof. destruct c as [[] [] [] [] [] [] [] []]; first [left; vm_compute; reflexivity|right; split; vm_compute; reflexivity]. Qed.
Lemma needs_same es a b : same_letter a b -> a = b \/ (needs_byte (code a) es = Ok false /\ needs_byte (code b) es = Ok false).
Proof.
  unfold same_letter. intros H. destruct (needs_cases es a) as [A|[A1 A2]], (needs_cases es b) as [B|[B1 B2]].
  - left. congruence. - right. rewrite <- H, A in B2. auto. - right. rewrite H, B in A2. auto. - right. auto.
Qed.
Lemma pctencode_loop_sim es s t : same_text s t -> forall a b, same_text a b -> same_answer same_text (pctencode_loop s es a) (pctencode_loop t es b).
Proof.
  induction 1 as [|c d s t C F IH]; intros a b A; cbn [pctencode_loop]; [now constructor|]. destruct (needs_same es c d C) as [->|[-> ->]].
  - destruct (needs_byte (code d) es) as [[]| |]; cbn [bind]; [| |constructor|constructor].
    + destruct (dec2hex (N.land (N.shiftr (code d) 4) 15)) as [hi| |]; cbn [bind]; [|constructor|constructor].
      destruct (dec2hex (N.land (code d) 15)) as [lo| |]; cbn [bind]; [|constructor|constructor]. apply IH. apply text_app; [exact A|apply text_refl].
    + apply IH. apply text_app; [exact A|apply text_refl].
  - cbn [bind]. apply IH. apply text_app; [exact A|]. constructor; [exact C|constructor].
Qed.
Lemma pctencode_sim es s t : same_text s t -> same_answer same_text (pctencode s es) (pctencode t es).
Proof. intros H. apply pctencode_loop_sim; [exact H|constructor]. Qed.
