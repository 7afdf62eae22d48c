From Verif Require Import Base ModelPct SpecPct Peg.
From Coq Require Import Lia ZifyBool ZifyNat ZifyN.

(* ---- finite facts over bytes ------------------------------------------- *)
Definition bytes : list N := map N.of_nat (seq 0 256).
Lemma bytes_in n : (n < 256)%N -> In n bytes.
Proof. intros H. unfold bytes. rewrite <- (N2Nat.id n). apply in_map. apply in_seq. lia. Qed.
Lemma code_lt c : (code c < 256)%N.
Proof. unfold code. destruct c as [[] [] [] [] [] [] [] []]; vm_compute; reflexivity. Qed.
Lemma chr_code c : chr (code c) = c.
Proof. unfold chr, code. apply ascii_N_embedding. Qed.
Lemma code_chr n : (n < 256)%N -> code (chr n) = n.
Proof. intros. unfold chr, code. now apply N_ascii_embedding. Qed.
Lemma sweep (P : ascii -> Prop) (f : ascii -> bool) : (forall c, f c = true -> P c) -> forallb f all_ascii = true -> forall c, P c.
Proof. intros H E c. apply H. rewrite forallb_forall in E. apply E. apply all_ascii_in. Qed.
Lemma sweep2 (P : ascii -> N -> Prop) (f : ascii -> N -> bool) : (forall c e, f c e = true -> P c e) ->
  forallb (fun c => forallb (f c) bytes) all_ascii = true -> forall c e, (e < 256)%N -> P c e.
Proof.
  intros H E c e He. apply H. rewrite forallb_forall in E. specialize (E c (all_ascii_in c)). rewrite forallb_forall in E. apply E. now apply bytes_in.
Qed.

(* needs_byte always answers *)
Definition needs (c : ascii) (es : N) : bool := match needs_byte (code c) es with Ok b => b | _ => false end.
Lemma needs_ok c es : (es < 256)%N -> needs_byte (code c) es = Ok (needs c es).
Proof.
  revert c es. apply (sweep2 (fun c es => needs_byte (code c) es = Ok (needs c es)) (fun c es => match needs_byte (code c) es with Ok _ => true | _ => false end)).
  - unfold needs. intros c e. destruct (needs_byte (code c) e); discriminate || reflexivity.
  - vm_compute. reflexivity.
Qed.
Lemma percent_needed es : (0 < es < 256)%N -> needs percent es = true.
Proof.
  intros H. assert (G : forallb (fun e => (e =? 0)%N || needs percent e) bytes = true) by (vm_compute; reflexivity).
  rewrite forallb_forall in G. specialize (G es (bytes_in es ltac:(lia))). lia.
Qed.
Definition hex (n : N) : ascii := upper_hex n.
Lemma dec2hex_ok n : (n < 16)%N -> dec2hex n = Ok (upper_hex n).
Proof.
  intros H. assert (G : forallb (fun n => match dec2hex n with Ok c => Ascii.eqb c (upper_hex n) | _ => false end) (map N.of_nat (seq 0 16)) = true) by (vm_compute; reflexivity).
  rewrite forallb_forall in G. specialize (G n). destruct (dec2hex n) as [c| |].
  - f_equal. apply Ascii.eqb_eq. apply G. rewrite <- (N2Nat.id n). apply in_map. apply in_seq. lia.
  - discriminate G. rewrite <- (N2Nat.id n). apply in_map. apply in_seq. lia.
  - discriminate G. rewrite <- (N2Nat.id n). apply in_map. apply in_seq. lia.
Qed.
Lemma nibbles c : N.land (N.shiftr (code c) 4) 15 = (code c / 16)%N /\ N.land (code c) 15 = (code c mod 16)%N /\ (code c / 16 < 16)%N /\ (code c mod 16 < 16)%N.
Proof.
  revert c. apply (sweep _ (fun c => (N.land (N.shiftr (code c) 4) 15 =? code c / 16)%N && (N.land (code c) 15 =? code c mod 16)%N && (code c / 16 <? 16)%N && (code c mod 16 <? 16)%N)).
  - intros c H. rewrite !andb_true_iff in H. destruct H as [[[H1 H2] H3] H4]. apply N.eqb_eq in H1. apply N.eqb_eq in H2. apply N.ltb_lt in H3. apply N.ltb_lt in H4. auto.
  - vm_compute. reflexivity.
Qed.

Fixpoint enc (es : N) (s : str) : str :=
  match s with [] => [] | c :: s' => (if needs c es then escape c else [c]) ++ enc es s' end.
Lemma pctencode_loop_enc es s : (es < 256)%N -> forall out, pctencode_loop s es out = Ok (out ++ enc es s).
Proof.
  intros He. induction s as [|c s IH]; intros out; cbn [pctencode_loop enc]; [now rewrite app_nil_r|].
  rewrite needs_ok by auto. cbn [bind]. destruct (needs c es).
  - destruct (nibbles c) as (E1 & E2 & H1 & H2). rewrite E1, E2, !dec2hex_ok by auto. cbn [bind].
    rewrite IH. rewrite <- !app_assoc. reflexivity.
  - rewrite IH, <- app_assoc. reflexivity.
Qed.
Lemma pctencode_enc es s : (es < 256)%N -> pctencode s es = Ok (enc es s).
Proof. intros. unfold pctencode. now rewrite pctencode_loop_enc. Qed.
Lemma needs_str es s : (es < 256)%N -> needs_pctencode s es = Ok (existsb (fun c => needs c es) s).
Proof.
  intros He. induction s as [|c s IH]; cbn; [reflexivity|]. rewrite needs_ok by auto. cbn. destruct (needs c es); auto.
Qed.
Lemma enc_encodes es s : encodes (fun c => needs c es = true) s (enc es s).
Proof.
  induction s as [|c s IH]; cbn [enc]; [constructor|]. destruct (needs c es) eqn:E.
  - now apply enc_escape. - cbn [app]. apply enc_copy; auto. congruence.
Qed.
Lemma encodes_fun (P : ascii -> Prop) s t t' : encodes P s t -> encodes P s t' -> t = t'.
Proof.
  intros H. revert t'. induction H as [|c s t Hc H IH|c s t Hc H IH]; intros t' H'; inversion H'; subst; try tauto; f_equal; auto.
Qed.
Lemma encodes_ext (P Q : ascii -> Prop) s t : (forall c, In c s -> P c <-> Q c) -> encodes P s t -> encodes Q s t.
Proof.
  intros E H. induction H as [|c s t Hc H IH|c s t Hc H IH]; [constructor| |].
  - apply enc_escape; [apply E; [now left|auto]|]. apply IH. intros d Hd. apply E. now right.
  - apply enc_copy; [intros Hn; apply Hc; apply E; [now left|auto]|]. apply IH. intros d Hd. apply E. now right.
Qed.

(* ---- decoding ------------------------------------------------------------ *)
Definition ishex (c : ascii) : bool := match hexval c with Some _ => true | None => false end.
Lemma hex2dec_spec c : hex2dec c = match hexval c with Some n => n | None => 16%N end /\ (forall n, hexval c = Some n -> (n < 16)%N).
Proof.
  revert c. apply (sweep _ (fun c => (hex2dec c =? match hexval c with Some n => n | None => 16 end)%N && match hexval c with Some n => (n <? 16)%N | None => true end)).
  - intros c H. rewrite andb_true_iff in H. destruct H as [H1 H2]. apply N.eqb_eq in H1. split; auto. intros n Hn. rewrite Hn in H2. now apply N.ltb_lt.
  - vm_compute. reflexivity.
Qed.
Lemma small_in n : (n < 17)%N -> In n (map N.of_nat (seq 0 17)).
Proof. intros H. rewrite <- (N2Nat.id n). apply in_map. apply in_seq. lia. Qed.
Lemma either_bad_spec x y : (x < 17)%N -> (y < 17)%N -> either_bad x y = (x =? 16)%N || (y =? 16)%N.
Proof.
  intros Hx Hy. assert (G : forallb (fun x => forallb (fun y => Bool.eqb (either_bad x y) ((x =? 16)%N || (y =? 16)%N)) (map N.of_nat (seq 0 17))) (map N.of_nat (seq 0 17)) = true) by (vm_compute; reflexivity).
  rewrite forallb_forall in G. specialize (G x (small_in x Hx)). rewrite forallb_forall in G. specialize (G y (small_in y Hy)). now apply eqb_prop.
Qed.
Lemma combine x y : (x < 16)%N -> (y < 16)%N -> N.lor (N.land (N.shiftl x 4) 255) y = (16 * x + y)%N.
Proof.
  intros Hx Hy. assert (G : forallb (fun x => forallb (fun y => (16 <=? x)%N || (16 <=? y)%N || (N.lor (N.land (N.shiftl x 4) 255) y =? 16 * x + y)%N) (map N.of_nat (seq 0 17))) (map N.of_nat (seq 0 17)) = true) by (vm_compute; reflexivity).
  rewrite forallb_forall in G. specialize (G x (small_in x ltac:(lia))). rewrite forallb_forall in G. specialize (G y (small_in y ltac:(lia))). lia.
Qed.
Lemma hexes_bad h l : either_bad (hex2dec h) (hex2dec l) = negb (ishex h && ishex l).
Proof.
  destruct (hex2dec_spec h) as [E1 H1], (hex2dec_spec l) as [E2 H2]. rewrite E1, E2. unfold ishex.
  destruct (hexval h) as [x|], (hexval l) as [y|]; rewrite either_bad_spec; try lia;
   try specialize (H1 _ eq_refl); try specialize (H2 _ eq_refl); try lia; cbn; lia.
Qed.
Definition esc (s : str) : bool :=
  match s with c :: h :: l :: _ => Ascii.eqb c percent && ishex h && ishex l | _ => false end.
Lemma esc_iff s : esc s = true <-> exists b rest, escaped_at s b rest.
Proof.
  split.
  - destruct s as [|c [|h [|l r]]]; try discriminate. cbn. unfold ishex. intros H. rewrite !andb_true_iff in H. destruct H as [[H1 H2] H3].
    apply Ascii.eqb_eq in H1. subst c. destruct (hexval h) as [x|] eqn:Eh; [|discriminate]. destruct (hexval l) as [y|] eqn:El; [|discriminate].
    exists (chr (16 * x + y)), r. exists h, l, x, y. auto.
  - intros (b & rest & h & l & x & y & -> & E1 & E2 & _). cbn. unfold ishex. now rewrite E1, E2.
Qed.
Lemma step_escape s b rest : escaped_at s b rest -> deref s = Ok b /\ increment s = Ok rest.
Proof.
  intros (h & l & x & y & -> & E1 & E2 & ->). destruct (hex2dec_spec h) as [D1 H1], (hex2dec_spec l) as [D2 H2]. rewrite E1 in D1. rewrite E2 in D2.
  unfold deref, increment. cbn [nth length skipn]. rewrite hexes_bad. unfold ishex. rewrite E1, E2.
  assert (L1 : (N.of_nat (S (S (S (length rest)))) <? 3)%N = false) by lia. assert (L2 : (3 <=? N.of_nat (S (S (S (length rest)))))%N = true) by lia.
  rewrite L1, L2. cbn [negb andb orb Ascii.eqb Bool.eqb]. rewrite D1, D2, combine; auto.
Qed.
Lemma step_copy c s : esc (c :: s) = false -> deref (c :: s) = Ok c /\ increment (c :: s) = Ok s.
Proof.
  intros H. unfold deref, increment. destruct (Ascii.eqb c "%") eqn:Ec; cbn [negb orb]; [|rewrite andb_false_r; auto].
  destruct s as [|h [|l r]]; [auto|auto|]. cbn [nth length]. rewrite hexes_bad. cbn in H. unfold percent in H. rewrite Ec in H. cbn [andb] in H. rewrite H.
  cbn [negb]. rewrite andb_false_r. destruct (_ <? 3)%N; auto.
Qed.
Lemma decode_loop_spec fuel : forall s out, length s <= fuel -> exists t, decode_loop fuel s out = Ok (out ++ t) /\ decodes s t.
Proof.
  induction fuel as [|fuel IH]; intros s out Hl.
  - destruct s; [|cbn in Hl; lia]. exists []. cbn. rewrite app_nil_r. split; [auto|constructor].
  - destruct s as [|c s]. { exists []. cbn. rewrite app_nil_r. split; [auto|constructor]. }
    cbn [decode_loop]. destruct (esc (c :: s)) eqn:E.
    + apply esc_iff in E. destruct E as (b & rest & E). destruct (step_escape _ _ _ E) as [-> ->]. cbn [bind].
      destruct (IH rest (out ++ [b])) as (t & Ht & Hd). { destruct E as (h & l & x & y & E & _). inversion E; subst. cbn in Hl. lia. }
      exists (b :: t). rewrite Ht, <- app_assoc. split; [reflexivity|]. eapply dec_escape; eauto.
    + destruct (step_copy _ _ E) as [-> ->]. cbn [bind].
      destruct (IH s (out ++ [c])) as (t & Ht & Hd). { cbn in Hl. lia. }
      exists (c :: t). rewrite Ht, <- app_assoc. split; [reflexivity|]. apply dec_copy; auto.
      intros b rest Hb. assert (esc (c :: s) = true) by (apply esc_iff; eauto). congruence.
Qed.
Lemma pctdecode_ok s : exists t, pctdecode s = Ok t /\ decodes s t.
Proof. unfold pctdecode. destruct (decode_loop_spec (length s) s [] (le_n _)) as (t & H1 & H2). exists t. auto. Qed.
Lemma escaped_at_fun s b r b' r' : escaped_at s b r -> escaped_at s b' r' -> b = b' /\ r = r'.
Proof. intros (h & l & x & y & -> & E1 & E2 & ->) (h' & l' & x' & y' & E & E3 & E4 & ->). inversion E; subst. assert (x = x') by congruence. assert (y = y') by congruence. subst. auto. Qed.
Lemma decodes_fun s t : decodes s t -> forall t', decodes s t' -> t = t'.
Proof.
  assert (NE : forall b r, ~ escaped_at [] b r) by (intros b r (? & ? & ? & ? & E & _); discriminate).
  induction 1 as [|s b rest t He H IH|c s t Hn H IH]; intros t' H'.
  - inversion H' as [|s2 b2 r2 t2 He2 H2|]; subst; auto. now apply NE in He2.
  - inversion H' as [|s2 b2 r2 t2 He2 H2|c2 s2 t2 Hn2 H2]; subst.
    + now apply NE in He.
    + destruct (escaped_at_fun _ _ _ _ _ He He2) as [-> ->]. f_equal; auto.
    + exfalso. eapply Hn2; eauto.
  - inversion H' as [|s2 b2 r2 t2 He2 H2|c2 s2 t2 Hn2 H2]; subst.
    + exfalso. eapply Hn; eauto.
    + f_equal; auto.
Qed.
Lemma pctdecode_iff s t : pctdecode s = Ok t <-> decodes s t.
Proof.
  destruct (pctdecode_ok s) as (t' & E & H). split; intros G.
  - congruence. - now rewrite (decodes_fun _ _ G _ H).
Qed.
Lemma decodes_length s t : decodes s t -> length t <= length s /\ length s <= 3 * length t.
Proof.
  induction 1 as [|s b rest t He H IH|c s t Hn H IH]; cbn; try lia. destruct He as (? & ? & ? & ? & -> & _). cbn. lia.
Qed.
Lemma decodes_plain s : ~ In percent s -> decodes s s.
Proof.
  induction s as [|c s IH]; intros H; constructor.
  - intros b rest (? & ? & ? & ? & E & _). inversion E; subst. apply H. now left.
  - apply IH. intros Hs. apply H. now right.
Qed.
Lemma hexval_upper n : (n < 16)%N -> hexval (upper_hex n) = Some n.
Proof.
  intros H. assert (G : forallb (fun n => match hexval (upper_hex n) with Some m => (m =? n)%N | None => false end) (map N.of_nat (seq 0 16)) = true) by (vm_compute; reflexivity).
  rewrite forallb_forall in G. specialize (G n). destruct (hexval (upper_hex n)) as [m|].
  - f_equal. apply N.eqb_eq, G. rewrite <- (N2Nat.id n). apply in_map, in_seq. lia.
  - discriminate G. rewrite <- (N2Nat.id n). apply in_map, in_seq. lia.
Qed.
Lemma escape_escaped c rest : escaped_at (escape c ++ rest) c rest.
Proof.
  destruct (nibbles c) as (_ & _ & H1 & H2). exists (upper_hex (code c / 16)), (upper_hex (code c mod 16)), (code c / 16)%N, (code c mod 16)%N.
  split; [reflexivity|]. split; [now apply hexval_upper|]. split; [now apply hexval_upper|].
  rewrite <- (chr_code c) at 1. f_equal. apply N.div_mod'.
Qed.
Lemma decodes_encoded (P : ascii -> Prop) s e rest t : P percent -> encodes P s e -> decodes rest t -> decodes (e ++ rest) (s ++ t).
Proof.
  intros Hp He Hr. induction He as [|c s e Hc He IH|c s e Hc He IH]; cbn [app]; auto.
  - eapply dec_escape; [|exact IH]. apply (escape_escaped c (e ++ rest)).
  - apply dec_copy; auto. intros b r (? & ? & ? & ? & E & _). inversion E; subst. apply Hc. exact Hp.
Qed.
