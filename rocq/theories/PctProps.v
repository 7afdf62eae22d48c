(* Proofs of the statements in PropPct.v. *)
From Verif Require Import Base ModelPct SpecPct Peg PegUri PegLang UriLang UriProps PctFacts.
From Verif Require Rfc3986.
Import Rfc3986 (L, abnf, Rng, Lit, Cat, Alt, Rep).
From Coq Require Import Lia ZifyBool ZifyNat ZifyN.

Lemma c15 s es : (0 < es < 256)%N -> exists e, pctencode s es = Ok e /\ pctdecode e = Ok s
  /\ forall t d, pctdecode t = Ok d -> pctdecode (e ++ t) = Ok (s ++ d).
Proof.
  intros H. exists (enc es s). split; [apply pctencode_enc; lia|].
  assert (D : forall t d, decodes t d -> decodes (enc es s ++ t) (s ++ d)).
  { intros t d Ht. eapply decodes_encoded; [|apply (enc_encodes es)|exact Ht]. cbn. apply percent_needed; auto. }
  split. - apply pctdecode_iff. specialize (D [] [] dec_nil). now rewrite !app_nil_r in D.
  - intros t d Ht. apply pctdecode_iff. apply D. now apply pctdecode_iff.
Qed.
Lemma c15_injective s s' es e : (0 < es < 256)%N -> pctencode s es = Ok e -> pctencode s' es = Ok e -> s = s'.
Proof.
  intros H E E'. destruct (c15 s es H) as (e1 & F1 & F2 & _). destruct (c15 s' es H) as (e2 & G1 & G2 & _).
  assert (e = e1) by congruence. assert (e = e2) by congruence. subst. congruence.
Qed.
Lemma c15_refuted : exists s e, pctencode s es_none = Ok e /\ pctdecode e <> Ok s.
Proof. exists (ss "%41"), (ss "%41"). split; [vm_compute; reflexivity|]. vm_compute. discriminate. Qed.

Definition member es (c : ascii) : Prop := needs_byte (code c) es = Ok true.
Lemma member_needs es c : (es < 256)%N -> member es c <-> needs c es = true.
Proof. intros H. unfold member. rewrite needs_ok by auto. split; congruence. Qed.
Lemma c16 s es : (es < 256)%N -> exists e, pctencode s es = Ok e
  /\ encodes (fun c => needs_byte (code c) es = Ok true) s e
  /\ (forall e', encodes (fun c => needs_byte (code c) es = Ok true) s e' -> e' = e).
Proof.
  intros H. exists (enc es s). split; [now apply pctencode_enc|].
  assert (E : encodes (fun c => needs_byte (code c) es = Ok true) s (enc es s)).
  { eapply encodes_ext; [|apply (enc_encodes es)]. intros c _. symmetry. now apply member_needs. }
  split; auto. intros e' He'. eapply encodes_fun; eauto.
Qed.
Lemma enc_id es s : existsb (fun c => needs c es) s = false -> enc es s = s.
Proof. induction s as [|c s IH]; cbn; auto. destruct (needs c es); [discriminate|]. intros H. cbn. now rewrite IH. Qed.
Fixpoint count (f : ascii -> bool) (s : str) : nat := match s with [] => 0 | c :: s' => (if f c then 1 else 0) + count f s' end.
Lemma count_filter f s : count f s = length (filter f s).
Proof. induction s as [|c s IH]; cbn; auto. destruct (f c); cbn; lia. Qed.
Lemma enc_length es s : length (enc es s) = length s + 2 * count (fun c => needs c es) s.
Proof. induction s as [|c s IH]; auto. cbn [enc count length]. rewrite app_length, IH. destruct (needs c es); cbn [escape length]; lia. Qed.
Lemma count_zero f s : count f s = 0 <-> existsb f s = false.
Proof. induction s as [|c s IH]; cbn; [tauto|]. destruct (f c); cbn; [split; [lia|discriminate]|tauto]. Qed.
Definition in_set es (c : ascii) : bool := match needs_byte (code c) es with Ok true => true | _ => false end.
Lemma in_set_needs es c : (es < 256)%N -> in_set es c = needs c es.
Proof. intros H. unfold in_set. rewrite needs_ok by auto. now destruct (needs c es). Qed.
Lemma c16_length s es : (es < 256)%N -> exists e b, pctencode s es = Ok e /\ needs_pctencode s es = Ok b
  /\ length e = length s + 2 * length (filter (fun c => match needs_byte (code c) es with Ok true => true | _ => false end) s)
  /\ (b = true <-> exists c, In c s /\ needs_byte (code c) es = Ok true)
  /\ (b = false <-> e = s).
Proof.
  intros H. exists (enc es s), (existsb (fun c => needs c es) s). split; [now apply pctencode_enc|]. split; [now apply needs_str|].
  split.
  - rewrite enc_length, count_filter. f_equal. f_equal. f_equal. apply filter_ext. intros c. symmetry. apply (in_set_needs es c H).
  - split.
    + rewrite existsb_exists. split; intros (c & Hc & E); exists c; (split; [auto|]); apply (member_needs es c H); auto.
    + split; [apply enc_id|]. intros E. apply count_zero. apply (f_equal (@length ascii)) in E. rewrite enc_length in E. lia.
Qed.
(* no byte of the set is left, apart from the '%' of the escapes *)
Lemma upper_hex_clear es n : (es < 256)%N -> (n < 16)%N -> needs (upper_hex n) es = false.
Proof.
  intros He Hn. assert (G : forallb (fun n => forallb (fun e => negb (needs (upper_hex n) e)) bytes) (map N.of_nat (seq 0 16)) = true) by (vm_compute; reflexivity).
  rewrite forallb_forall in G. specialize (G n). rewrite forallb_forall in G. apply negb_true_iff. apply G; [|now apply bytes_in].
  rewrite <- (N2Nat.id n). apply in_map, in_seq. lia.
Qed.
Lemma c16_clear s es e c : (es < 256)%N -> pctencode s es = Ok e -> In c e -> needs_byte (code c) es = Ok true -> c = percent.
Proof.
  intros H E Hc Hn. rewrite pctencode_enc in E by auto. assert (enc es s = e) by congruence. subst e. clear E. apply (member_needs es c H) in Hn.
  induction s as [|d s IH]; [destruct Hc|]. cbn [enc] in Hc. apply in_app_or in Hc. destruct Hc as [Hc|Hc]; auto.
  destruct (needs d es) eqn:Ed; [|destruct Hc as [->|[]]; congruence].
  destruct (nibbles d) as (_ & _ & H1 & H2). destruct Hc as [<-|[<-|[<-|[]]]]; auto; rewrite upper_hex_clear in Hn; auto; discriminate.
Qed.

(* ---- C17 ---------------------------------------------------------------- *)
Definition ob (l : string) (c : ascii) : bool := existsb (Ascii.eqb c) (ss l).
Lemma ob_iff l c : ob l c = true <-> one_of l c.
Proof. unfold ob, one_of. rewrite existsb_exists. split; [intros (x & H & E); apply Ascii.eqb_eq in E; now subst|intros H; exists c; split; auto; apply Ascii.eqb_refl]. Qed.
Definition c0b (c : ascii) : bool := (code c <=? 0x1F)%N || (0x7E <? code c)%N.
Lemma c0_iff c : c0b c = true <-> c0_control_set c.
Proof. unfold c0b, c0_control_set. lia. Qed.
Lemma eqb_iff a b : Ascii.eqb a b = true <-> a = b. Proof. apply Ascii.eqb_eq. Qed.
Definition fragb c := c0b c || (ob " <>" c || (Ascii.eqb c dquote || Ascii.eqb c backquote)).
Definition queryb c := c0b c || (ob " #<>" c || Ascii.eqb c dquote).
Definition squeryb c := queryb c || ob "'" c.
Definition pathb c := queryb c || (ob "?{}" c || Ascii.eqb c backquote).
Definition userb c := pathb c || ob "/:;=@[\]^|" c.
Definition compb c := userb c || ob "$%&+," c.
Definition formb c := compb c || ob "!'()~" c.
Ltac bi := rewrite ?orb_true_iff, ?ob_iff, ?c0_iff, ?eqb_iff; tauto.
Lemma frag_iff c : fragb c = true <-> fragment_set c. Proof. unfold fragb, fragment_set. bi. Qed.
Lemma query_iff c : queryb c = true <-> query_set c. Proof. unfold queryb, query_set. bi. Qed.
Lemma squery_iff c : squeryb c = true <-> special_query_set c. Proof. unfold squeryb, special_query_set. rewrite orb_true_iff, query_iff, ob_iff. tauto. Qed.
Lemma path_iff c : pathb c = true <-> path_set c. Proof. unfold pathb, path_set. rewrite !orb_true_iff, query_iff, ob_iff, eqb_iff. tauto. Qed.
Lemma user_iff c : userb c = true <-> userinfo_set c. Proof. unfold userb, userinfo_set. rewrite !orb_true_iff, path_iff, ob_iff. tauto. Qed.
Lemma comp_iff c : compb c = true <-> component_set c. Proof. unfold compb, component_set. rewrite !orb_true_iff, user_iff, ob_iff. tauto. Qed.
Lemma form_iff c : formb c = true <-> form_urlencoded_set c. Proof. unfold formb, form_urlencoded_set. rewrite !orb_true_iff, comp_iff, ob_iff. tauto. Qed.

Lemma set_sweep es (f : ascii -> bool) (P : ascii -> Prop) : (es < 256)%N -> (forall c, f c = true <-> P c) ->
  forallb (fun c => Bool.eqb (needs c es) (f c)) all_ascii = true -> forall c, needs_byte (code c) es = Ok true <-> P c.
Proof.
  intros He Hf G c. rewrite <- Hf. rewrite forallb_forall in G. specialize (G c (all_ascii_in c)). apply eqb_prop in G.
  rewrite needs_ok by auto. rewrite G. split; congruence.
Qed.
Lemma c17 c :
  (needs_byte (code c) es_fragment = Ok true <-> (fragment_set c /\ c <> backquote) \/ c = percent)
  /\ (needs_byte (code c) es_query = Ok true <-> query_set c \/ c = percent)
  /\ (needs_byte (code c) es_special_query = Ok true <-> special_query_set c \/ c = percent)
  /\ (needs_byte (code c) es_path = Ok true <-> path_set c \/ c = percent)
  /\ (needs_byte (code c) es_userinfo = Ok true <-> userinfo_set c \/ c = percent)
  /\ (needs_byte (code c) es_component = Ok true <-> component_set c)
  /\ (needs_byte (code c) es_form_urlencoded = Ok true <-> form_urlencoded_set c)
  /\ (needs_byte (code c) es_none = Ok true <-> c0_control_set c \/ c = " "%char).
Proof.
  split. { revert c. apply (set_sweep es_fragment (fun c => (fragb c && negb (Ascii.eqb c backquote)) || Ascii.eqb c percent)); [reflexivity| |vm_compute; reflexivity].
    intros c. rewrite orb_true_iff, andb_true_iff, negb_true_iff, frag_iff, eqb_iff. rewrite <- not_true_iff_false, eqb_iff. tauto. }
  split. { revert c. apply (set_sweep es_query (fun c => queryb c || Ascii.eqb c percent)); [reflexivity| |vm_compute; reflexivity]. intros c. now rewrite orb_true_iff, query_iff, eqb_iff. }
  split. { revert c. apply (set_sweep es_special_query (fun c => squeryb c || Ascii.eqb c percent)); [reflexivity| |vm_compute; reflexivity]. intros c. now rewrite orb_true_iff, squery_iff, eqb_iff. }
  split. { revert c. apply (set_sweep es_path (fun c => pathb c || Ascii.eqb c percent)); [reflexivity| |vm_compute; reflexivity]. intros c. now rewrite orb_true_iff, path_iff, eqb_iff. }
  split. { revert c. apply (set_sweep es_userinfo (fun c => userb c || Ascii.eqb c percent)); [reflexivity| |vm_compute; reflexivity]. intros c. now rewrite orb_true_iff, user_iff, eqb_iff. }
  split. { revert c. apply (set_sweep es_component compb); [reflexivity|apply comp_iff|vm_compute; reflexivity]. }
  split. { revert c. apply (set_sweep es_form_urlencoded formb); [reflexivity|apply form_iff|vm_compute; reflexivity]. }
  revert c. apply (set_sweep es_none (fun c => c0b c || Ascii.eqb c " ")); [reflexivity| |vm_compute; reflexivity]. intros c. now rewrite orb_true_iff, c0_iff, eqb_iff.
Qed.
(* unions of sets *)
Lemma c17_union c es : (es < 256)%N -> es <> 0%N ->
  (needs_byte (code c) es = Ok true <->
   exists k, (k < 8)%N /\ N.testbit es k = true /\ needs_byte (code c) (2 ^ k) = Ok true).
Proof.
  intros He H0.
  assert (G : forallb (fun c => forallb (fun e => (e =? 0)%N || Bool.eqb (needs c e) (existsb (fun k => N.testbit e k && needs c (2 ^ k)) (map N.of_nat (seq 0 8)))) bytes) all_ascii = true) by (vm_compute; reflexivity).
  rewrite forallb_forall in G. specialize (G c (all_ascii_in c)). rewrite forallb_forall in G. specialize (G es (bytes_in es He)).
  apply orb_true_iff in G. destruct G as [G|G]; [apply N.eqb_eq in G; congruence|]. apply eqb_prop in G.
  assert (B : forall k, (k < 8)%N -> (2 ^ k < 256)%N).
  { intros k Hk. change 256%N with (2 ^ 8)%N. apply N.pow_lt_mono_r; lia. }
  rewrite needs_ok by auto. split.
  - intros E. assert (E' : needs c es = true) by congruence. rewrite G in E'. apply existsb_exists in E'. destruct E' as (k & Hk & E').
    apply in_map_iff in Hk. destruct Hk as (n & <- & Hn). apply in_seq in Hn. apply andb_true_iff in E'. destruct E' as [E1 E2].
    exists (N.of_nat n). split; [lia|]. split; auto. rewrite needs_ok by (apply B; lia). now rewrite E2.
  - intros (k & Hk & Ht & E). rewrite needs_ok in E by (apply B; lia). rewrite G. f_equal. apply existsb_exists. exists k. split.
    + rewrite <- (N2Nat.id k). apply in_map, in_seq. lia.
    + rewrite Ht. cbn. congruence.
Qed.
Lemma c17_refuted : fragment_set backquote /\ needs_byte (code backquote) es_fragment = Ok false.
Proof. split; [|vm_compute; reflexivity]. unfold fragment_set. tauto. Qed.

(* ---- C18 ---------------------------------------------------------------- *)
Lemma c18_function s : exists t, decodes s t /\ forall t', decodes s t' -> t' = t.
Proof. destruct (pctdecode_ok s) as (t & _ & H). exists t. split; auto. intros. eapply decodes_fun; eauto. Qed.
Lemma needs_pctdecode_iff s : needs_pctdecode s = true <-> In percent s.
Proof. unfold needs_pctdecode. rewrite existsb_exists. split; [intros (x & H & E); apply Ascii.eqb_eq in E; now subst|intros H; exists percent; auto]. Qed.
Lemma c18_plain s : needs_pctdecode s = false -> pctdecode s = Ok s.
Proof. intros H. apply pctdecode_iff, decodes_plain. intros Hp. apply needs_pctdecode_iff in Hp. congruence. Qed.
Lemma c18_size s t : pctdecode s = Ok t -> length t <= length s <= 3 * length t.
Proof. intros H. apply pctdecode_iff in H. now apply decodes_length in H. Qed.
Lemma c18_iter_move_refuted : exists s, deref s = Ok "A"%char /\ iter_move s = Ok percent.
Proof. exists (ss "%41"). split; vm_compute; reflexivity. Qed.

(* ---- C34: encoded text is in the RFC languages --------------------------- *)
Lemma escape_pct c : L Rfc3986.pct_encoded (escape c).
Proof.
  apply L_pct. destruct (nibbles c) as (_ & _ & H1 & H2). exists (upper_hex (code c / 16)), (upper_hex (code c mod 16)).
  split; [reflexivity|].
  assert (G : forallb (fun n => b_hex (upper_hex n)) (map N.of_nat (seq 0 16)) = true) by (vm_compute; reflexivity).
  rewrite forallb_forall in G. split; apply G; rewrite <- (N2Nat.id (_ / _)) || rewrite <- (N2Nat.id (_ mod _)); apply in_map, in_seq; lia.
Qed.
Lemma enc_lang g f es s : (forall m, L g m <-> elemL f m) -> (forall c, In c s -> needs c es = false -> f c = true) -> L (Rep 0 None g) (enc es s).
Proof.
  intros Hg Hf. exists (map (fun c => if needs c es then escape c else [c]) s). split.
  - clear. induction s as [|c s IH]; cbn; auto. now rewrite IH.
  - split; [|split; [lia|exact I]]. apply Forall_forall. intros x Hx. apply in_map_iff in Hx. destruct Hx as (c & <- & Hc). apply Hg.
    destruct (needs c es) eqn:E; [right; apply L_pct, escape_pct|left]. exists c. auto.
Qed.
Definition clears (es : N) (f : ascii -> bool) : bool := forallb (fun c => needs c es || f c) all_ascii.
Lemma enc_lang_all g f es s : (forall m, L g m <-> elemL f m) -> clears es f = true -> L (Rep 0 None g) (enc es s).
Proof.
  intros Hg Hc. apply (enc_lang g f); auto. intros c _ E. unfold clears in Hc. rewrite forallb_forall in Hc. specialize (Hc c (all_ascii_in c)). rewrite E in Hc. exact Hc.
Qed.
Lemma c34 es s e : es = es_component \/ es = es_userinfo \/ es = es_form_urlencoded -> pctencode s es = Ok e ->
  L Rfc3986.segment e /\ L Rfc3986.query e /\ L Rfc3986.fragment e /\ L Rfc3986.userinfo e /\ L Rfc3986.reg_name e.
Proof.
  intros Hes E. assert (He : (es < 256)%N) by (destruct Hes as [->|[->| ->]]; vm_compute; reflexivity).
  rewrite pctencode_enc in E by auto. assert (enc es s = e) by congruence. subst e.
  assert (C : clears es f_r = true) by (destruct Hes as [->|[->| ->]]; vm_compute; reflexivity).
  assert (C' : forall f, (forall c, f_r c = true -> f c = true) -> clears es f = true).
  { intros f Hf. unfold clears in *. rewrite forallb_forall in *. intros c Hc. specialize (C c Hc). apply orb_true_iff in C. apply orb_true_iff. destruct C; auto. }
  split; [apply (enc_lang_all _ f_p); [apply e_pchar|apply C'; intros c Hc; unfold f_p; now rewrite Hc]|].
  split; [apply (enc_lang_all _ f_q); [apply e_qchar|apply C'; intros c Hc; unfold f_q, f_p; now rewrite Hc]|].
  split; [apply (enc_lang_all _ f_q); [apply e_qchar|apply C'; intros c Hc; unfold f_q, f_p; now rewrite Hc]|].
  split; [apply (enc_lang_all _ f_u); [apply e_uchar|apply C'; intros c Hc; unfold f_u; now rewrite Hc]|].
  apply (enc_lang_all _ f_r); [apply e_rchar|exact C].
Qed.
(* re-encoding text that is already in the language keeps it there, for every set that encodes '%' *)
Lemma elem_all g f es s : (forall m, L g m <-> elemL f m) -> (0 < es < 256)%N -> (forall c, b_hex c = true -> f c = true) ->
  L (Rep 0 None g) s -> L (Rep 0 None g) (enc es s).
Proof.
  intros Hg He Hh (l & -> & Hl & _). apply (enc_lang g f); auto. intros c Hc E.
  apply in_concat in Hc. destruct Hc as (x & Hx & Hc). rewrite Forall_forall in Hl. apply Hl, Hg in Hx.
  destruct Hx as [(d & -> & Hd)|(h1 & h2 & -> & H1 & H2)].
  - destruct Hc as [<-|[]]. exact Hd.
  - destruct Hc as [<-|[<-|[<-|[]]]]; auto. pose proof (percent_needed es He). unfold percent in *. congruence.
Qed.
Lemma hex_r c : b_hex c = true -> f_r c = true.
Proof. revert c. apply (sweep (fun c => b_hex c = true -> f_r c = true) (fun c => negb (b_hex c) || f_r c)); [intros c H H2; rewrite H2 in H; exact H|vm_compute; reflexivity]. Qed.
Lemma c34_keeps es s e : (0 < es < 256)%N -> pctencode s es = Ok e ->
  (L Rfc3986.segment s -> L Rfc3986.segment e) /\ (L Rfc3986.query s -> L Rfc3986.query e)
  /\ (L Rfc3986.fragment s -> L Rfc3986.fragment e) /\ (L Rfc3986.userinfo s -> L Rfc3986.userinfo e)
  /\ (L Rfc3986.reg_name s -> L Rfc3986.reg_name e).
Proof.
  intros He E. rewrite pctencode_enc in E by lia. assert (enc es s = e) by congruence. subst e. pose proof hex_r as H.
  split; [apply (elem_all _ f_p); auto; [apply e_pchar|intros c Hc; unfold f_p; now rewrite H]|].
  split; [apply (elem_all _ f_q); auto; [apply e_qchar|intros c Hc; unfold f_q, f_p; now rewrite H]|].
  split; [apply (elem_all _ f_q); auto; [apply e_qchar|intros c Hc; unfold f_q, f_p; now rewrite H]|].
  split; [apply (elem_all _ f_u); auto; [apply e_uchar|intros c Hc; unfold f_u; now rewrite H]|].
  apply (elem_all _ f_r); auto. apply e_rchar.
Qed.
Lemma needs_total c es : (es < 256)%N -> exists b, needs_byte (code c) es = Ok b.
Proof. intros H. rewrite needs_ok by auto. eauto. Qed.
Lemma not_rep g f s : (forall m, L g m <-> elemL f m) -> existsb (fun c => negb (f c) && negb (Ascii.eqb c percent) && negb (b_hex c)) s = true -> ~ L (Rep 0 None g) s.
Proof.
  intros Hg E (l & -> & Hl & _). apply existsb_exists in E. destruct E as (c & Hc & E). apply in_concat in Hc. destruct Hc as (x & Hx & Hc).
  rewrite Forall_forall in Hl. apply Hl, Hg in Hx. rewrite !andb_true_iff, !negb_true_iff in E. destruct E as [[E1 E2] E3].
  destruct Hx as [(d & -> & Hd)|(h1 & h2 & -> & H1 & H2)].
  - destruct Hc as [<-|[]]. congruence.
  - destruct Hc as [<-|[<-|[<-|[]]]]; [discriminate|congruence|congruence].
Qed.
Lemma c34_refuted : exists s, pctencode s es_path = Ok s /\ ~ L Rfc3986.segment s
  /\ pctencode s es_query = Ok s /\ ~ L Rfc3986.query s /\ pctencode s es_fragment = Ok s /\ ~ L Rfc3986.fragment s.
Proof.
  exists (ss "["). split; [vm_compute; reflexivity|]. split; [apply (not_rep _ f_p); [apply e_pchar|vm_compute; reflexivity]|].
  split; [vm_compute; reflexivity|]. split; [apply (not_rep _ f_q); [apply e_qchar|vm_compute; reflexivity]|].
  split; [vm_compute; reflexivity|]. apply (not_rep _ f_q); [apply e_qchar|vm_compute; reflexivity].
Qed.
