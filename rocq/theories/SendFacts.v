(* encode -> compose -> split -> decode. *)
From Verif Require Import Base UriLang UriProps PctFacts PctProps PunyLoop PunyProps IcuUtf8 IcuRead8 IcuEnc IcuProps PartsHost PartsDec PartsRun PartsEnc PartsDecode PartsProps.
From Verif Require Import Base ModelUri ModelParts SpecPct SpecPuny SpecIcu SpecStore SpecViews Rfc3986 SpecHost SpecParts SpecUri SpecSend.
From Verif Require ModelPct ModelPuny PropSplitFacts Peg PegUri PegLang.
Local Open Scope list_scope.

(* --- single components --- *)
Lemma enc_lang_iff g f es s : (forall m, L g m <-> PegLang.elemL f m) -> (0 < es < 256)%N -> (forall c, PegUri.b_hex c = true -> f c = true) ->
  (L (Rep 0 None g) (enc es s) <-> forall c, In c s -> needs c es = true \/ f c = true).
Proof.
  intros Hg He Hh. split.
  - intros H c Hc. destruct (needs c es) eqn:En; [auto|]. right. destruct (f c) eqn:Ef; [reflexivity|]. exfalso.
    revert H. apply (not_rep g f); [exact Hg|]. apply existsb_exists. exists c. split.
    + clear - Hc En. induction s as [|d s IH]; [destruct Hc|]. cbn [enc]. apply in_or_app. destruct Hc as [->|Hc]; [left; rewrite En; left; reflexivity|right; auto].
    + rewrite Ef. cbn. apply andb_true_intro. split; apply negb_true_iff.
      * apply Ascii.eqb_neq. intros ->. pose proof (percent_needed es He). congruence.
      * destruct (PegUri.b_hex c) eqn:Eh; [|reflexivity]. apply Hh in Eh. congruence.
  - intros H. apply (enc_lang g f); [exact Hg|]. intros c Hc En. destruct (H c Hc); congruence.
Qed.
Definition wob (l : str) (c : ascii) : bool := negb (existsb (Ascii.eqb c) l).
Lemma wob_iff l c : wob l c = true <-> ~ In c l.
Proof.
  unfold wob. rewrite negb_true_iff, <- not_true_iff_false, existsb_exists. split; intros H K; apply H.
  - exists c. split; [exact K|apply Ascii.eqb_refl]. - destruct K as (x & K & E). apply Ascii.eqb_eq in E. now subst.
Qed.
Lemma set_lang g f es l s : (forall m, L g m <-> PegLang.elemL f m) -> (0 < es < 256)%N -> (forall c, PegUri.b_hex c = true -> f c = true) ->
  forallb (fun c => Bool.eqb (needs c es || f c) (wob l c)) Peg.all_ascii = true -> (L (Rep 0 None g) (enc es s) <-> without l s).
Proof.
  intros Hg He Hh SW. rewrite (enc_lang_iff g f es s Hg He Hh). unfold without. split; intros H c Hc; specialize (H c Hc); pose proof (Peg.sweep _ SW c) as X; cbv beta in X; apply eqb_prop in X.
  - apply wob_iff. rewrite <- X. apply orb_true_iff. exact H.
  - apply orb_true_iff. rewrite X. apply wob_iff. exact H.
Qed.
Lemma not_in_lang_escape g s e : may_use g percent = false -> L g e -> encodes (fun c => c0_control_set c \/ c = " "%char) s e -> e = s.
Proof.
  intros M H E. apply uses in H. induction E as [|c s t Hc _ IH|c s t Hc _ IH]; [reflexivity| |].
  - unfold escape in H. inversion H. unfold percent in M. congruence.
  - inversion H; subst. f_equal. auto.
Qed.
Lemma component_iff f s e : f <> Host -> encoded f s e -> (L (rule_of f) e <-> encodable f s).
Proof.
  intros N E. pose proof (encoded_enc f s e N E) as P. rewrite pctencode_enc in P by apply es_small. injection P as P.
  assert (HP : forall c, PegUri.b_hex c = true -> f_p c = true) by (intros c Hc; unfold f_p; now rewrite (hex_r c Hc)).
  assert (HQ : forall c, PegUri.b_hex c = true -> f_q c = true) by (intros c Hc; unfold f_q; now rewrite (HP c Hc)).
  destruct f; try contradiction; cbn [rule_of encodable encoded] in *.
  - split.
    + intros H. rewrite <- (not_in_lang_escape scheme s e eq_refl H E). exact H.
    + intros H. rewrite (tame_same _ s e (fun c T => proj1 (tame_spec c T)) (scheme_tame s H) E). exact H.
  - split; [auto|]. intros _. refine (proj1 (proj2 (proj2 (proj2 (c34 (es_of Userinfo) s e _ _))))); [right; left; reflexivity|]. rewrite pctencode_enc by apply es_small. now rewrite P.
  - split.
    + intros H. rewrite <- (not_in_lang_escape port s e eq_refl H E). exact H.
    + intros H. rewrite (tame_same _ s e (fun c T => proj1 (tame_spec c T)) (port_tame s H) E). exact H.
  - rewrite <- P. apply (set_lang _ f_p); [apply e_pchar|vm_compute; split; reflexivity|exact HP|vm_compute; reflexivity].
  - rewrite <- P. apply (set_lang _ f_q); [apply e_qchar|vm_compute; split; reflexivity|exact HQ|vm_compute; reflexivity].
  - rewrite <- P. apply (set_lang _ f_q); [apply e_qchar|vm_compute; split; reflexivity|exact HQ|vm_compute; reflexivity].
Qed.

(* --- the host --- *)
Lemma decoding_keeps n i bias out s u : decoding n i bias out s u -> incl out u.
Proof.
  induction 1 as [|n i bias pre post delta bias' n' i' word rest final _ _ _ _ _ _ _ IH]; [apply incl_refl|].
  intros x Hx. apply IH. apply in_app_or in Hx as [Hx|Hx]; apply in_or_app; [auto|right; right; exact Hx].
Qed.
Lemma punycode_chars u q : punycode_of u q -> forall c, In c q -> c = hyphen \/ In c lower_digits \/ (In (code c) u /\ (code c < 0x80)%N).
Proof.
  intros (lit & d & C & Hl & Hb & Hd) c Hc. apply decoding_keeps in Hd.
  assert (X : In c lit \/ c = hyphen \/ In c d).
  { destruct C as [[-> _]|[-> ->]]; [|auto]. apply in_app_or in Hc as [Hc|[<-|Hc]]; auto. }
  destruct X as [X|[X|X]]; auto. right. right. split; [|auto]. apply Hd. now apply in_map.
Qed.
Lemma text_byte u t c : text utf8_of u t -> In c u -> (c < 0x80)%N -> In c t.
Proof.
  induction 1 as [|x w cs us F _ IH]; intros Hc L; [destruct Hc|]. apply in_or_app. destruct Hc as [->|Hc]; [|auto].
  left. apply utf8_ascii in F; [|exact L]. subst w. left. reflexivity.
Qed.
Definition regc (c : ascii) : Prop := (code c < 0x80)%N -> f_r c = true.
Lemma regc_iff c : L (unreserved / sub_delims)%abnf [c] <-> f_r c = true.
Proof.
  split.
  - intros H. apply (uses (unreserved / sub_delims)%abnf) in H. inversion H as [|? ? X _]; subst. revert X.
    refine (proj1 (Bool.implb_true_iff _ _) _). pose proof (Peg.sweep (fun c => implb (may_use (unreserved / sub_delims)%abnf c) (f_r c))) as S. apply S. vm_compute. reflexivity.
  - intros H. assert (X : L (Rep 0 None (unreserved / pct_encoded / sub_delims)%abnf) [c] ) by
      (exists [[c]]; split; [reflexivity|]; split; [|split; [cbn; lia|exact I]]; constructor; [|constructor]; apply e_rchar; left; exists c; auto).
    destruct X as (l & E & F & _). assert (Y : L (unreserved / pct_encoded / sub_delims)%abnf [c]).
    { apply e_rchar. left. exists c. auto. }
    destruct Y as [[Y|Y]|Y]; [left; exact Y| |right; exact Y]. exfalso. apply L_pct in Y. destruct Y as (h & l' & Y & _). discriminate Y.
Qed.
Lemma low_regc c : c = hyphen \/ In c lower_digits \/ In c xn -> f_r c = true.
Proof.
  assert (X : forallb f_r (hyphen :: lower_digits ++ xn) = true) by (vm_compute; reflexivity). rewrite forallb_forall in X.
  intros [->|[H|H]]; apply X; [left; reflexivity|right; apply in_or_app; auto|right; apply in_or_app; auto].
Qed.
(* the labels of the text and of what is sent *)
Definition label_sent (t e : str) : Prop := e = t \/ exists q, e = xn ++ q.
Lemma sent_labels s e : returns Host s -> host_encoded s e -> exists t ts e1 es, s = joined dot t ts /\ e = joined dot e1 es
  /\ Forall2 label_sent (t :: ts) (e1 :: es) /\ (Forall regc s -> Forall (fun c => f_r c = true) e).
Proof.
  intros [(cs & T) _] (cs' & ok & us & es & R & LB & M & F).
  assert (R0 : reads8 (map code s) cs true) by (apply reads8_true; exact T). destruct (reads8_fun _ _ _ _ _ (codes_small s) R R0) as [-> ->].
  destruct LB as (u & us' & -> & -> & ND). destruct (utf8_labels _ _ _ T) as (t & ts & -> & FT). destruct M as (e1 & es' & -> & -> & _).
  exists t, ts, e1, es'. split; [reflexivity|]. split; [reflexivity|]. split.
  - clear - F FT. revert F FT. generalize (t :: ts) (u :: us') (e1 :: es'). clear. intros ts us es F FT. revert es F. induction FT as [|u t us ts T _ IH]; intros es F; inversion F; subst; constructor; auto.
    destruct H1 as [[A E]|[A (q & _ & ->)]]; [left|right; eauto]. pose proof (text_ascii _ _ A T) as E2. rewrite <- (map_chr_code y), <- (map_chr_code t). congruence.
  - intros G. apply joined_in in G as [G Gd].
    assert (K : Forall (Forall (fun c => f_r c = true)) (e1 :: es')).
    { clear - F FT G. revert F FT G. generalize (t :: ts) (u :: us') (e1 :: es'). clear. intros ts us es F FT. revert es F. induction FT as [|u t us ts T _ IH]; intros es F G; inversion F; subst; constructor; inversion G; subst; auto.
      apply Forall_forall. intros c Hc. rewrite Forall_forall in H2. unfold regc in H2. destruct H1 as [[A E]|[A (q & P & ->)]].
      - pose proof (text_ascii _ _ A T) as E2. assert (X : y = t) by (rewrite <- (map_chr_code y), <- (map_chr_code t); congruence). subst y. apply H2; [exact Hc|].
        unfold ascii_only in A. rewrite Forall_forall in A. apply A. rewrite <- E. now apply in_map.
      - apply in_app_or in Hc as [Hc|Hc]; [apply low_regc; auto|]. destruct (punycode_chars _ _ P c Hc) as [X|[X|[X Y]]]; [apply low_regc; auto|apply low_regc; auto|].
        pose proof (text_byte _ _ _ T X Y) as Z. apply in_map_iff in Z as (d & Z & Hd). rewrite <- (chr_code c), <- Z, chr_code. apply H2; [exact Hd|]. rewrite Z. exact Y. }
    clear - K. revert e1 K. induction es' as [|e' es IH]; intros e1 K; cbn [joined]; inversion K; subst; [assumption|]. apply Forall_app. split; [assumption|]. constructor; [reflexivity|]. apply IH. assumption.
Qed.
Lemma digit_prefix ts es p : Forall2 label_sent ts es -> (forall c, In c p -> c = dot \/ PegUri.b_digit c = true) ->
  forall t ts' e es' q, ts = t :: ts' -> es = e :: es' -> joined dot e es' = p ++ q -> exists q', joined dot t ts' = p ++ q'.
Proof.
  intros F. revert p. induction F as [|t e ts es H F IH]; intros p D t0 ts' e0 es' q ET EE J; [discriminate|]. injection ET as <- <-. injection EE as <- <-.
  destruct H as [->|(r & ->)].
  - destruct F as [|t1 e1 ts1 es1 H1 F1]; cbn [joined] in *; [eauto|].
    assert (X : (exists r, t = p ++ r) \/ exists p', p = t ++ dot :: p' /\ joined dot e1 es1 = p' ++ q).
    { clear - J. revert p J. induction t as [|c e IH]; intros p J.
      - destruct p as [|d p]; [left; exists []; reflexivity|]. cbn in J. injection J as <- J. right. exists p. auto.
      - destruct p as [|d p]; [left; eexists; reflexivity|]. cbn in J. injection J as <- J. destruct (IH _ J) as [(r & ->)|(p' & -> & K)]; [left; exists r; reflexivity|right; exists p'; auto]. }
    destruct X as [(r & ->)|(p' & -> & K)].
    + rewrite <- app_assoc. eauto.
    + destruct (IH p') with (t := t1) (ts' := ts1) (e := e1) (es' := es1) (q := q) as (q' & E); try reflexivity; [intros c Hc; apply D; apply in_or_app; right; right; exact Hc|exact K|].
      exists q'. rewrite E, <- app_assoc. reflexivity.
  - destruct p as [|c p]; [eexists; reflexivity|]. exfalso. assert (c = "x"%char).
    { destruct es as [|e' es]; cbn in J; injection J as <- _; reflexivity. } subst c. destruct (D "x"%char (or_introl eq_refl)) as [X|X]; [discriminate X|vm_compute in X; discriminate X].
Qed.
Lemma ipv4_chars p c : L IPv4address p -> In c p -> c = dot \/ PegUri.b_digit c = true.
Proof.
  intros H Hc. assert (X : Forall (fun c => c = dot \/ PegUri.b_digit c = true) p).
  { apply (uses_only IPv4address _ (fun c => Ascii.eqb c dot || PegUri.b_digit c)) with (s := p); [|vm_compute; reflexivity|exact H]. intros d E. apply orb_true_iff in E as [E|E]; [left; now apply Ascii.eqb_eq|auto]. }
  rewrite Forall_forall in X. auto.
Qed.
Lemma host_sent s e : sendable Host s -> host_encoded s e -> L host e /\ host_unambiguous e.
Proof.
  intros [[[H U]|[C NP]] R] E; [rewrite (host_encoded_same s e (host_ascii s H) E); auto|]. specialize (R eq_refl).
  destruct (sent_labels s e R E) as (t & ts & e1 & es & -> & -> & F & K). split.
  - right. assert (G : Forall (fun c => f_r c = true) (joined dot e1 es)).
    { apply K. eapply Forall_impl; [|exact C]. cbv beta. intros c X Y. apply regc_iff. auto. }
    exists (map (fun c => [c]) (joined dot e1 es)). split; [clear; induction (joined dot e1 es); cbn; congruence|]. split; [|split; [lia|exact I]].
    apply Forall_forall. intros x Hx. apply in_map_iff in Hx as (c & <- & Hc). apply e_rchar. left. exists c. split; [reflexivity|]. rewrite Forall_forall in G. auto.
  - right. intros (p & q & J & HP). apply NP. destruct (digit_prefix _ _ p F (fun c => ipv4_chars p c HP) t ts e1 es q eq_refl eq_refl J) as (q' & X). exists p, q'. auto.
Qed.

(* --- whole parts --- *)
Lemma sendable_well_formed pc qc : parts_all sendable pc -> p_scheme pc <> None -> parts_rel encoded pc qc -> well_formed qc.
Proof.
  intros (A1 & A2 & A3 & A4 & A5) NS (E1 & E2 & E3 & E4 & E5 & E6).
  assert (K : forall f s e, f <> Host -> sendable f s -> encoded f s e -> L (rule_of f) e) by (intros f s e N [S _] E; now apply (component_iff f s e N E)).
  assert (O : forall f o o', f <> Host -> opt_all (sendable f) o -> opt_rel (encoded f) o o' -> in_opt (rule_of f) o').
  { intros f o o' N A E. destruct E as [|a b E]; [exact I|]. cbn in *. eapply K; eassumption. }
  split.
  - destruct E1 as [|a b E1]; [contradiction|]. exists b. split; [reflexivity|]. apply (K Scheme a b); [discriminate|exact A1|exact E1].
  - split.
    + destruct E2 as [|a b (K1 & K2 & K3)]; [exact I|]. destruct A2 as (B1 & B2 & B3). split; [apply (O Userinfo _ _ ltac:(discriminate) B1 K1)|]. split; [apply (host_sent _ _ B2 K2)|]. apply (O Port _ _ ltac:(discriminate) B3 K3).
    + split; [|split; [apply (O Query _ _ ltac:(discriminate) A4 E5)|apply (O Fragment _ _ ltac:(discriminate) A5 E6)]].
      clear - A3 E4 K. induction E4 as [|s e l m E _ IH]; constructor; inversion A3; subst; [|auto]. apply (K Segment s e); [discriminate|assumption|exact E].
Qed.
Lemma sendable_returns pc : parts_all sendable pc -> parts_all returns pc.
Proof.
  assert (X : forall f s, sendable f s -> returns f s).
  { intros f s [E H]. destruct f; try exact (H eq_refl); try exact I; [apply tame_plain, scheme_tame; exact E|apply tame_plain, port_tame; exact E]. }
  assert (O : forall f o, opt_all (sendable f) o -> opt_all (returns f) o) by (intros f [a|] H; cbn in *; auto).
  intros (A1 & A2 & A3 & A4 & A5). split; [exact (O Scheme _ A1)|]. split; [|split; [eapply Forall_impl; [|exact A3]; intros a; apply (X Segment)|split; [exact (O Query _ A4)|exact (O Fragment _ A5)]]].
  destruct (p_authority pc) as [a|]; [|exact I]. destruct A2 as (B1 & B2 & B3). split; [exact (O Userinfo _ B1)|]. split; [exact (X Host _ B2)|exact (O Port _ B3)].
Qed.
Lemma encodes_nil P s e : encodes P s e -> (s = [] <-> e = []).
Proof. destruct 1; [tauto| |]; split; intros E; try discriminate E. Qed.
Lemma encoded_representable pc qc : parts_rel encoded pc qc -> representable pc -> representable qc.
Proof.
  intros (_ & E2 & E3 & E4 & _) R. unfold representable in *. destruct E2 as [|a b _]; [|left; discriminate]. destruct R as [N|R]; [now elim N|]. right.
  rewrite <- E3. destruct E4 as [|s e l m E F]; [exact R|]. pose proof (encodes_nil _ _ _ E) as Z. destruct (absolute (p_path pc)).
  - destruct s as [|c s].
    + destruct l; [|now elim R]. inversion F; subst. rewrite (proj1 Z eq_refl). exact I.
    + destruct e as [|c' e]; [exfalso; discriminate (proj2 Z eq_refl)|]. destruct m; discriminate.
  - intros X. apply R. now apply Z.
Qed.
Definition set_absolute (b : bool) (p : parts) : parts := mkparts (p_scheme p) (p_authority p) (mkpath b (segments (p_path p))) (p_query p) (p_fragment p).
Lemma decode_back pc qc : parts_all returns pc -> parts_rel encoded pc qc ->
  forall grow2 st2 p2, proper p2 -> shows st2 p2 qc -> exists st3 r, parts_decode grow2 st2 p2 = Ok (st3, inl r) /\ shows st3 r pc.
Proof.
  intros R Rq grow2 st2 p2 P2 S2. destruct (decode_all grow2 st2 p2 P2) as [(_ & st3 & r & E3 & _ & _ & V3)|(U & _)].
  - exists st3, r. split; [exact E3|]. destruct (shows_becomes _ _ _ _ _ _ _ decoded_nil V3 S2) as (rc & Sr & Rr). rewrite <- (parts_round pc qc rc R Rq Rr). exact Sr.
  - exfalso. destruct U as (a & s & Ea & Eh & U). destruct (shows_host st2 p2 qc a s (proj1 P2) S2 Ea Eh) as (b & Eb & Hb).
    destruct Rq as (_ & A & _). destruct R as (_ & RA & _). rewrite Eb in A. inversion A as [|x y (_ & K & _) Ex Ey]; subst. rewrite <- Ex in RA. cbn in RA. destruct RA as (_ & RH & _).
    pose proof (field_round Host _ _ RH K) as D. destruct D as [[D _]|[D _]]; exact (undecodable_not _ _ U D).
Qed.
Lemma eqb_set_absolute p q : parts_eqb p q = true -> p = set_absolute (absolute (p_path p)) q.
Proof.
  intros H. apply PropSplitFacts.eqb_exact in H as (H1 & H2 & H3 & H4 & H5 & _). destruct p as [a b [c d] e f]. cbn in *. unfold set_absolute. now rewrite <- H1, <- H2, <- H3, <- H4, <- H5.
Qed.
Lemma c43_valid sg fuel pc qc : parts_all sendable pc -> p_scheme pc <> None -> parts_rel encoded pc qc -> parts_fit fuel qc -> parts_valid sg fuel qc = Ok true.
Proof. intros A N R F. apply (PropSplitFacts.valid_spec sg fuel qc F). eapply sendable_well_formed; eassumption. Qed.
Lemma c43_send grow store p pc : proper p -> shows store p pc -> parts_all sendable pc -> p_scheme pc <> None -> representable pc ->
  exists st q qc, parts_encode grow store p = Ok (st, q) /\ shows st q qc /\
  forall sg fuel, fits fuel (compose qc) -> exists qc', split sg fuel (compose qc) = Ok (Some qc') /\ parts_eqb qc' qc = true /\
  forall grow2 st2 p2, proper p2 -> shows st2 p2 qc' ->
  exists st3 r pc', parts_decode grow2 st2 p2 = Ok (st3, inl r) /\ shows st3 r pc' /\ parts_eqb pc' pc = true.
Proof.
  intros P S A N R. destruct (encode_all grow store p P) as (st & q & E & _ & _ & V).
  destruct (shows_becomes _ _ _ _ _ _ _ encoded_nil V S) as (qc & Sq & Rq). exists st, q, qc. split; [exact E|]. split; [exact Sq|]. intros sg fuel F.
  pose proof (sendable_well_formed pc qc A N Rq) as W.
  assert (FT : parts_fit fuel qc) by (apply compose_parts_fit; exact F).
  assert (VA : parts_valid sg fuel qc = Ok true) by (apply (PropSplitFacts.valid_spec sg fuel qc FT); exact W).
  destruct (proj1 (PropSplitFacts.valid_roundtrip sg fuel qc F VA) (encoded_representable pc qc Rq R)) as (qc' & ES & EQ).
  exists qc'. split; [exact ES|]. split; [exact EQ|]. intros grow2 st2 p2 P2 S2. pose proof (eqb_set_absolute _ _ EQ) as X. set (b := absolute (p_path qc')) in *.
  assert (R' : parts_rel encoded (set_absolute b pc) qc').
  { rewrite X. destruct Rq as (Q1 & Q2 & Q3 & Q4 & Q5 & Q6). repeat split; auto. }
  assert (A' : parts_all returns (set_absolute b pc)) by (apply sendable_returns in A; exact A).
  destruct (decode_back _ _ A' R' grow2 st2 p2 P2 S2) as (st3 & r & D & Sr). exists st3, r, (set_absolute b pc). split; [exact D|]. split; [exact Sr|].
  apply PropSplitFacts.eqb_exact. cbn. repeat (split; [reflexivity|]). intros NA. apply PropSplitFacts.eqb_exact in EQ as (_ & Q2 & _ & _ & _ & Q6).
  destruct Rq as (_ & A2 & A3 & _). rewrite NA in A2. inversion A2 as [Z|]. unfold b. rewrite A3. apply Q6. congruence.
Qed.
