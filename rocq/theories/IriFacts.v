(* encode and RFC 3987: proofs. *)
From Verif Require Import Base UriLang UriProps PctFacts PctProps PunyLoop PunyProps IcuUtf8 IcuRead8 IcuEnc IcuProps PartsHost PartsDec PartsRun PartsEnc PartsDecode PartsProps.
From Verif Require Import Base ModelUri ModelParts SpecPct SpecPuny SpecIcu SpecStore SpecViews Rfc3986 SpecHost SpecParts SpecUri SpecSend SendFacts CaseHost AlikeFacts SpecIri.
From Verif Require CommuteUri LengthFacts ModelPct ModelPuny PropSplitFacts Peg PegUri PegLang.
From Coq Require Import Lia.
Local Open Scope list_scope.
Local Open Scope N_scope.

(* --- the characters --- *)
Definition plainb (f : field) (c : ascii) : bool :=
  match f with Userinfo => f_u c | Segment => f_p c | Query | Fragment => f_q c | _ => f_r c end.
Lemma plain_bool f a : L (plain_rule f) [a] -> plainb f a = true.
Proof.
  intros H. apply uses in H. inversion H as [|? ? X _]; subst. revert X. refine (proj1 (Bool.implb_true_iff _ _) _).
  pose proof (Peg.sweep (fun c => implb (may_use (plain_rule f) c) (plainb f c))) as S. apply S. destruct f; vm_compute; reflexivity.
Qed.
Lemma hex_bool f a : L HEXDIG [a] -> plainb f a = true /\ (code a < 0x80) /\ a <> percent /\ (f = Userinfo -> ~ In a (ss ":;=")).
Proof.
  intros H. apply uses in H. inversion H as [|? ? X _]; subst.
  pose proof (Peg.sweep (fun c => implb (may_use HEXDIG c) (plainb f c && (code c <? 0x80) && negb (Ascii.eqb c percent) && wob (ss ":;=") c))) as S. specialize (S ltac:(destruct f; vm_compute; reflexivity) a).
  cbv beta in S. rewrite X in S. cbn [implb] in S. apply andb_true_iff in S as [S S4]. apply andb_true_iff in S as [S S3]. apply andb_true_iff in S as [S1 S2].
  split; [exact S1|]. split; [now apply N.ltb_lt|]. split; [apply Ascii.eqb_neq; now apply negb_true_iff|]. intros _. now apply wob_iff.
Qed.
Definition againb (f : field) (c : ascii) : bool := Ascii.eqb c percent || (match f with Userinfo => true | _ => false end && negb (wob (ss ":;=") c)).
Lemma again_iff f c : againb f c = true <-> escaped_again f c.
Proof.
  unfold againb, escaped_again. rewrite orb_true_iff, andb_true_iff, Ascii.eqb_eq, negb_true_iff. split.
  - intros [E|[F E]]; [now left|right]. split; [now destruct f|]. destruct (wob (ss ":;=") c) eqn:W; [discriminate E|]. pose proof (proj2 (wob_iff (ss ":;=") c)) as K.
    destruct (in_dec ascii_dec c (ss ":;=")); [assumption|]. rewrite K in W by assumption. discriminate W.
  - intros [E|[-> E]]; [now left|right]. split; [reflexivity|]. destruct (wob (ss ":;=") c) eqn:W; [|reflexivity]. apply wob_iff in W. contradiction.
Qed.
Definition texty (f : field) : bool := match f with Userinfo | Segment | Query | Fragment => true | _ => false end.
Lemma field_again f a : texty f = true -> plainb f a = true \/ a = percent -> (field_set f a <-> escaped_again f a).
Proof.
  intros T P. rewrite <- needs_field_set by (intros ->; discriminate T). rewrite <- again_iff.
  assert (X : needs a (es_of f) = againb f a); [|now rewrite X].
  pose proof (Peg.sweep (fun c => implb (plainb f c || Ascii.eqb c percent) (Bool.eqb (needs c (es_of f)) (againb f c)))) as S.
  specialize (S ltac:(destruct f; try discriminate T; vm_compute; reflexivity) a). cbv beta in S. apply eqb_prop.
  destruct P as [P| ->]; [rewrite P in S; exact S|]. rewrite Ascii.eqb_refl, orb_true_r in S. exact S.
Qed.
Lemma high_field f a : texty f = true -> 0x80 <= code a -> field_set f a.
Proof.
  intros T H. rewrite <- needs_field_set by (intros ->; discriminate T).
  pose proof (Peg.sweep (fun c => implb (0x80 <=? code c) (needs c (es_of f)))) as S. specialize (S ltac:(destruct f; try discriminate T; vm_compute; reflexivity) a). cbv beta in S.
  apply N.leb_le in H. rewrite H in S. exact S.
Qed.
Lemma again_low f a : escaped_again f a -> code a < 0x80.
Proof.
  intros [->|[_ H]]; [reflexivity|]. assert (X : forallb (fun c => code c <? 0x80) (ss ":;=") = true) by (vm_compute; reflexivity).
  rewrite forallb_forall in X. apply N.ltb_lt. now apply X.
Qed.
Lemma ranges_high l c : forallb (fun p => 0x80 <=? fst p) l = true -> in_ranges l c -> 0x80 <= c.
Proof. intros F (a & b & I & H). rewrite forallb_forall in F. apply F in I. cbn in I. apply N.leb_le in I. lia. Qed.
Lemma itext_ascii f u : itext f u -> forall a, In (code a) u -> code a < 0x80 -> plainb f a = true \/ a = percent.
Proof.
  assert (C : forall a b, code a = code b -> a = b) by (intros a b E; rewrite <- (chr_code a), <- (chr_code b); now rewrite E).
  induction 1 as [|c u I _ IH|h l u (x & Hx & Lx) (y & Hy & Ly) _ IH]; intros a H Lt.
  - destruct H.
  - destruct H as [H|H]; [|now apply IH]. subst c. destruct I as [(b & E & I)|[I|[_ I]]].
    + left. apply C in E. subst b. now apply plain_bool.
    + apply ranges_high in I; [lia|vm_compute; reflexivity].
    + apply ranges_high in I; [lia|vm_compute; reflexivity].
  - destruct H as [H|[H|[H|H]]].
    + right. apply C. now rewrite <- H.
    + left. rewrite <- Hx in H. apply C in H. subst x. now apply (hex_bool f).
    + left. rewrite <- Hy in H. apply C in H. subst y. now apply (hex_bool f).
    + now apply IH.
Qed.

(* --- encodes, over concatenations --- *)
Lemma encodes_cat P a b ea eb : encodes P a ea -> encodes P b eb -> encodes P (a ++ b) (ea ++ eb).
Proof. induction 1 as [|c s t H _ IH|c s t H _ IH]; intros B; [exact B| |]; cbn [app]; [rewrite <- app_assoc; apply enc_escape; auto|apply enc_copy; auto]. Qed.
Lemma encodes_cut P a b e : encodes P (a ++ b) e -> exists ea eb, e = ea ++ eb /\ encodes P a ea /\ encodes P b eb.
Proof.
  revert e. induction a as [|c a IH]; intros e H; cbn [app] in H; [exists [], e; split; [reflexivity|]; split; [constructor|exact H]|].
  inversion H as [|x s t Hc K|x s t Hc K]; subst; destruct (IH _ K) as (ea & eb & -> & A & B).
  - exists (escape c ++ ea), eb. split; [now rewrite app_assoc|]. split; [now apply enc_escape|exact B].
  - exists (c :: ea), eb. split; [reflexivity|]. split; [now apply enc_copy|exact B].
Qed.
Lemma encodes_every P a e : Forall P a -> encodes P a e -> e = flat_map escape a.
Proof. intros F H. induction H as [|c s t Hc _ IH|c s t Hc _ IH]; [reflexivity| |]; inversion F; subst; [cbn [flat_map]; now rewrite IH|contradiction]. Qed.
Lemma every_encodes P a : Forall P a -> encodes P a (flat_map escape a).
Proof. induction 1; [constructor|]. cbn [flat_map]. now apply enc_escape. Qed.
Lemma map_split {X Y} (g : X -> Y) s : forall a b, map g s = a ++ b -> exists s1 s2, s = s1 ++ s2 /\ map g s1 = a /\ map g s2 = b.
Proof.
  induction s as [|c s IH]; intros a b E.
  - destruct a; [|discriminate E]. destruct b; [|discriminate E]. now exists [], [].
  - destruct a as [|x a]; [exists [], (c :: s); now split|]. cbn in E. injection E as <- E. destruct (IH a b E) as (s1 & s2 & -> & <- & <-). now exists (c :: s1), s2.
Qed.
Lemma code_injective a b : code a = code b -> a = b.
Proof. intros E; rewrite <- (chr_code a), <- (chr_code b); now rewrite E. Qed.

Lemma enc_to_uri (P also : ascii -> Prop) u : forall s e, text utf8_of u (map code s) ->
  (forall a, In (code a) u -> code a < 0x80 -> (P a <-> also a)) -> (forall a, 0x80 <= code a -> P a) -> (encodes P s e <-> to_uri also u e).
Proof.
  intros s e T. remember (map code s) as bs eqn:B. revert s B e. induction T as [|c w cs us U T IH]; intros s B e A H.
  - symmetry in B. apply map_eq_nil in B. subst s. split; intros X; inversion X; subst; constructor.
  - symmetry in B. apply map_split in B as (s1 & s2 & -> & B1 & B2). symmetry in B2. specialize (IH s2 B2).
    destruct (utf8_high c w U) as [[-> Lc]|[Hc Hw]].
    + destruct s1 as [|a [|? ?]]; try discriminate B1. injection B1 as B1. cbn [app].
      assert (Aa : P a <-> also a) by (apply A; [left; now rewrite B1|rewrite B1; exact Lc]).
      assert (A' : forall b, In (code b) cs -> code b < 0x80 -> (P b <-> also b)) by (intros b I; apply A; now right).
      split; intros X.
      * rewrite <- B1. inversion X as [|x r t Hx K|x r t Hx K]; subst; [apply tu_also|apply tu_ascii]; try tauto; try (rewrite <- B1 in Lc; exact Lc); apply IH; auto.
      * inversion X as [|b v t Lb Nb K Ev Et|b v t Lb Nb K Ev Et|d bs v t Hd Ud K Ev Et]; subst.
        -- assert (a = b) by (apply code_injective; congruence). subst b. apply enc_copy; [tauto|]. apply IH; auto.
        -- assert (a = b) by (apply code_injective; congruence). subst b. apply enc_escape; [tauto|]. apply IH; auto.
        -- lia.
    + assert (A' : forall b, In (code b) cs -> code b < 0x80 -> (P b <-> also b)) by (intros b I; apply A; now right).
      assert (F : Forall P s1). { rewrite <- B1 in Hw. rewrite Forall_map in Hw. eapply Forall_impl; [|exact Hw]. exact H. }
      split; intros X.
      * apply encodes_cut in X as (ea & eb & -> & Xa & Xb). rewrite (encodes_every _ _ _ F Xa). apply tu_other; [exact Hc|rewrite B1; exact U|]. apply IH; auto.
      * inversion X as [|b v t Lb Nb K Ev Et|b v t Lb Nb K Ev Et|d bs v t Hd Ud K Ev Et]; subst; [lia|lia|].
        assert (bs = s1). { apply map_code_inj. eapply utf8_fun; [exact Ud|exact U]. } subst bs. apply encodes_cat; [now apply every_encodes|]. apply IH; auto.
Qed.

(* --- the components --- *)
Lemma byte_text u t : text utf8_of u t -> forall c, In c t -> c < 0x80 -> In c u.
Proof.
  induction 1 as [|x w cs us F _ IH]; intros c Hc Lc; [destruct Hc|]. apply in_app_or in Hc as [Hc|Hc]; [|right; now apply IH].
  destruct (utf8_high x w F) as [[-> _]|[_ H]]; [destruct Hc as [<-|[]]; now left|]. rewrite Forall_forall in H. apply H in Hc. lia.
Qed.
Lemma text_component f u s e : texty f = true -> itext f u -> text utf8_of u (map code s) -> (encoded f s e <-> to_uri (escaped_again f) u e).
Proof.
  intros T I X. assert (E : encoded f s e <-> encodes (field_set f) s e) by (destruct f; try discriminate T; reflexivity). rewrite E.
  apply enc_to_uri; [exact X| |intros a; now apply high_field]. intros a Ha La. apply field_again; [exact T|]. exact (itext_ascii f u I a Ha La).
Qed.
Definition high (a : ascii) : Prop := 0x80 <= code a.
Lemma rfc_iff u s e : text utf8_of u (map code s) -> (rfc3987_uri u e <-> encodes high s e).
Proof. intros X. symmetry. apply enc_to_uri; [exact X| |auto]. intros a _ La. unfold high. split; [lia|intros []]. Qed.
Lemma enc_compare (P Q : ascii -> Prop) s e : encodes P s e -> forall e', encodes Q s e' -> (forall a, Q a -> P a) ->
  (length e' <= length e)%nat /\ (e = e' <-> forall a, In a s -> P a -> Q a).
Proof.
  induction 1 as [|c s t Hc K IH|c s t Hc K IH]; intros e' X I.
  - inversion X; subst. split; [lia|]. split; [intros _ a []|auto].
  - inversion X as [|x r t' Hx K'|x r t' Hx K']; subst; destruct (IH _ K' I) as [Lt E].
    + split; [rewrite !app_length; lia|]. split.
      * intros J a [<-|Ha] Pa; [exact Hx|]. apply app_inv_head in J. now apply E.
      * intros J. f_equal. apply E. intros a Ha. apply J. now right.
    + split; [rewrite app_length; cbn [escape length]; lia|]. split.
      * intros J. exfalso. apply (f_equal (@length _)) in J. rewrite app_length in J. cbn [escape length] in J. lia.
      * intros J. exfalso. apply Hx, J; [now left|exact Hc].
  - inversion X as [|x r t' Hx K'|x r t' Hx K']; subst; destruct (IH _ K' I) as [Lt E]; [elim Hc; now apply I|].
    split; [cbn [length]; lia|]. split.
    + intros J a [<-|Ha] Pa; [contradiction|]. injection J as J. now apply E.
    + intros J. f_equal. apply E. intros a Ha. apply J. now right.
Qed.
Lemma text_exact f u s e e' : texty f = true -> itext f u -> text utf8_of u (map code s) -> encoded f s e -> rfc3987_uri u e' ->
  (e = e' <-> forall a, In a s -> ~ escaped_again f a).
Proof.
  intros T I X E R. apply (rfc_iff u s e' X) in R. assert (E' : encodes (field_set f) s e) by (destruct f; try discriminate T; exact E).
  destruct (enc_compare _ _ _ _ E' _ R (fun a => high_field f a T)) as [_ C]. rewrite C. split; intros J a Ha.
  - intros G. pose proof (again_low _ _ G) as Lo. assert (S : field_set f a). { apply field_again; [exact T| |exact G]. refine (itext_ascii f u I a _ Lo). exact (byte_text _ _ X (code a) (in_map code _ _ Ha) Lo). }
    apply J in S; [|exact Ha]. unfold high in S. lia.
  - intros S. destruct (N.lt_ge_cases (code a) 0x80) as [Lo|Hi]; [|exact Hi]. exfalso. apply (J a Ha). apply (field_again f a T); [|exact S].
    refine (itext_ascii f u I a _ Lo). exact (byte_text _ _ X (code a) (in_map code _ _ Ha) Lo).
Qed.
Lemma host_component u s e : text utf8_of u (map code s) -> (host_encoded s e <-> to_domain u e).
Proof.
  intros T. assert (R0 : reads8 (map code s) u true) by (apply reads8_true; exact T). split.
  - intros (cs & ok & us & es & R & LB & M & F). destruct (reads8_fun _ _ _ _ _ (codes_small s) R R0) as [-> ->]. now exists us, es.
  - intros (us & es & LB & M & F). now exists u, true, us, es.
Qed.
Lemma ascii_u s : ascii_only (map code s) -> text utf8_of (map code s) (map code s).
Proof. apply ascii_text. Qed.
Lemma tame_ascii s : Forall (fun c => tame c = true) s -> ascii_only (map code s).
Proof.
  intros F. unfold ascii_only. rewrite Forall_map. eapply Forall_impl; [|exact F]. cbv beta. intros c T. unfold tame in T.
  apply andb_true_iff in T as [T _]. apply andb_true_iff in T as [_ T]. apply N.ltb_lt in T. lia.
Qed.
Lemma tame_uri f s e : (f = Scheme \/ f = Port) -> Forall (fun c => tame c = true) s -> encoded f s e -> component_to_uri f s e.
Proof.
  intros Hf F E. assert (e = s) as -> by (destruct Hf as [-> | ->]; eapply tame_same; [|exact F|exact E| |exact F|exact E]; intros c T; exact (proj1 (tame_spec c T))).
  exists (map code s). split; [apply ascii_u, tame_ascii, F|]. assert (X : to_uri (escaped_again f) (map code s) s).
  { pose proof (tame_ascii s F) as A. unfold ascii_only in A. rewrite Forall_map in A. clear E. induction F as [|c s T F IH]; cbn [map]; [constructor|]. inversion A; subst. apply tu_ascii; auto.
    intros [->|[-> _]]; [now apply (tame_spec percent)|destruct Hf; discriminate]. }
  destruct Hf as [-> | ->]; exact X.
Qed.
Lemma iri_uri f s e : iri_component f s -> encoded f s e -> component_to_uri f s e.
Proof.
  intros I E. destruct f; cbn [iri_component] in I.
  - apply tame_uri; auto. now apply scheme_tame.
  - destruct I as (u & T & I). exists u. split; [exact T|]. now apply (text_component Userinfo u s e eq_refl I T).
  - assert (X : exists u, text utf8_of u (map code s)). { destruct I as [I|(u & T & _)]; [|eauto]. exists (map code s). apply ascii_u. now apply PartsProps.host_ascii. }
    destruct X as (u & T). exists u. split; [exact T|]. now apply (host_component u s e T).
  - apply tame_uri; auto. now apply port_tame.
  - destruct I as (u & T & I). exists u. split; [exact T|]. now apply (text_component Segment u s e eq_refl I T).
  - destruct I as (u & T & I). exists u. split; [exact T|]. now apply (text_component Query u s e eq_refl I T).
  - destruct I as (u & T & I). exists u. split; [exact T|]. now apply (text_component Fragment u s e eq_refl I T).
Qed.
Lemma not_without f l u s : forallb (fun c => implb (plainb f c || (0x80 <=? code c)) (wob l c)) Peg.all_ascii = true ->
  text utf8_of u (map code s) -> itext f u -> ~ In percent s -> without l s.
Proof.
  intros SW T I NP c Hc. apply wob_iff. pose proof (Peg.sweep _ SW c) as X. cbv beta in X. destruct (N.lt_ge_cases (code c) 0x80) as [Lo|Hi].
  - destruct (itext_ascii f u I c (byte_text _ _ T (code c) (in_map code _ _ Hc) Lo) Lo) as [P| ->]; [|contradiction]. rewrite P in X. exact X.
  - apply N.leb_le in Hi. rewrite Hi, orb_true_r in X. exact X.
Qed.
Lemma iri_sendable f s : iri_component f s -> ~ In percent s ->
  (f = Host -> host_unambiguous s /\ forall ls l, labels SpecStore.dot s ls -> In l ls -> ~ has_prefix xn l) -> sendable f s.
Proof.
  intros I NP H. destruct f; cbn [iri_component] in I; (split; [|try (intros X; discriminate X)]).
  - exact I.
  - exact Logic.I.
  - destruct (H eq_refl) as [U _]. destruct I as [I|(u & T & I)]; [left; now split|]. destruct U as [U|U].
    + left. split; [left; right; exact U|now left].
    + right. split; [|exact U]. apply Forall_forall. intros c Hc Lo. apply regc_iff.
      destruct (itext_ascii Host u I c (byte_text _ _ T (code c) (in_map code _ _ Hc) Lo) Lo) as [P| ->]; [exact P|contradiction].
  - intros _. destruct (H eq_refl) as [_ X]. split.
    + destruct I as [I|(u & T & _)]; [|eauto]. exists (map code s). apply ascii_u. now apply PartsProps.host_ascii.
    + intros ls l LB Hl _. exact (X ls l LB Hl).
  - exact I.
  - destruct I as (u & T & I). apply (not_without Segment _ u); [vm_compute; reflexivity|exact T|exact I|exact NP].
  - destruct I as (u & T & I). apply (not_without Query _ u); [vm_compute; reflexivity|exact T|exact I|exact NP].
  - destruct I as (u & T & I). apply (not_without Fragment _ u); [vm_compute; reflexivity|exact T|exact I|exact NP].
Qed.
Lemma all_and (P Q : field -> str -> Prop) (R : field -> str -> Prop) p : (forall f s, P f s -> Q f s -> R f s) -> parts_all P p -> parts_all Q p -> parts_all R p.
Proof.
  intros H (A1 & A2 & A3 & A4 & A5) (B1 & B2 & B3 & B4 & B5).
  assert (O : forall f o, opt_all (P f) o -> opt_all (Q f) o -> opt_all (R f) o) by (intros f [x|]; cbn; auto).
  split; [eauto|]. split; [|split; [|split; eauto]].
  - destruct (p_authority p) as [a|]; [|exact I]. destruct A2 as (X1 & X2 & X3), B2 as (Y1 & Y2 & Y3). cbn. repeat split; eauto.
  - clear - A3 B3 H. induction A3; constructor; inversion B3; subst; auto.
Qed.
Lemma host_all (P : str -> Prop) p : (forall a, p_authority p = Some a -> P (ModelUri.host a)) -> parts_all (fun f s => f = Host -> P s) p.
Proof.
  intros H. assert (O : forall f o, f <> Host -> opt_all (fun s => f = Host -> P s) o) by (intros f [x|] N; cbn; auto; intros; contradiction).
  split; [now apply O|]. split; [|split; [apply Forall_forall; intros ? ? ?; discriminate|split; now apply O]].
  destruct (p_authority p) as [a|]; [|exact I]. cbn. split; [now apply O|]. split; [intros _; now apply H|now apply O].
Qed.
Lemma iri_sendables p : iri p -> no_escapes p -> ordinary_host p -> parts_all sendable p.
Proof.
  intros (A & _) NE OH. pose proof (all_and _ _ (fun f s => iri_component f s /\ ~ In percent s) p (fun f s X Y => conj X Y) A NE) as B.
  refine (all_and _ _ sendable p _ B (host_all (fun s => host_unambiguous s /\ forall ls l, labels SpecStore.dot s ls -> In l ls -> ~ has_prefix xn l) p OH)). intros f s [X Y] Z. now apply iri_sendable.
Qed.
Lemma rel_all (P : field -> str -> Prop) (R T : field -> str -> str -> Prop) p q : (forall f s t, P f s -> R f s t -> T f s t) -> parts_all P p -> parts_rel R p q -> parts_rel T p q.
Proof. apply LengthFacts.rel_with. Qed.
Lemma iri_encode grow store p pc : proper p -> shows store p pc -> iri pc -> no_escapes pc -> ordinary_host pc ->
  exists st q qc, parts_encode grow store p = Ok (st, q) /\ shows st q qc /\ parts_rel component_to_uri pc qc /\
  forall sg fuel, fits fuel (compose qc) -> exists qc', split sg fuel (compose qc) = Ok (Some qc') /\ parts_eqb qc' qc = true /\
  forall grow2 st2 p2, proper p2 -> shows st2 p2 qc' ->
  exists st3 r pc', parts_decode grow2 st2 p2 = Ok (st3, inl r) /\ shows st3 r pc' /\ parts_eqb pc' pc = true.
Proof.
  intros P S I NE OH. destruct (c43_send grow store p pc P S (iri_sendables pc I NE OH) (proj1 (proj2 I)) (proj2 (proj2 I))) as (st & q & qc & E & Sq & K).
  exists st, q, qc. split; [exact E|]. split; [exact Sq|]. split; [|exact K].
  destruct (c26_encode_text grow store p pc st q P S E) as (qc2 & Sq2 & R). rewrite <- (CommuteUri.shows_fun st q _ _ Sq Sq2) in R.
  exact (rel_all _ _ _ pc qc iri_uri (proj1 I) R).
Qed.

(* --- the whole text --- *)
Lemma enc_same_high s : ascii_only (map code s) -> encodes high s s.
Proof. unfold ascii_only. rewrite Forall_map. induction 1 as [|c s H _ IH]; [constructor|]. apply enc_copy; [unfold high; lia|exact IH]. Qed.
Lemma lit_high (l : str) : forallb (fun c => code c <? 0x80) l = true -> encodes high l l.
Proof. intros F. apply enc_same_high. unfold ascii_only. rewrite Forall_map. apply Forall_forall. rewrite forallb_forall in F. intros c Hc. apply N.ltb_lt. now apply F. Qed.
Lemma high_compose p q : parts_rel (fun _ => encodes high) p q -> encodes high (compose p) (compose q).
Proof.
  intros (E1 & E2 & E3 & E4 & E5 & E6). unfold compose.
  assert (PE : path_is_empty (p_path q) = path_is_empty (p_path p)) by (unfold path_is_empty; now destruct E4).
  apply encodes_cat; [destruct E1; [constructor|]; apply encodes_cat; [assumption|apply lit_high; reflexivity]|].
  apply encodes_cat.
  { destruct E2 as [|a b (A1 & A2 & A3)]; [constructor|]. apply encodes_cat; [apply lit_high; reflexivity|]. rewrite PE, E3. apply encodes_cat.
    - unfold authority_string. apply encodes_cat; [destruct A1; [constructor|]; apply encodes_cat; [assumption|apply lit_high; reflexivity]|].
      apply encodes_cat; [destruct (ModelUri.host a), (ModelUri.host b); exact A2|].
      destruct A3 as [|x y A3]; [constructor|]. apply encodes_cat; [apply lit_high; reflexivity|]. destruct x, y; exact A3.
    - destruct (_ && _); [apply lit_high; reflexivity|constructor]. }
  apply encodes_cat.
  { unfold path_string. rewrite E3. assert (G : forall l m, Forall2 (encodes high) l m -> forall sep a b, encodes high sep sep -> encodes high a b -> encodes high (path_string_loop sep l a) (path_string_loop sep m b)).
    { induction 1 as [|s t l m H _ IH]; intros sep a b Hs Hab; cbn [path_string_loop]; [exact Hab|]. apply IH; [apply lit_high; reflexivity|]. apply encodes_cat; [exact Hab|]. now apply encodes_cat. }
    apply G; [exact E4| |constructor]. destruct (absolute (p_path q)); [apply lit_high; reflexivity|constructor]. }
  apply encodes_cat; [destruct E5; [constructor|]; apply encodes_cat; [apply lit_high; reflexivity|assumption]|].
  destruct E6; [constructor|]. apply encodes_cat; [apply lit_high; reflexivity|assumption].
Qed.
Lemma iri_high f s e : iri_component f s -> (forall a, In a s -> ~ escaped_again f a) -> (f = Host -> ascii_only (map code s)) -> encoded f s e -> encodes high s e.
Proof.
  intros I NA H E.
  assert (T : texty f = true -> encodes high s e).
  { intros X. assert (exists u, text utf8_of u (map code s) /\ itext f u) as (u & Tu & Iu) by (destruct f; try discriminate X; exact I).
    assert (U : exists e', encodes high s e'). { clear. induction s as [|c s [e' IH]]; [exists []; constructor|]. destruct (N.lt_ge_cases (code c) 0x80); [exists (c :: e'); apply enc_copy; [unfold high; lia|exact IH]|exists (escape c ++ e'); now apply enc_escape]. }
    destruct U as (e' & U). pose proof (proj2 (rfc_iff u s e' Tu) U) as R. rewrite (proj2 (text_exact f u s e e' X Iu Tu E R) NA). exact U. }
  destruct f; try (apply T; reflexivity).
  - assert (e = s) as -> by (eapply tame_same; [|apply scheme_tame; exact I|exact E]; intros c X; exact (proj1 (tame_spec c X))). apply enc_same_high, tame_ascii. now apply scheme_tame.
  - specialize (H eq_refl). rewrite (host_encoded_same s e H E). now apply enc_same_high.
  - assert (e = s) as -> by (eapply tame_same; [|apply port_tame; exact I|exact E]; intros c X; exact (proj1 (tame_spec c X))). apply enc_same_high, tame_ascii. now apply port_tame.
Qed.
Lemma iri_text grow store p pc st q qc u : proper p -> shows store p pc -> iri pc -> parts_all (fun f s => forall a, In a s -> ~ escaped_again f a) pc ->
  (forall a, p_authority pc = Some a -> ascii_only (map code (ModelUri.host a))) ->
  parts_encode grow store p = Ok (st, q) -> shows st q qc -> text utf8_of u (map code (compose pc)) -> rfc3987_uri u (compose qc).
Proof.
  intros P S I NA AH E Sq T. apply (rfc_iff u _ _ T). apply high_compose.
  destruct (c26_encode_text grow store p pc st q P S E) as (qc2 & Sq2 & R). rewrite <- (CommuteUri.shows_fun st q _ _ Sq Sq2) in R.
  pose proof (all_and _ _ (fun f s => iri_component f s /\ forall a, In a s -> ~ escaped_again f a) pc (fun f s X Y => conj X Y) (proj1 I) NA) as B.
  pose proof (all_and _ _ (fun f s => (iri_component f s /\ forall a, In a s -> ~ escaped_again f a) /\ (f = Host -> ascii_only (map code s))) pc (fun f s X Y => conj X Y) B (host_all (fun s => ascii_only (map code s)) pc AH)) as C.
  refine (rel_all _ _ _ pc qc _ C R). intros f s t [[X Y] Z] W. exact (iri_high f s t X Y Z W).
Qed.
