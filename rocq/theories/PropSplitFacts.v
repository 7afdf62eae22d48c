(* Proofs of the statements in PropSplit.v from the lemmas of UriSplit.v, UriValid.v, UriProps.v, JoinFacts.v. *)
From Verif Require Import Base ModelRule ModelUri Peg PegUri PegLang UriLang UriIPv6 SpecHost UriHost UriStruct SpecParts UriSplit SpecUri UriValid UriProps JoinFacts.
From Verif Require Rfc3986.
Import Rfc3986 (L, abnf, components, mkcomponents, c_scheme, c_authority,
  c_absolute, c_segments, c_query, c_fragment, in_opt, URI_decomp, relative_decomp, reference_decomp).
From Coq Require Import ZifyBool ZifyNat ZifyN.
Local Notation fits := SpecUri.fits.

Lemma low_high c : (code c < 128 \/ code c = 255)%N <-> low c = true.
Proof.
  unfold low, high. assert (code c < 256)%N by (unfold code; destruct c as [[] [] [] [] [] [] [] []]; vm_compute; reflexivity).
  destruct (N.leb_spec 128 (code c)), (N.ltb_spec (code c) 255); cbn; split; intros; try lia; try discriminate; reflexivity.
Qed.
Lemma safe_low sg s : ctype_safe sg s <-> sg = false \/ all low s.
Proof.
  unfold ctype_safe. split; (intros [H|H]; [auto|right]).
  - eapply Forall_impl; [|exact H]. intros c Hc. now apply low_high.
  - eapply Forall_impl; [|exact H]. intros c Hc. now apply low_high.
Qed.
Lemma bad_unsafe {T} sg s (o : outcome T) : bad sg s o -> ~ ctype_safe sg s /\ o = Fault ctype_domain.
Proof.
  intros (-> & H & E). split; auto. intros Hs. apply safe_low in Hs. destruct Hs as [Hs|Hs]; [discriminate|].
  apply Exists_exists in H. destruct H as (c & Hc & Hh). rewrite Forall_forall in Hs. apply Hs in Hc. unfold low in Hc. now rewrite Hh in Hc.
Qed.

Lemma split_sound sg fuel s p : fits fuel s -> split sg fuel s = Ok (Some p) ->
  L Rfc3986.URI s /\ URI_decomp s (comps p) /\ (forall c, URI_decomp s c -> c = comps p).
Proof.
  intros Hf E. apply split_iff in E; auto. destruct E as [E _]. split; [apply L_URI; eauto|]. split; auto.
  intros c Hc. eapply URI_unique; eauto.
Qed.
Lemma split_complete sg fuel s c : fits fuel s -> URI_decomp s c -> unambiguous c ->
  exists p, split sg fuel s = Ok (Some p) /\ comps p = c.
Proof.
  intros Hf Hd Hu. exists (parts_of c). split; [|apply comps_parts_of]. apply split_iff; auto. now rewrite comps_parts_of.
Qed.
Lemma uri_has_decomp s : L Rfc3986.URI s <-> exists c, URI_decomp s c.
Proof. apply L_URI. Qed.
Lemma split_rejects sg fuel s : fits fuel s -> ctype_safe sg s ->
  (split sg fuel s = Ok None <-> forall c, URI_decomp s c -> ~ unambiguous c).
Proof.
  intros Hf Hs. rewrite (split_none_iff sg fuel s Hf (proj1 (safe_low _ _) Hs)). split.
  - intros H c Hc Hu. eauto. - intros H (c & Hc & Hu). eapply H; eauto.
Qed.
Lemma unambiguous_examples : unambiguous (mkcomponents (Some (ss "a")) (Some (None, ss "1.2.3.4", None)) false [] None None)
  /\ unambiguous (mkcomponents (Some (ss "a")) (Some (None, ss "www.x", None)) false [] None None).
Proof.
  split; cbn.
  - left. in_lang s_ipv4.
  - right. intros (p & q & E & H).
    assert (Hq : nohd b_digit q).
    { clear H. do 5 (destruct p as [|? p]; [cbn in E; subst q; reflexivity|cbn in E; apply (f_equal (@List.tl ascii)) in E; cbn in E]).
      symmetry in E. apply app_eq_nil in E. destruct E as [_ ->]. exact I. }
    pose proof (c_ipv4 p [] q (conj H eq_refl) Hq) as E2. rewrite <- E in E2. vm_compute in E2. discriminate E2.
Qed.
Lemma split_incomplete : exists s, L Rfc3986.URI s /\ forall sg fuel, fits fuel s -> split sg fuel s = Ok None.
Proof. exists (ss "http://1.2.3.4.com/"). split; [apply L_URI; eexists; apply amb_uri|]. intros. now apply amb_rejected. Qed.
Lemma compose_split sg fuel s p : fits fuel s ->
  split sg fuel s = Ok (Some p) \/ split_reference sg fuel s = Ok (Some p) -> compose p = s.
Proof.
  intros Hf [E|E]; [apply split_iff in E; auto|apply split_reference_iff in E; auto]; destruct E as [E _]; apply decomp_compose; auto.
  now left.
Qed.
Lemma split_reference_spec sg fuel s p : fits fuel s ->
  (split_reference sg fuel s = Ok (Some p) <->
   (URI_decomp s (comps p) \/ relative_decomp s (comps p)) /\ unambiguous (comps p)).
Proof. intros Hf. now apply split_reference_iff. Qed.
Lemma reference_unique s c1 c2 : (URI_decomp s c1 \/ relative_decomp s c1) -> (URI_decomp s c2 \/ relative_decomp s c2) -> c1 = c2.
Proof. apply decomp_unique. Qed.
Lemma reference_has_decomp s : L Rfc3986.URI_reference s <-> exists c, URI_decomp s c \/ relative_decomp s c.
Proof. apply L_URI_reference. Qed.
Lemma split_reference_rejects sg fuel s : fits fuel s -> ctype_safe sg s ->
  (split_reference sg fuel s = Ok None <-> forall c, URI_decomp s c \/ relative_decomp s c -> ~ unambiguous c).
Proof.
  intros Hf Hs. rewrite (split_reference_none_iff sg fuel s Hf (proj1 (safe_low _ _) Hs)). split.
  - intros H c Hc Hu. apply H. exists c. split; auto. - intros H (c & Hc & Hu). eapply H; eauto.
Qed.
Lemma valid_roundtrip sg fuel p : fits fuel (compose p) -> parts_valid sg fuel p = Ok true ->
  (representable p <-> exists q, split sg fuel (compose p) = Ok (Some q) /\ parts_eqb q p = true).
Proof.
  intros Hf Hv. split.
  - now apply roundtrip. - intros (q & E & Hq). eapply roundtrip_conv; eauto.
Qed.
Lemma valid_roundtrip_fails :
  (exists p, parts_valid true 100 p = Ok true /\ split true 100 (compose p) = Ok None)
  /\ (exists p q, parts_valid true 100 p = Ok true /\ split true 100 (compose p) = Ok (Some q) /\ parts_eqb q p = false
        /\ p_authority p = None /\ p_authority q <> None).
Proof.
  split.
  - exists (mkparts (Some (ss "a")) None (mkpath true [[]; ss "@@"]) None None). split; vm_compute; reflexivity.
  - exists (mkparts (Some (ss "a")) None (mkpath true [[]; ss "x"]) None None). eexists. split; [vm_compute; reflexivity|].
    split; [vm_compute; reflexivity|]. split; [vm_compute; reflexivity|]. split; [reflexivity|discriminate].
Qed.
Lemma split_all_valid sg fuel s p : fits fuel s -> split sg fuel s = Ok (Some p) ->
  parts_valid sg fuel p = Ok true
  /\ match p_authority p with Some a => authority_valid sg fuel a = Ok true | None => True end
  /\ path_valid sg fuel (p_path p) = Ok true.
Proof. intros Hf E. pose proof (split_valid _ _ _ _ Hf E) as H. split; auto. now apply valid_parts. Qed.
Definition split_ref_valid := split_reference_valid.
Lemma valid_spec sg fuel p : parts_fit fuel p -> (parts_valid sg fuel p = Ok true <-> well_formed p).
Proof. apply parts_valid_iff. Qed.
Lemma matches_safe sg fuel f p s : impl action sg fuel f p -> fits fuel s -> ctype_safe sg s ->
  (forall s m a r, p s = Some (m, a, r) -> a = []) -> exists b, matches f s = Ok b.
Proof. intros Hi Hf Hs Ha. destruct (matches_total sg fuel f p s Hi Hf Ha) as [H|H]; [auto|]. apply bad_unsafe in H. tauto. Qed.
Lemma andalso_ok x y : (exists b, x = Ok b) -> (exists b, y = Ok b) -> exists b, andalso x y = Ok b.
Proof. intros [[] ->] Hy; cbn; eauto. Qed.
Lemma opt_ok sg fuel f s : (forall x, fits fuel x -> ctype_safe sg x -> exists b, matches f x = Ok b) -> opt_fits fuel s ->
  Forall (ctype_safe sg) (opt_list s) -> exists b, opt_matches f s = Ok b.
Proof. intros H Hs S. destruct s as [s|]; cbn; eauto. inversion S; auto. Qed.
Lemma valid_safe sg fuel p : parts_fit fuel p -> Forall (ctype_safe sg) (component_texts p) -> exists b, parts_valid sg fuel p = Ok b.
Proof.
  intros (H1 & H2 & H3 & H4 & H5) S. unfold component_texts in S. rewrite !Forall_app in S. destruct S as (S1 & S2 & S3 & S4 & S5). unfold parts_valid.
  assert (R1 : forall x, fits fuel x -> ctype_safe sg x -> exists b, matches (scheme sg fuel) x = Ok b).
  { intros x Hx Hs. eapply matches_safe; eauto using i_scheme. eapply rlang_nil, s_scheme. }
  assert (R2 : forall x, fits fuel x -> ctype_safe sg x -> exists b, matches (userinfo_r sg fuel) x = Ok b).
  { intros x Hx Hs. eapply matches_safe; eauto using i_userinfo. eapply rlang_nil, s_userinfo. }
  assert (R3 : forall x, fits fuel x -> ctype_safe sg x -> exists b, matches (host_r sg fuel) x = Ok b).
  { intros x Hx Hs. eapply matches_safe; eauto using i_host. intros s m a r E. apply s_host in E. tauto. }
  assert (R4 : forall x, fits fuel x -> ctype_safe sg x -> exists b, matches (port_r sg fuel) x = Ok b).
  { intros x Hx Hs. eapply matches_safe; eauto using i_port. eapply rlang_nil, s_port. }
  assert (R5 : forall x, fits fuel x -> ctype_safe sg x -> exists b, matches (segment sg fuel) x = Ok b).
  { intros x Hx Hs. eapply matches_safe; eauto using i_segment. eapply rlang_nil, s_segment. }
  assert (R6 : forall x, fits fuel x -> ctype_safe sg x -> exists b, matches (query sg fuel) x = Ok b).
  { intros x Hx Hs. eapply matches_safe; eauto using i_query. eapply rlang_nil, s_query. }
  apply andalso_ok; [|apply andalso_ok; [|apply andalso_ok; [|apply andalso_ok]]].
  - destruct (p_scheme p); [inversion S1; auto|eauto].
  - destruct (p_authority p) as [a|]; [|eauto]. destruct H2 as (U & H & P). rewrite Forall_app in S2. destruct S2 as [Su Sh]. inversion Sh as [|? ? Sh' Sp]; subst.
    unfold authority_valid. apply andalso_ok; [|apply andalso_ok]; eauto using opt_ok.
  - unfold path_valid. clear - R5 H3 S3. induction H3 as [|x l Hx _ IH]; cbn [segs_valid]; [eauto|]. inversion S3; subst. apply andalso_ok; auto.
  - eauto using opt_ok.
  - eauto using opt_ok.
Qed.
Lemma valid_decides sg fuel p : parts_fit fuel p -> Forall (ctype_safe sg) (component_texts p) ->
  exists b, parts_valid sg fuel p = Ok b /\ (b = true <-> well_formed p).
Proof.
  intros H S. destruct (valid_safe sg fuel p H S) as [b E]. exists b. split; auto. rewrite <- (parts_valid_iff sg fuel p H), E. split; congruence.
Qed.
Lemma authority_valid_spec sg fuel a : opt_fits fuel (userinfo a) -> fits fuel (host a) -> opt_fits fuel (port a) ->
  (authority_valid sg fuel a = Ok true <-> well_formed_authority a).
Proof. apply authority_valid_iff. Qed.
Lemma path_valid_spec sg fuel p : Forall (fits fuel) (segments p) ->
  (path_valid sg fuel p = Ok true <-> Forall (L Rfc3986.segment) (segments p)).
Proof. apply segs_true. Qed.
Lemma valid_host_rejected : exists h, L Rfc3986.host h /\ forall sg fuel, fits fuel h -> authority_valid sg fuel (mkauth None h None) <> Ok true.
Proof.
  exists amb_host. split; [apply amb_host_ambiguous|]. intros sg fuel Hf E. apply authority_valid_iff in E; cbn; auto.
  destruct E as (_ & (_ & E) & _). cbn in E. now apply amb_host_ambiguous in E.
Qed.
Lemma split_terminates sg fuel s : fits fuel s ->
  (exists o, split sg fuel s = Ok o) \/ (~ ctype_safe sg s /\ split sg fuel s = Fault ctype_domain).
Proof. intros Hf. destruct (split_total sg fuel s Hf) as [H|H]; [auto|right; now apply bad_unsafe in H]. Qed.
Lemma split_reference_terminates sg fuel s : fits fuel s ->
  (exists o, split_reference sg fuel s = Ok o) \/ (~ ctype_safe sg s /\ split_reference sg fuel s = Fault ctype_domain).
Proof. intros Hf. destruct (split_reference_total sg fuel s Hf) as [H|H]; [auto|right; now apply bad_unsafe in H]. Qed.
Lemma join_terminates sg fuel b r strict : fits fuel b -> fits fuel r ->
  (exists o, join sg fuel b r strict = Ok o)
  \/ ((~ ctype_safe sg b \/ ~ ctype_safe sg r) /\ join sg fuel b r strict = Fault ctype_domain).
Proof.
  intros Hb Hr. unfold join. destruct (split_terminates sg fuel b Hb) as [[[p|] ->]|[H ->]]; cbn; eauto.
  destruct (split_reference_terminates sg fuel r Hr) as [[[q|] ->]|[H ->]]; cbn; eauto.
Qed.
Lemma valid_terminates sg fuel p : parts_fit fuel p ->
  (exists b, parts_valid sg fuel p = Ok b)
  \/ (~ Forall (ctype_safe sg) (component_texts p) /\ parts_valid sg fuel p = Fault ctype_domain).
Proof.
  intros H. destruct (parts_valid_returns sg fuel p H) as [E|[-> E]]; [auto|]. right. split; [|exact E]. intros S.
  destruct (valid_safe true fuel p H S) as [b E']. congruence.
Qed.
Lemma split_undefined : exists s, split true 100 s = Fault ctype_domain /\ split false 100 s = Ok None.
Proof. exists (ss "http://" ++ [chr 0xC3; chr 0xA9]). split; vm_compute; reflexivity. Qed.
Lemma ctype_safe_ex : ctype_safe true (ss "http://a/") /\ fits 100 (ss "http://a/").
Proof. split; [right; repeat constructor; left; reflexivity|split; [reflexivity|cbn; lia]]. Qed.
Lemma eqb_exact p q : parts_eqb p q = true <->
  p_scheme p = p_scheme q /\ p_authority p = p_authority q /\ p_query p = p_query q /\ p_fragment p = p_fragment q
  /\ segments (p_path p) = segments (p_path q)
  /\ (p_authority p = None -> absolute (p_path p) = absolute (p_path q)).
Proof. apply parts_eqb_eq. Qed.
Lemma eqb_refl p : parts_eqb p p = true. Proof. apply parts_eqb_eq. repeat split. Qed.
Lemma eqb_sym1 p q : parts_eqb p q = true -> parts_eqb q p = true.
Proof. rewrite !parts_eqb_eq. intros (?&?&?&?&?&H). repeat split; try congruence. intros. symmetry. apply H. congruence. Qed.
Lemma eqb_trans p q r : parts_eqb p q = true -> parts_eqb q r = true -> parts_eqb p r = true.
Proof. rewrite !parts_eqb_eq. intros (?&?&?&?&?&H) (?&?&?&?&?&G). repeat split; try congruence. intros. rewrite H, G; congruence. Qed.
Lemma eqb_equivalence :
  (forall p, parts_eqb p p = true) /\ (forall p q, parts_eqb p q = parts_eqb q p)
  /\ (forall p q r, parts_eqb p q = true -> parts_eqb q r = true -> parts_eqb p r = true).
Proof.
  split; [apply eqb_refl|]. split; [|apply eqb_trans].
  intros p q. destruct (parts_eqb p q) eqn:E; destruct (parts_eqb q p) eqn:F; auto.
  - apply eqb_sym1 in E. congruence. - apply eqb_sym1 in F. congruence.
Qed.
Lemma eqb_composes p q : parts_eqb p q = true -> compose p = compose q.
Proof. apply eqb_compose. Qed.
Lemma compose_injective sg fuel p q : fits fuel (compose p) ->
  parts_valid sg fuel p = Ok true -> parts_valid sg fuel q = Ok true -> representable p -> representable q ->
  compose p = compose q -> parts_eqb p q = true.
Proof.
  intros Hf Hp Hq Rp Rq E. destruct (roundtrip sg fuel p) as (x & E1 & H1); auto.
  destruct (roundtrip sg fuel q) as (y & E2 & H2); auto. { now rewrite <- E. }
  rewrite <- E in E2. assert (x = y) by congruence. subst y. eapply eqb_trans; [apply eqb_sym1|]; eauto.
Qed.
