(* Derived facts behind the theorems of PropUri.v *)
From Verif Require Import Base ModelRule ModelUri Peg PegUri PegLang UriLang UriIPv6 SpecHost UriHost UriStruct SpecParts UriSplit SpecUri UriValid.
From Verif Require Rfc3986.
Import Rfc3986 (L, abnf, Rng, Lit, Cat, Alt, Rep, lower, components, mkcomponents, c_scheme, c_authority,
  c_absolute, c_segments, c_query, c_fragment, opt_pre, opt_post, in_opt, slashed, authority_decomp,
  abempty_decomp, absolute_decomp, rootless_decomp, empty_decomp, hier_decomp, tail_decomp, URI_decomp,
  relative_decomp, reference_decomp).
From Coq Require Import ZifyBool ZifyNat ZifyN.
Local Notation fits := SpecUri.fits.

Lemma split_none_iff sg fuel s : fits fuel s -> (sg = false \/ all low s) ->
  split sg fuel s = Ok None <-> ~ exists c, URI_decomp s c /\ unambiguous c.
Proof.
  intros Hf Hl. destruct (split_total sg fuel s Hf) as [[[p|] E]|B].
  - rewrite E. apply split_iff in E; auto. split; [discriminate|]. intros H. exfalso. apply H. eauto.
  - split; auto. intros _ (c & Hc). rewrite <- (comps_parts_of c) in Hc. apply (split_iff sg fuel) in Hc; auto. congruence.
  - exfalso. destruct Hl as [->|Hl]; [destruct B; discriminate|]. eapply low_bad; eauto.
Qed.
Lemma split_reference_none_iff sg fuel s : fits fuel s -> (sg = false \/ all low s) ->
  split_reference sg fuel s = Ok None <-> ~ exists c, reference_decomp s c /\ unambiguous c.
Proof.
  intros Hf Hl. destruct (split_reference_total sg fuel s Hf) as [[[p|] E]|B].
  - rewrite E. apply split_reference_iff in E; auto. split; [discriminate|]. intros H. exfalso. apply H. eauto.
  - split; auto. intros _ (c & Hc). rewrite <- (comps_parts_of c) in Hc. apply (split_reference_iff sg fuel) in Hc; auto. congruence.
  - exfalso. destruct Hl as [->|Hl]; [destruct B; discriminate|]. eapply low_bad; eauto.
Qed.
Lemma URI_unique s c1 c2 : URI_decomp s c1 -> URI_decomp s c2 -> c1 = c2.
Proof. intros H1 H2. eapply decomp_unique; left; eauto. Qed.

(* deciding membership in a component language by running the (proved sound) parser *)
Ltac in_lang H :=
  let E := fresh in pose proof (fun s r => H s s [] r) as E; unfold rlang in E;
  match goal with |- L _ ?s => exact (proj1 (E s [] ltac:(vm_compute; reflexivity))) end.

Definition amb_host := ss "1.2.3.4.com".
Lemma amb_host_ambiguous : L Rfc3986.host amb_host /\ ~ host_unambiguous amb_host.
Proof.
  split.
  - right. in_lang s_reg_name.
  - intros [H|H].
    + pose proof (c_ipv4 amb_host [] [] (conj H eq_refl) I) as E. vm_compute in E. discriminate.
    + apply H. exists (ss "1.2.3.4"), (ss ".com"). split; [reflexivity|]. in_lang s_ipv4.
Qed.
Lemma amb_uri : URI_decomp (ss "http://1.2.3.4.com/")
  (mkcomponents (Some (ss "http")) (Some (None, amb_host, None)) true [[]] None None).
Proof.
  exists (ss "http"), (ss "//1.2.3.4.com/"), []. split; [reflexivity|]. split; [in_lang s_scheme|]. split; [reflexivity|]. split.
  - left. exists (None, amb_host, None), amb_host, (ss "/"). split; [reflexivity|]. split; [reflexivity|]. split.
    + split; [reflexivity|]. split; [exact I|]. split; [apply amb_host_ambiguous|exact I].
    + split; [reflexivity|]. split; [|reflexivity]. repeat constructor. in_lang s_segment.
  - repeat split.
Qed.
Lemma amb_rejected sg fuel : fits fuel (ss "http://1.2.3.4.com/") -> split sg fuel (ss "http://1.2.3.4.com/") = Ok None.
Proof.
  intros Hf. apply split_none_iff; auto.
  - right. repeat constructor.
  - intros (c & Hc & Hu). rewrite (URI_unique _ _ _ Hc amb_uri) in Hu. apply amb_host_ambiguous in Hu. exact Hu.
Qed.

(* valid () *)
Lemma fits_part fuel a b c : fits fuel (a ++ b ++ c) -> fits fuel b.
Proof. unfold fits. rewrite !app_length. lia. Qed.
Lemma slashed_cons x l : slashed (x :: l) = SL :: x ++ slashed l.
Proof. reflexivity. Qed.
Lemma slashed_ge l : Forall (fun x => length x <= length (slashed l)) l.
Proof.
  induction l as [|x l IH]; [constructor|]. rewrite slashed_cons. cbn [length]. rewrite app_length. constructor; [lia|].
  eapply Forall_impl; [|exact IH]. cbn beta. intros y Hy. lia.
Qed.
Lemma compose_parts_fit fuel p : fits fuel (compose p) -> parts_fit fuel p.
Proof.
  rewrite compose_eq. unfold parts_fit, SpecUri.fits. destruct p as [sc a [b segs] q f]. unfold hier_string, comps.
  cbn [c_authority c_absolute c_segments p_scheme p_authority p_path p_query p_fragment absolute segments].
  rewrite !app_length. intros H.
  pose proof (slashed_ge segs) as Hs.
  assert (Hs2 : Forall (fun x => length x <= length (match segs return str with [] => [] | x :: rest => x ++ slashed rest end)) segs).
  { destruct segs as [|x l]; [constructor|]. rewrite app_length. constructor; [lia|].
    eapply Forall_impl; [|exact (slashed_ge l)]. cbn beta; intros; lia. }
  repeat split.
  - destruct sc as [sc|]; cbn in *; [|exact I]. unfold SpecUri.fits. rewrite app_length in H. lia.
  - destruct a as [[u h p]|]; [|exact I]. cbn [userinfo host port] in *. rewrite !app_length in H. repeat split.
    + destruct u as [u|]; cbn in *; [|exact I]. unfold SpecUri.fits. rewrite app_length in H. lia.
    + lia. + lia.
    + destruct p as [p|]; cbn in *; [|exact I]. unfold SpecUri.fits. lia.
  - destruct a as [[u h p]|].
    + cbn [userinfo host port] in *. rewrite !app_length in H. eapply Forall_impl; [|exact Hs]. cbn beta. intros x Hx. unfold SpecUri.fits. lia.
    + destruct b; cbn iota in H.
      * eapply Forall_impl; [|exact Hs]. cbn beta; intros x Hx; lia.
      * eapply Forall_impl; [|exact Hs2]. cbn beta; intros x Hx.
        set (k := length (match segs return str with [] => [] | x :: rest => x ++ slashed rest end)) in *. lia.
  - destruct q as [q|]; cbn in *; [|exact I]. unfold SpecUri.fits. lia.
  - destruct f as [f|]; cbn in *; [|exact I]. unfold SpecUri.fits. lia.
Qed.
Lemma split_valid sg fuel s p : fits fuel s -> split sg fuel s = Ok (Some p) -> parts_valid sg fuel p = Ok true.
Proof.
  intros Hf E. apply split_iff in E; auto. destruct E as [H1 H2]. apply parts_valid_iff.
  - apply compose_parts_fit. rewrite (decomp_compose s); auto. left; auto.
  - eapply decomp_well_formed; eauto.
Qed.
Lemma roundtrip sg fuel p : fits fuel (compose p) -> parts_valid sg fuel p = Ok true -> representable p ->
  exists q, split sg fuel (compose p) = Ok (Some q) /\ parts_eqb q p = true.
Proof.
  intros Hf Hv Hr. exists (canon p). split; [|apply canon_eqb].
  apply parts_valid_iff in Hv; [|now apply compose_parts_fit].
  apply split_iff; auto. now apply canon_decomp.
Qed.
Lemma roundtrip_conv sg fuel p q : fits fuel (compose p) ->
  split sg fuel (compose p) = Ok (Some q) -> parts_eqb q p = true -> representable p.
Proof.
  intros Hf E Hq. apply split_iff in E; auto. destruct E as [E _]. apply decomp_representable in E.
  apply parts_eqb_eq in Hq. destruct Hq as (_ & Ha & _ & _ & Hs & Hb). unfold representable in *. rewrite <- Ha, <- Hs.
  destruct E as [E|E]; [auto|]. destruct (p_authority q) eqn:Eq; [left; discriminate|right]. rewrite <- Hb; auto.
Qed.
Lemma eqb_compose p q : parts_eqb p q = true -> compose p = compose q.
Proof.
  intros H. apply parts_eqb_eq in H. destruct H as (H1 & H2 & H3 & H4 & H5 & H6). rewrite !compose_eq.
  unfold hier_string, comps. cbn [c_authority c_absolute c_segments]. rewrite <- H1, <- H2, <- H3, <- H4, <- H5.
  destruct (p_authority p) as [[u h pt]|]; [reflexivity|]. rewrite <- H6; auto.
Qed.

(* valid () returns, or calls a <cctype> function outside its domain (signed char only) *)
Definition returns {T} (sg : bool) (x : outcome T) := (exists b, x = Ok b) \/ (sg = true /\ x = Fault ctype_domain).
Lemma matches_returns sg fuel f p s : impl action sg fuel f p -> fits fuel s ->
  (forall s m a r, p s = Some (m, a, r) -> a = []) -> returns sg (matches f s).
Proof. intros Hi Hf Ha. destruct (matches_total sg fuel f p s Hi Hf Ha) as [H|(H1 & _ & H2)]; [left|right]; auto. Qed.
Lemma rlang_nil p g : sound p (rlang g) -> forall s m a r, p s = Some (m, a, r) -> a = [].
Proof. intros Hs s m a r E. apply Hs in E. now destruct E. Qed.
Lemma andalso_returns sg x y : returns sg x -> returns sg y -> returns sg (andalso x y).
Proof. intros [[[] ->]|[-> ->]] Hy; cbn; auto; [left; eauto|right; auto]. Qed.
Lemma opt_returns sg fuel f s : (forall x, fits fuel x -> returns sg (matches f x)) -> opt_fits fuel s -> returns sg (opt_matches f s).
Proof. intros H Hs. destruct s as [s|]; cbn; auto. left; eauto. Qed.
Lemma parts_valid_returns sg fuel p : parts_fit fuel p -> returns sg (parts_valid sg fuel p).
Proof.
  intros (H1 & H2 & H3 & H4 & H5). unfold parts_valid.
  assert (R1 : forall x, fits fuel x -> returns sg (matches (scheme sg fuel) x)).
  { intros x Hx. eapply matches_returns; eauto using i_scheme. eapply rlang_nil, s_scheme. }
  assert (R2 : forall x, fits fuel x -> returns sg (matches (userinfo_r sg fuel) x)).
  { intros x Hx. eapply matches_returns; eauto using i_userinfo. eapply rlang_nil, s_userinfo. }
  assert (R3 : forall x, fits fuel x -> returns sg (matches (host_r sg fuel) x)).
  { intros x Hx. eapply matches_returns; eauto using i_host. intros s m a r E. apply s_host in E. tauto. }
  assert (R4 : forall x, fits fuel x -> returns sg (matches (port_r sg fuel) x)).
  { intros x Hx. eapply matches_returns; eauto using i_port. eapply rlang_nil, s_port. }
  assert (R5 : forall x, fits fuel x -> returns sg (matches (segment sg fuel) x)).
  { intros x Hx. eapply matches_returns; eauto using i_segment. eapply rlang_nil, s_segment. }
  assert (R6 : forall x, fits fuel x -> returns sg (matches (query sg fuel) x)).
  { intros x Hx. eapply matches_returns; eauto using i_query. eapply rlang_nil, s_query. }
  apply andalso_returns; [|apply andalso_returns; [|apply andalso_returns; [|apply andalso_returns]]].
  - destruct (p_scheme p); [auto|left; eauto].
  - destruct (p_authority p) as [a|]; [|left; eauto]. destruct H2 as (U & H & P).
    unfold authority_valid. apply andalso_returns; [|apply andalso_returns]; eauto using opt_returns.
  - unfold path_valid. clear - R5 H3. induction H3 as [|x l Hx _ IH]; cbn [segs_valid]; [left; eauto|]. apply andalso_returns; auto.
  - eauto using opt_returns.
  - eauto using opt_returns.
Qed.
Lemma parts_valid_low fuel p : parts_fit fuel p -> exists b, parts_valid false fuel p = Ok b /\ (b = true <-> well_formed p).
Proof.
  intros H. destruct (parts_valid_returns false fuel p H) as [[b E]|[E _]]; [|discriminate]. exists b. split; auto.
  rewrite <- (parts_valid_iff false fuel p H), E. split; congruence.
Qed.
Lemma valid_parts sg fuel p : parts_valid sg fuel p = Ok true ->
  match p_authority p with Some a => authority_valid sg fuel a = Ok true | None => True end /\ path_valid sg fuel (p_path p) = Ok true.
Proof.
  unfold parts_valid. rewrite !andalso_true. intros (_ & H1 & H2 & _). split; auto. destruct (p_authority p); auto.
Qed.
