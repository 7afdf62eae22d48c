(* valid (), compose and operator== *)
From Verif Require Import Base ModelRule ModelUri Peg PegUri PegLang UriLang UriIPv6 SpecHost UriHost UriStruct SpecParts UriSplit SpecUri.
From Verif Require Rfc3986.
Import Rfc3986 (L, abnf, Rng, Lit, Cat, Alt, Rep, lower, components, mkcomponents, c_scheme, c_authority,
  c_absolute, c_segments, c_query, c_fragment, opt_pre, opt_post, in_opt, slashed, authority_decomp,
  abempty_decomp, absolute_decomp, rootless_decomp, empty_decomp, hier_decomp, tail_decomp, URI_decomp,
  relative_decomp, reference_decomp).
From Coq Require Import ZifyBool ZifyNat ZifyN.
Local Notation concat := List.concat.
Local Notation parser := (Peg.parser action).
Local Notation fits := SpecUri.fits.

Lemma matches_iff sg fuel f p (P : str -> Prop) s : impl action sg fuel f p -> fits fuel s ->
  (forall s m a r, p s = Some (m, a, r) -> a = [] /\ P m) ->
  (forall s, P s -> p s = Some (s, [], []) /\ all low s) ->
  matches f s = Ok true <-> P s.
Proof.
  intros Hi Hf Hs Hc. pose proof Hi as [Hw _].
  destruct (matches_spec sg fuel f p s Hi Hf) as [E|B].
  - intros m a r Em. eapply Hs; eauto.
  - rewrite E. split.
    + destruct (p s) as [[[m a] [|d r]]|] eqn:Ep; try discriminate. intros _.
      pose proof (Hw _ _ _ _ Ep) as W. rewrite app_nil_r in W. subst. apply Hs in Ep. tauto.
    + intros H. apply Hc in H. destruct H as [-> _]. reflexivity.
  - split.
    + destruct B as (_ & _ & B). rewrite B. discriminate.
    + intros H. apply Hc in H. destruct H as [_ H]. exfalso. eapply low_bad; eauto.
Qed.
Lemma matches_total sg fuel f p s : impl action sg fuel f p -> fits fuel s ->
  (forall s m a r, p s = Some (m, a, r) -> a = []) ->
  (exists b, matches f s = Ok b) \/ bad sg s (matches f s).
Proof.
  intros Hi Hf Hs. destruct (matches_spec sg fuel f p s Hi Hf) as [E|B]; eauto.
Qed.
Lemma matches_rlang sg fuel f p g F s : impl action sg fuel f p -> fits fuel s ->
  sound p (rlang g) -> complete p (rlang g) F -> F [] -> (forall s, L g s -> all low s) ->
  matches f s = Ok true <-> L g s.
Proof.
  intros Hi Hf Hs Hc HF Hl. apply (matches_iff sg fuel f p); auto.
  - intros s' m a r E. apply Hs in E. destruct E; auto.
  - intros s' H. split; auto. pose proof (Hc s' [] [] (conj H eq_refl) HF) as E. rewrite app_nil_r in E. exact E.
Qed.
Section V.
Variables (sg : bool) (fuel : nat).
Lemma v_scheme s : fits fuel s -> matches (scheme sg fuel) s = Ok true <-> L Rfc3986.scheme s.
Proof.
  intros Hf. eapply matches_rlang; eauto using i_scheme, s_scheme, UriLang.c_scheme; [exact I|].
  intros x Hx. apply scheme_chars in Hx. destruct Hx as [Hx _]. to_low Hx.
Qed.
Lemma v_userinfo s : fits fuel s -> matches (userinfo_r sg fuel) s = Ok true <-> L Rfc3986.userinfo s.
Proof.
  intros Hf. eapply matches_rlang; eauto using i_userinfo, s_userinfo, UriLang.c_userinfo; [exact I|].
  intros x Hx. apply userinfo_chars in Hx. to_low Hx.
Qed.
Lemma v_port s : fits fuel s -> matches (port_r sg fuel) s = Ok true <-> L Rfc3986.port s.
Proof.
  intros Hf. eapply matches_rlang; eauto using i_port, s_port, UriLang.c_port; [exact I|].
  intros x Hx. apply port_chars in Hx. to_low Hx.
Qed.
Lemma v_segment s : fits fuel s -> matches (segment sg fuel) s = Ok true <-> L Rfc3986.segment s.
Proof.
  intros Hf. eapply matches_rlang; eauto using i_segment, s_segment, UriLang.c_segment; [exact I|].
  intros x Hx. apply segment_chars in Hx. to_low Hx.
Qed.
Lemma v_query s : fits fuel s -> matches (query sg fuel) s = Ok true <-> L Rfc3986.query s.
Proof.
  intros Hf. eapply matches_rlang; eauto using i_query, s_query, UriLang.c_query; [exact I|].
  intros x Hx. apply query_chars in Hx. to_low Hx.
Qed.
Lemma v_host s : fits fuel s -> matches (host_r sg fuel) s = Ok true <-> L Rfc3986.host s /\ host_unambiguous s.
Proof.
  intros Hf. apply (matches_iff sg fuel _ g_host (fun s => L Rfc3986.host s /\ host_unambiguous s)); auto using i_host.
  - intros s' m a r E. apply s_host in E. exact E.
  - intros s' [H1 H2]. split.
    + pose proof (c_host s' [] []) as E. rewrite app_nil_r in E. apply E; cbn; auto.
    + apply host_chars in H1. to_low H1.
Qed.
Lemma andalso_true x y : andalso x y = Ok true <-> x = Ok true /\ y = Ok true.
Proof. destruct x as [[]| |]; cbn; intuition congruence. Qed.
Lemma opt_true f g s : (forall x, fits fuel x -> matches f x = Ok true <-> L g x) -> opt_fits fuel s ->
  opt_matches f s = Ok true <-> in_opt g s.
Proof. intros H Hf. destruct s; cbn; [now apply H|tauto]. Qed.
Lemma segs_true l : Forall (fits fuel) l -> segs_valid sg fuel l = Ok true <-> Forall (L Rfc3986.segment) l.
Proof.
  induction 1 as [|x l Hx _ IH]; cbn; [split; auto|]. rewrite andalso_true, IH, v_segment by auto.
  split; [intros []; auto|intros H; inv H; auto].
Qed.
Lemma authority_valid_iff a : opt_fits fuel (userinfo a) -> fits fuel (host a) -> opt_fits fuel (port a) ->
  authority_valid sg fuel a = Ok true <-> well_formed_authority a.
Proof.
  intros H1 H2 H3. unfold authority_valid, well_formed_authority.
  rewrite !andalso_true, (opt_true _ _ _ v_userinfo), (opt_true _ _ _ v_port), v_host by auto. reflexivity.
Qed.
Lemma parts_valid_iff p : parts_fit fuel p -> parts_valid sg fuel p = Ok true <-> well_formed p.
Proof.
  intros (H1 & H2 & H3 & H4 & H5). unfold parts_valid, well_formed, path_valid, fragment.
  rewrite !andalso_true, segs_true, !(opt_true (query sg fuel) _ _ v_query) by auto.
  assert (E1 : (match p_scheme p with Some s => matches (scheme sg fuel) s | None => Ok false end) = Ok true
     <-> exists sch, p_scheme p = Some sch /\ L Rfc3986.scheme sch).
  { destruct (p_scheme p) as [sc|]; cbn in H1.
    - rewrite v_scheme by auto. split; [eauto|]. intros (x & E & Hx). inv E. auto.
    - split; [discriminate|]. intros (x & E & _). discriminate. }
  assert (E2 : (match p_authority p with Some a => authority_valid sg fuel a | None => Ok true end) = Ok true
     <-> match p_authority p with Some a => well_formed_authority a | None => True end).
  { destruct (p_authority p) as [a|]; [|tauto]. apply authority_valid_iff; tauto. }
  rewrite E1, E2. reflexivity.
Qed.
End V.

(* --- compose --------------------------------------------------------------- *)
Lemma path_loop segs : forall sep p, path_string_loop sep segs p =
  p ++ match segs with [] => [] | x :: rest => sep ++ x ++ slashed rest end.
Proof.
  induction segs as [|x segs IH]; intros sep p; cbn [path_string_loop]; [now rewrite app_nil_r|].
  rewrite IH. destruct segs; rewrite <- !app_assoc; reflexivity.
Qed.
Lemma path_string_eq b segs : path_string (mkpath b segs) =
  if b then slashed segs else match segs with [] => [] | x :: rest => x ++ slashed rest end.
Proof. unfold path_string. rewrite path_loop. destruct b, segs; reflexivity. Qed.
Lemma auth_string_eq u h p : authority_string (mkauth u h p) = opt_post u (ss "@") ++ h ++ opt_pre (ss ":") p.
Proof. destruct u, h, p as [[|]|]; reflexivity. Qed.
Definition hier_string (c : components) : str :=
  match c_authority c with
  | Some (u, h, p) => ss "//" ++ (opt_post u (ss "@") ++ h ++ opt_pre (ss ":") p) ++ slashed (c_segments c)
  | None => if c_absolute c then slashed (c_segments c)
            else match c_segments c with [] => [] | x :: rest => x ++ slashed rest end
  end.
Lemma compose_eq p : compose p = opt_post (p_scheme p) (ss ":") ++ hier_string (comps p)
  ++ opt_pre (ss "?") (p_query p) ++ opt_pre (ss "#") (p_fragment p).
Proof.
  destruct p as [sc a [b segs] q f]. unfold compose. cbn [p_scheme p_authority p_path p_query p_fragment comps absolute segments].
  rewrite path_string_eq. unfold hier_string, comps.
  cbn [c_authority c_absolute c_segments p_scheme p_authority p_path p_query p_fragment absolute segments userinfo host port].
  f_equal. destruct a as [[u h p]|]; cbn [userinfo host port].
  - rewrite auth_string_eq. unfold path_is_empty. cbn [segments absolute].
    rewrite <- !app_assoc. do 4 f_equal. destruct segs as [|x segs]; cbn [negb andb]; destruct b; reflexivity.
  - cbn [app]. destruct b; reflexivity.
Qed.
Lemma hier_string_decomp first s c : hier_decomp first s c -> s = hier_string c.
Proof.
  unfold hier_string. intros [(a & sa & sp & Ea & -> & Ha & (-> & _ & _))|[Ea H]]; rewrite Ea.
  - destruct a as [[u h] p]. destruct Ha as (-> & _). reflexivity.
  - destruct H as [(Eb & -> & _)|[(Eb & x & rest & Es & -> & _)|(-> & Eb & Es)]]; rewrite Eb, ?Es; reflexivity.
Qed.
Lemma decomp_compose s p : reference_decomp s (comps p) -> compose p = s.
Proof.
  rewrite compose_eq. intros [(sch & sh & st & Es & _ & -> & Hh & (-> & _ & _))|(sh & st & Es & -> & Hh & (-> & _ & _))];
    apply hier_string_decomp in Hh; rewrite <- Hh; destruct p; cbn in *; subst; cbn; rewrite <- ?app_assoc; reflexivity.
Qed.

(* well-formed and representable parts compose to a URI that decomposes to the same components, up to the
   absolute flag in the presence of an authority *)
Definition canon (p : parts) : parts :=
  match p_authority p with
  | Some _ => mkparts (p_scheme p) (p_authority p)
                (mkpath (match segments (p_path p) with [] => false | _ => true end) (segments (p_path p))) (p_query p) (p_fragment p)
  | None => p
  end.
Lemma seg_nz x : L Rfc3986.segment x -> x <> [] -> L Rfc3986.segment_nz x.
Proof.
  intros (l & -> & Hl & _) Hn. exists l. repeat split; auto. destruct l; [cbn in Hn; congruence|cbn; lia].
Qed.
Lemma nz_seg x : L Rfc3986.segment_nz x -> L Rfc3986.segment x.
Proof. intros (l & -> & Hl & _). exists l. repeat split; auto. lia. Qed.
Lemma canon_decomp p : well_formed p -> representable p -> URI_decomp (compose p) (comps (canon p)) /\ unambiguous (comps (canon p)).
Proof.
  intros ((sch & Es & Hs) & Ha & Hsegs & Hq & Hf) Hr. rewrite compose_eq.
  destruct p as [sc a [b segs] q f]. cbn [p_scheme p_authority p_path p_query p_fragment absolute segments] in *. subst sc.
  destruct a as [[u h pt]|].
  - destruct Ha as (Hu & [Hh Hun] & Hp). cbn in Hu, Hh, Hun, Hp. split; [|exact Hun].
    exists sch, (ss "//" ++ (opt_post u (ss "@") ++ h ++ opt_pre (ss ":") pt) ++ slashed segs), (opt_pre (ss "?") q ++ opt_pre (ss "#") f).
    split; [reflexivity|]. split; auto. split; [cbn; rewrite <- !app_assoc; reflexivity|]. split.
    + left. exists (u, h, pt), (opt_post u (ss "@") ++ h ++ opt_pre (ss ":") pt), (slashed segs). repeat split; auto.
    + repeat split; auto.
  - split; [|exact I]. exists sch, (hier_string (comps (mkparts (Some sch) None (mkpath b segs) q f))), (opt_pre (ss "?") q ++ opt_pre (ss "#") f).
    split; [reflexivity|]. split; auto. split; [cbn; rewrite <- !app_assoc; reflexivity|]. split; [|repeat split; auto].
    right. split; [reflexivity|]. cbn [comps canon p_authority p_path absolute segments c_absolute c_segments hier_string c_authority].
    destruct Hr as [Hr|Hr]; [cbn in Hr; congruence|]. cbn in Hr. destruct b.
    + left. split; auto. split; auto. destruct segs as [|x rest]; [contradiction|]. inv Hsegs.
      destruct x as [|d x]; [destruct rest; [auto|congruence]|]. right. eexists _, rest. split; auto. split; auto. apply seg_nz; auto; discriminate.
    + right. destruct segs as [|x rest]; [right; repeat split|left]. inv Hsegs. split; auto. exists x, rest. repeat split; auto. now apply seg_nz.
Qed.

(* --- operator== ---------------------------------------------------------------- *)
Lemma str_eqb_eq a b : str_eqb a b = true <-> a = b.
Proof. unfold str_eqb. destruct (list_eq_dec ascii_dec a b); split; congruence. Qed.
Lemma opt_str_eqb a b : opt_eqb str_eqb a b = true <-> a = b.
Proof.
  destruct a, b; cbn; try (split; [discriminate|congruence]); try tauto. rewrite str_eqb_eq. split; congruence.
Qed.
Lemma segs_eqb_eq a b : segs_eqb a b = true <-> a = b.
Proof. unfold segs_eqb. destruct (list_eq_dec (list_eq_dec ascii_dec) a b); split; congruence. Qed.
Lemma path_eqb_eq a b : path_eqb a b = true <-> a = b.
Proof.
  unfold path_eqb. rewrite andb_true_iff, segs_eqb_eq, Bool.eqb_true_iff. destruct a, b; cbn. split; [intros []|]; intros; try split; congruence.
Qed.
Lemma authority_eqb_eq a b : authority_eqb a b = true <-> a = b.
Proof.
  unfold authority_eqb. rewrite !andb_true_iff, !opt_str_eqb, str_eqb_eq. destruct a, b; cbn.
  split; [intros [[] ]|intros E; inv E]; try split; try split; congruence.
Qed.
Lemma opt_auth_eqb a b : opt_eqb authority_eqb a b = true <-> a = b.
Proof.
  destruct a, b; cbn; try (split; [discriminate|congruence]); try tauto. rewrite authority_eqb_eq. split; congruence.
Qed.
Lemma parts_eqb_eq a b : parts_eqb a b = true <->
  p_scheme a = p_scheme b /\ p_authority a = p_authority b /\ p_query a = p_query b /\ p_fragment a = p_fragment b
  /\ segments (p_path a) = segments (p_path b) /\ (p_authority a = None -> absolute (p_path a) = absolute (p_path b)).
Proof.
  unfold parts_eqb.
  destruct (opt_eqb str_eqb (p_scheme a) (p_scheme b)) eqn:E1; cbn [negb orb].
  2:{ split; [discriminate|]. intros (H & _). apply opt_str_eqb in H. congruence. }
  destruct (opt_eqb authority_eqb (p_authority a) (p_authority b)) eqn:E2; cbn [negb orb].
  2:{ split; [discriminate|]. intros (_ & H & _). apply opt_auth_eqb in H. congruence. }
  destruct (opt_eqb str_eqb (p_query a) (p_query b)) eqn:E3; cbn [negb orb].
  2:{ split; [discriminate|]. intros (_ & _ & H & _). apply opt_str_eqb in H. congruence. }
  destruct (opt_eqb str_eqb (p_fragment a) (p_fragment b)) eqn:E4; cbn [negb orb].
  2:{ split; [discriminate|]. intros (_ & _ & _ & H & _). apply opt_str_eqb in H. congruence. }
  apply opt_str_eqb in E1, E3, E4. apply opt_auth_eqb in E2. rewrite <- E2.
  destruct (p_authority a) as [au|].
  - rewrite segs_eqb_eq. split; [intros H; repeat split; auto; discriminate|tauto].
  - rewrite path_eqb_eq. split.
    + intros ->. repeat split; auto. + intros (_ & _ & _ & _ & H1 & H2). destruct (p_path a), (p_path b); cbn in *. rewrite H1, H2; auto.
Qed.
Lemma canon_eqb p : parts_eqb (canon p) p = true.
Proof.
  apply parts_eqb_eq. unfold canon. destruct (p_authority p) eqn:E; cbn; repeat split; auto; try congruence.
Qed.
Lemma decomp_representable s p : URI_decomp s (comps p) -> representable p.
Proof.
  intros (sch & sh & st & _ & _ & _ & Hh & _). unfold representable. destruct Hh as [(a & _ & _ & Ea & _)|[Ea H]].
  - left. cbn in Ea. destruct (p_authority p); congruence.
  - right. cbn in H. destruct H as [(-> & _ & H)|[(-> & x & rest & -> & _ & Hx & _)|(_ & -> & ->)]].
    + destruct H as [->|(x & rest & -> & Hx & _)]; auto. apply segment_nz_cons in Hx. destruct x; [congruence|discriminate].
    + now apply segment_nz_cons. + exact I.
Qed.
Lemma decomp_well_formed s p : URI_decomp s (comps p) -> unambiguous (comps p) -> well_formed p.
Proof.
  intros (sch & sh & st & Es & Hs & _ & Hh & (_ & Hq & Hf)) Hu. cbn in *. split; [eauto|].
  assert (Ha : match p_authority p with Some a => well_formed_authority a | None => True end).
  { destruct (p_authority p) as [a|] eqn:Ea; auto. unfold unambiguous in Hu. cbn in Hu. rewrite Ea in Hu.
    destruct Hh as [(x & sa & sp & Ex & _ & Hx & _)|[Ex _]]; cbn in Ex; rewrite Ea in Ex; inv Ex.
    destruct Hx as (_ & H1 & H2 & H3). repeat split; auto. }
  split; auto. split; auto.
  destruct Hh as [(x & sa & sp & _ & _ & _ & (_ & H & _))|[_ H]]; [exact H|]. cbn in H.
  destruct H as [(_ & _ & [->|(x & rest & -> & Hx & Hr)])|[(_ & x & rest & -> & _ & Hx & Hr)|(_ & _ & ->)]]; auto.
  - constructor; auto. exists []. repeat split; auto.
  - constructor; auto. now apply nz_seg.
  - constructor; auto. now apply nz_seg.
Qed.
