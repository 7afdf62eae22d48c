(* join against RFC 3986 5.2.2 - 5.2.3 *)
From Verif Require Import Base ModelRule ModelUri Peg PegLang UriLang UriHost UriStruct SpecHost SpecParts SpecUri UriSplit UriValid SpecPath PathFacts PathRfc.
From Verif Require Rfc3986.
Import Rfc3986 (L, abnf, Rng, Lit, Cat, Alt, Rep, lower, components, mkcomponents, c_scheme, c_authority,
  c_absolute, c_segments, c_query, c_fragment, opt_pre, opt_post, in_opt, slashed, authority_decomp,
  abempty_decomp, absolute_decomp, rootless_decomp, empty_decomp, hier_decomp, tail_decomp, URI_decomp,
  relative_decomp, reference_decomp).
From Coq Require Import Lia ZifyBool ZifyNat ZifyN.

Lemma nz_nc_seg x : L Rfc3986.segment_nz_nc x -> L Rfc3986.segment x /\ x <> [].
Proof.
  intros H. split; [|now apply segment_nz_nc_cons]. destruct H as (l & -> & H & Hn & _).
  exists l. split; auto. split; [|split; [lia|auto]]. eapply Forall_impl; [|exact H]. cbn beta. intros y Hy.
  unfold Rfc3986.pchar. destruct Hy as [[[Hy|Hy]|Hy]|Hy]; [do 4 left|do 3 left; right|do 2 left; right|right]; auto.
Qed.
Lemma nz_seg' x : L Rfc3986.segment_nz x -> L Rfc3986.segment x /\ x <> [].
Proof. intros H. split; [now apply nz_seg|now apply segment_nz_cons]. Qed.
Lemma segment_no_slash x : L Rfc3986.segment x -> no_slash x.
Proof.
  intros H Hin. apply segment_chars in H. rewrite Forall_forall in H. apply H in Hin. vm_compute in Hin. discriminate.
Qed.

(* what a decomposition says about the path *)
Record path_shape (c : components) : Prop := {
  ps_segs : Forall (L Rfc3986.segment) (c_segments c);
  ps_abs : c_absolute c = true -> c_segments c <> [];
  ps_rel : forall x l, c_absolute c = false -> c_segments c = x :: l -> x <> [] /\ c_authority c = None }.
Lemma decomp_shape s c : reference_decomp s c -> path_shape c.
Proof.
  assert (G : forall first sh, (forall x, L first x -> L Rfc3986.segment x /\ x <> []) -> hier_decomp first sh c -> path_shape c).
  { intros first sh Hf [(a & sa & sp & Ea & _ & _ & (_ & H2 & H3))|[Ea H]].
    - split; auto.
      + rewrite H3. destruct (c_segments c); congruence.
      + intros x l E1 E2. rewrite H3, E2 in E1. discriminate.
    - assert (NZ := nz_seg').
      destruct H as [(E1 & _ & H)|[(E1 & x & rest & E2 & _ & H1 & H2)|(_ & E1 & E2)]].
      + destruct H as [E|(x & rest & E & H1 & H2)]; split; rewrite ?E, ?E1; try discriminate.
        * repeat constructor. exists []. repeat split; auto.
        * constructor; auto. now apply NZ.
      + split; rewrite ?E1, ?E2; try discriminate.
        * constructor; auto. now apply Hf.
        * intros y l _ E. inversion E; subst. split; auto. now apply Hf.
      + split; rewrite ?E1, ?E2; try discriminate. constructor. }
  intros [(sch & sh & st & _ & _ & _ & H & _)|(sh & st & _ & _ & H & _)].
  - eapply G; [|exact H]. apply nz_seg'.
  - eapply G; [|exact H]. apply nz_nc_seg.
Qed.
Lemma shape_no_slash c : path_shape c -> Forall no_slash (c_segments c).
Proof. intros H. eapply Forall_impl; [|exact (ps_segs _ H)]. apply segment_no_slash. Qed.
Lemma shape_text_nil c : path_shape c -> path_text (c_absolute c) (c_segments c) = [] -> c_segments c = [].
Proof.
  intros H. destruct (c_absolute c) eqn:E; cbn.
  - destruct (c_segments c); [auto|discriminate].
  - destruct (c_segments c) as [|x l] eqn:El; auto. destruct (ps_rel _ H _ _ E El) as [Hx _]. destruct x; [congruence|discriminate].
Qed.
Lemma shape_text_hd c a t : path_shape c -> path_text (c_absolute c) (c_segments c) = a :: t -> Ascii.eqb a slash = c_absolute c.
Proof.
  intros H. destruct (c_absolute c) eqn:E; cbn.
  - destruct (c_segments c); [discriminate|]. cbn. intros E2. inversion E2; subst. reflexivity.
  - destruct (c_segments c) as [|x l] eqn:El; [discriminate|]. destruct (ps_rel _ H _ _ E El) as [Hx _]. destruct x as [|b x]; [congruence|].
    cbn. intros E2. inversion E2; subst. pose proof (shape_no_slash _ H) as Hs. rewrite El in Hs. inversion Hs as [|? ? Hs1 _]; subst.
    apply no_slash_cons in Hs1. tauto.
Qed.

(* 5.2.4 outside the corner cases *)
Lemma rds_no_corner abs segs : Forall no_slash segs -> ~ corner abs segs ->
  rds_total (path_text abs segs) = path_text abs (rds_segments segs).
Proof.
  intros Hs Hc. unfold corner in Hc. destruct (rds_rfc_exact (mkpath abs segs) Hs) as (c & t & E & Hcl & Ht). rewrite path_string_text in E. cbn [absolute segments remove_dot_segments] in *.
  unfold rds_total. rewrite E. destruct Ht as [[Hd _]|[_ ->]]; [tauto|]. rewrite app_nil_r. f_equal.
  destruct abs; [apply Hcl; auto|]. destruct c; auto. destruct Hcl as [Hcl _]. destruct (Hcl eq_refl); [congruence|]. tauto.
Qed.

(* 5.2.3 *)
Lemma from_slash_app x r : no_slash x -> from_slash (x ++ slash :: r) = slash :: r.
Proof. induction x as [|c x IH]; intros H; [reflexivity|]. destruct (no_slash_cons _ _ H) as [Hc Hx]. cbn. rewrite Hc. auto. Qed.
Lemma up_to_last_slash_app o x : no_slash x -> up_to_last_slash (o ++ slash :: x) = o ++ [slash].
Proof.
  intros H. unfold up_to_last_slash. rewrite rev_app_distr. cbn [rev]. rewrite <- app_assoc. cbn [app].
  rewrite from_slash_app by now apply no_slash_rev. cbn [rev]. now rewrite rev_involutive.
Qed.
Lemma path_text_app c k r : k <> [] -> r <> [] -> path_text c (k ++ r) = path_text c k ++ slash :: path_text false r.
Proof.
  intros Hk Hr. destruct r as [|x r]; [congruence|]. destruct c; cbn [path_text].
  - rewrite slashed_app. reflexivity.
  - destruct k as [|y k]; [congruence|]. cbn [app]. rewrite slashed_app, app_assoc. reflexivity.
Qed.
Lemma merge_rfc b r : path_shape (comps b) -> absolute (p_path r) = false -> segments (p_path r) <> [] ->
  (forall x, segments (p_path b) <> [x]) ->
  rfc_merge (five (comps b)) (five (comps r)) = path_text (absolute (merge b r)) (segments (merge b r))
  /\ (absolute (merge b r), segments (merge b r)) = merged (comps b) (comps r).
Proof.
  intros Hb Ha Hr Hone. destruct b as [sc au [ab sb] q f], r as [sc' au' [ar sr] q' f'].
  pose proof (shape_no_slash _ Hb) as Hns. pose proof (shape_text_nil _ Hb) as Hnil. pose proof (ps_abs _ Hb) as Habs.
  unfold rfc_merge, merge, merged, five, comps in *. cbn [u_authority u_path p_authority p_path absolute segments c_authority c_absolute c_segments path_is_empty] in *. subst ar.
  destruct sb as [|x1 sb].
  { assert (ab = false) by (destruct ab; auto; now specialize (Habs eq_refl)). subst ab. unfold path_is_empty. cbn [segments].
    destruct au as [[u h p]|]; cbn [option_map path_text absolute segments].
    - split; auto. destruct sr as [|x l]; [congruence|]. reflexivity.
    - split; auto. }
  assert (Hlen : exists k y, x1 :: sb = k ++ [y] /\ k <> []).
  { destruct sb as [|x2 sb]; [exfalso; now apply (Hone x1)|]. destruct (@exists_last _ (x2 :: sb)) as (k & y & E); [discriminate|].
    exists (x1 :: k), y. rewrite E. split; [reflexivity|discriminate]. }
  destruct Hlen as (k & y & E & Hk). rewrite E in *. unfold path_is_empty. cbn [segments].
  assert (Hmatch : forall (T : Type) (A B : T), match k ++ [y] with [] => A | _ => B end = B) by (intros; destruct k; [congruence|reflexivity]).
  assert (Hltb : Nat.ltb 1 (length (k ++ [y])) = true).
  { apply Nat.ltb_lt. rewrite app_length. destruct k; [congruence|]. cbn. lia. }
  assert (Hfirst : firstn (length (k ++ [y]) - 1) (k ++ [y]) = k).
  { rewrite app_length. cbn. replace (length k + 1 - 1) with (length k) by lia. rewrite firstn_app, Nat.sub_diag, firstn_all. cbn. apply app_nil_r. }
  assert (Hy : no_slash y). { apply Forall_app in Hns. destruct Hns as [_ Hns]. now inversion Hns. }
  assert (Htext : up_to_last_slash (path_text ab (k ++ [y])) ++ path_text false sr = path_text ab (k ++ sr)).
  { rewrite path_text_snoc by auto. rewrite up_to_last_slash_app by auto. rewrite (path_text_app ab k sr) by auto. now rewrite <- app_assoc. }
  assert (Hpt : path_text ab (k ++ [y]) <> []).
  { rewrite path_text_snoc by auto. destruct (path_text ab k); discriminate. }
  rewrite Hltb, Hfirst. rewrite removelast_snoc.
  destruct (path_text ab (k ++ [y])) as [|p0 pt] eqn:Ept; [congruence|].
  destruct (k ++ [y]) as [|k0 kt] eqn:Ek; [destruct k; discriminate|].
  destruct au as [[u h p]|]; cbn [option_map absolute segments]; split; auto.
Qed.


Lemma opt_str_eqb_spec a b : reflect (a = b) (opt_eqb str_eqb a b).
Proof. destruct (opt_eqb str_eqb a b) eqn:E; constructor; [now apply opt_str_eqb|intros H; apply opt_str_eqb in H; congruence]. Qed.
Lemma join_rfc sb sr b r strict : reference_decomp sb (comps b) -> reference_decomp sr (comps r) ->
  ~ (merge_applies strict (comps b) (comps r) /\ exists x, c_segments (comps b) = [x]) ->
  (forall abs segs, dotted_path strict (comps b) (comps r) abs segs -> ~ corner abs segs) ->
  five (comps (join_parts b r strict)) = rfc_transform rds_total strict (five (comps b)) (five (comps r)).
Proof.
  intros Hb Hr Hone Hc. apply decomp_shape in Hb. apply decomp_shape in Hr.
  pose proof (shape_no_slash _ Hr) as Nr. pose proof (shape_no_slash _ Hb) as Nb.
  unfold join_parts, rfc_transform, merge_applies in *.
  change (u_scheme (five (comps r))) with (p_scheme r). change (u_scheme (five (comps b))) with (p_scheme b).
  assert (Hsch : (if negb strict && opt_eqb str_eqb (p_scheme r) (p_scheme b) then None else p_scheme r) = None
     <-> p_scheme r = None \/ (strict = false /\ p_scheme r = p_scheme b)).
  { destruct strict; cbn [negb andb]; [intuition congruence|].
    destruct (opt_str_eqb_spec (p_scheme r) (p_scheme b)); intuition congruence. }
  set (rs := if negb strict && opt_eqb str_eqb (p_scheme r) (p_scheme b) then None else p_scheme r) in *.
  assert (OWN : ~ merge_applies strict (comps b) (comps r) -> rds_total (path_text (absolute (p_path r)) (segments (p_path r)))
           = path_text (absolute (p_path r)) (rds_segments (segments (p_path r)))).
  { intros Hm. apply rds_no_corner; [exact Nr|]. apply Hc. now apply dp_own. }
  destruct rs as [sch|] eqn:Ers.
  { unfold five at 1. cbn. rewrite <- OWN; [reflexivity|]. intros [H _]. apply Hsch in H. discriminate. }
  destruct r as [rsc ra [rabs rsegs] rq rf]. cbn [p_scheme p_authority p_path p_query p_fragment absolute segments] in *.
  destruct ra as [[u h pt]|].
  { unfold five. cbn. rewrite <- OWN; [reflexivity|]. intros (_ & H & _). discriminate. }
  unfold path_is_empty. cbn [segments].
  change (u_authority (five (comps (mkparts rsc None (mkpath rabs rsegs) rq rf)))) with (@None str).
  change (u_path (five (comps (mkparts rsc None (mkpath rabs rsegs) rq rf)))) with (path_text rabs rsegs).
  destruct (path_text rabs rsegs) as [|ch t] eqn:Et.
  { apply (shape_text_nil _ Hr) in Et. cbn in Et. subst rsegs. destruct rq; reflexivity. }
  pose proof (shape_text_hd _ _ _ Hr Et) as Hh. cbn [comps c_absolute p_path absolute] in Hh.
  assert (Hseg : rsegs <> []). { intros ->. destruct rabs; discriminate. }
  destruct rsegs as [|s1 rsegs]; [congruence|]. rewrite Hh.
  destruct rabs.
  - unfold five. cbn [comps p_scheme p_authority p_path p_query p_fragment absolute segments c_scheme c_authority c_absolute c_segments c_query c_fragment u_scheme u_authority u_path u_query u_fragment option_map remove_dot_segments].
    rewrite <- OWN; [reflexivity|]. intros (_ & _ & H & _). discriminate.
  - assert (HM : merge_applies strict (comps b) (comps (mkparts rsc None (mkpath false (s1 :: rsegs)) rq rf))).
    { split; [now apply Hsch|]. split; [reflexivity|]. split; [reflexivity|discriminate]. }
    destruct (merge_rfc b (mkparts rsc None (mkpath false (s1 :: rsegs)) rq rf)) as [HM1 HM2]; auto; try discriminate.
    { intros x Hx. apply Hone. split; [exact HM|]. now exists x. }
    unfold five at 1. cbn [comps p_scheme p_authority p_path p_query p_fragment absolute segments c_scheme c_authority c_absolute c_segments c_query c_fragment u_scheme u_authority u_path u_query u_fragment option_map remove_dot_segments].
    rewrite HM1, rds_no_corner; [reflexivity| |].
    + assert (E : segments (merge b (mkparts rsc None (mkpath false (s1 :: rsegs)) rq rf)) = snd (merged (comps b) (comps (mkparts rsc None (mkpath false (s1 :: rsegs)) rq rf)))) by now rewrite <- HM2.
      rewrite E. unfold merged. cbn [comps c_segments c_authority p_path segments p_authority].
      assert (F : Forall no_slash (removelast (segments (p_path b)) ++ s1 :: rsegs)).
      { apply Forall_app. split; [|exact Nr]. change (segments (p_path b)) with (c_segments (comps b)). destruct (c_segments (comps b)) as [|y k _] using rev_ind; [constructor|].
        rewrite removelast_snoc. apply Forall_app in Nb. tauto. }
      destruct (p_authority b); [destruct (segments (p_path b)) as [|? ?]|]; exact F || exact Nr.
    + apply Hc.
      replace (absolute (merge b (mkparts rsc None (mkpath false (s1 :: rsegs)) rq rf))) with (fst (merged (comps b) (comps (mkparts rsc None (mkpath false (s1 :: rsegs)) rq rf)))) by now rewrite <- HM2.
      replace (segments (merge b (mkparts rsc None (mkpath false (s1 :: rsegs)) rq rf))) with (snd (merged (comps b) (comps (mkparts rsc None (mkpath false (s1 :: rsegs)) rq rf)))) by now rewrite <- HM2.
      now apply dp_merged.
Qed.

Lemma rds_in x segs : In x (rds_segments segs) -> x = [] \/ In x segs.
Proof.
  destruct (rds_segments_result segs) as (k & Hk & Hr). apply resolves_subseq in Hk.
  assert (G : forall (a b : list str), subseq a b -> forall z, In z a -> In z b).
  { clear. induction 1; cbn; intuition. }
  intros Hx. destruct Hr as [(_ & _ & E)|(_ & E)]; rewrite E in Hx.
  - apply in_app_or in Hx. destruct Hx as [Hx|[Hx|[]]]; [right; eauto|left; auto].
  - right; eauto.
Qed.
Lemma rds_Forall (P : str -> Prop) segs : P [] -> Forall P segs -> Forall P (rds_segments segs).
Proof. rewrite !Forall_forall. intros H0 H x Hx. destruct (rds_in _ _ Hx) as [->|Hx2]; auto. Qed.
Lemma segment_nil : L Rfc3986.segment [].
Proof. exists []. repeat split; auto. Qed.
Lemma merge_Forall (P : str -> Prop) b r : Forall P (segments (p_path b)) -> Forall P (segments (p_path r)) -> Forall P (segments (merge b r)).
Proof.
  intros Hb Hr. unfold merge. assert (G : Forall P ((if Nat.ltb 1 (length (segments (p_path b))) then firstn (length (segments (p_path b)) - 1) (segments (p_path b)) else segments (p_path b)) ++ segments (p_path r))).
  { apply Forall_app. split; auto. destruct (Nat.ltb _ _); auto. apply Forall_forall. intros x Hx. rewrite Forall_forall in Hb. apply Hb. rewrite <- (firstn_skipn (length (segments (p_path b)) - 1)). apply in_or_app. now left. }
  destruct (p_authority b); [destruct (path_is_empty _)|]; auto.
Qed.

(* everything but the presence of a scheme *)
Lemma ref_decomp_well_formed s p : reference_decomp s (comps p) -> unambiguous (comps p) -> well_formed_reference p.
Proof.
  intros H Hu. pose proof (ps_segs _ (decomp_shape _ _ H)) as Hs.
  assert (A : forall first sh, hier_decomp first sh (comps p) -> match p_authority p with Some a => well_formed_authority a | None => True end).
  { intros first sh Hh. destruct (p_authority p) as [a|] eqn:Ea; auto. unfold unambiguous in Hu. cbn in Hu. rewrite Ea in Hu.
    destruct Hh as [(x & sa & sp & Ex & _ & Hx & _)|[Ex _]]; cbn in Ex; rewrite Ea in Ex; inversion Ex; subst.
    destruct Hx as (_ & H1 & H2 & H3). repeat split; auto. }
  destruct H as [(sch & sh & st & Es & Hsc & _ & Hh & (_ & Hq & Hf))|(sh & st & Es & _ & Hh & (_ & Hq & Hf))]; cbn in Es; unfold well_formed_reference; rewrite Es; cbn [in_opt]; (split; [solve [auto]|split; [exact (A _ _ Hh)|split; [exact Hs|split; [exact Hq|exact Hf]]]]).
Qed.
Lemma join_well_formed b r strict : well_formed b -> well_formed_reference r -> well_formed (join_parts b r strict).
Proof.
  intros (Hs & Ha & Hg & Hq & Hf) (Rs & Ra & Rg & Rq & Rf). pose proof segment_nil as HN. unfold join_parts, well_formed.
  destruct (if negb strict && _ then None else p_scheme r) as [sch|] eqn:E.
  - cbn. split; [|split; [auto|split; [now apply rds_Forall|auto]]]. exists sch. split; auto.
    destruct (negb strict && _); [discriminate|]. rewrite E in Rs. exact Rs.
  - destruct (p_authority r) as [ra|] eqn:Ea.
    + cbn. split; [auto|split; [auto|split; [now apply rds_Forall|auto]]].
    + destruct (path_is_empty (p_path r)).
      * cbn. split; [auto|split; [auto|split; [auto|]]]. split; auto. destruct (p_query r); auto.
      * destruct (absolute (p_path r)); cbn; (split; [auto|split; [auto|split; [|auto]]]); apply rds_Forall; auto. now apply merge_Forall.
Qed.

(* split_reference and join, validity *)
From Verif Require Import UriProps.
Lemma split_reference_valid sg fuel s p : SpecUri.fits fuel s -> split_reference sg fuel s = Ok (Some p) ->
  path_valid sg fuel (p_path p) = Ok true
  /\ match p_authority p with Some a => authority_valid sg fuel a = Ok true | None => True end
  /\ (p_scheme p <> None -> parts_valid sg fuel p = Ok true).
Proof.
  intros Hf E. apply split_reference_iff in E; auto. destruct E as [E1 E2].
  assert (Hp : parts_fit fuel p). { apply compose_parts_fit. now rewrite (decomp_compose s). }
  pose proof (ref_decomp_well_formed _ _ E1 E2) as (W1 & W2 & W3 & W4 & W5). pose proof Hp as (F1 & F2 & F3 & _).
  split; [|split].
  - unfold path_valid. now apply segs_true.
  - destruct (p_authority p) as [a|]; auto. destruct F2 as (? & ? & ?). now apply authority_valid_iff.
  - intros Hs. apply parts_valid_iff; auto. split; [|auto]. destruct (p_scheme p) as [x|]; [|congruence]. exists x. auto.
Qed.
Lemma join_valid sg fuel base ref strict t : SpecUri.fits fuel base -> SpecUri.fits fuel ref ->
  join sg fuel base ref strict = Ok (Some t) -> well_formed t.
Proof.
  intros Fb Fr. unfold join. destruct (split sg fuel base) as [[b|]| |] eqn:Eb; cbn [bind]; try discriminate.
  destruct (split_reference sg fuel ref) as [[r|]| |] eqn:Er; cbn [bind]; try discriminate. intros E. inversion E; subst.
  apply split_iff in Eb; auto. apply split_reference_iff in Er; auto. destruct Eb as [Eb1 Eb2], Er as [Er1 Er2].
  apply join_well_formed; [eapply decomp_well_formed; eauto|eapply ref_decomp_well_formed; eauto].
Qed.
Lemma join_strings sg fuel base ref strict o : join sg fuel base ref strict = Ok o <->
  (split sg fuel base = Ok None /\ o = None)
  \/ (exists b, split sg fuel base = Ok (Some b) /\ split_reference sg fuel ref = Ok None /\ o = None)
  \/ (exists b r, split sg fuel base = Ok (Some b) /\ split_reference sg fuel ref = Ok (Some r) /\ o = Some (join_parts b r strict)).
Proof.
  unfold join. split.
  - destruct (split sg fuel base) as [[b|]| |]; cbn [bind]; try discriminate.
    + destruct (split_reference sg fuel ref) as [[r|]| |]; cbn [bind]; try discriminate; intros E; inversion E; subst; right; eauto 8.
    + intros E; inversion E; auto.
  - intros [[-> ->]|[(b & -> & -> & ->)|(b & r & -> & -> & ->)]]; reflexivity.
Qed.
Lemma join_scheme_fragment b r strict : let t := join_parts b r strict in
  p_fragment t = p_fragment r /\ p_scheme t = (match p_scheme r with
    | Some s => if negb strict && opt_eqb str_eqb (Some s) (p_scheme b) then p_scheme b else Some s | None => p_scheme b end).
Proof.
  cbn zeta. unfold join_parts. destruct (p_scheme r) as [s|].
  - destruct (negb strict && opt_eqb str_eqb (Some s) (p_scheme b)).
    + destruct (p_authority r); [auto|]. destruct (path_is_empty (p_path r)); [auto|]. destruct (absolute (p_path r)); auto.
    + auto.
  - assert (E : (if negb strict && opt_eqb str_eqb None (p_scheme b) then None else @None str) = None) by now destruct (_ && _).
    rewrite E. destruct (p_authority r); [auto|]. destruct (path_is_empty (p_path r)); [auto|]. destruct (absolute (p_path r)); auto.
Qed.
