(* join against RFC 3986 5.2.2: exactly when they agree *)
From Verif Require Import Base ModelRule ModelUri Peg PegLang UriLang UriHost UriStruct SpecHost SpecParts SpecUri UriSplit UriValid UriProps SpecPath PathFacts PathRfc JoinFacts PropPathFacts SpecMerge.
From Verif Require Rfc3986.
Import Rfc3986 (L, components, c_scheme, c_authority, c_absolute, c_segments, c_query, c_fragment, slashed, URI_decomp, reference_decomp).
From Coq Require Import Lia ZifyBool ZifyNat ZifyN.

(* --- a segment in front ------------------------------------------------------------------------- *)
Fixpoint out_of (st segs : list str) : bool :=
  match segs with
  | [] => false
  | s :: r => if is_dot s then out_of st r
              else if is_dotdot s then match st with [] => true | _ => out_of (removelast st) r end
              else out_of (st ++ [s]) r
  end.
Lemma out_of_app st a b : out_of st a = false -> out_of st (a ++ b) = out_of (stk st a) b.
Proof.
  revert st. induction a as [|x a IH]; intros st; cbn; auto. destruct (is_dot x); auto. destruct (is_dotdot x); auto.
  destruct st; [discriminate|auto].
Qed.
Lemma out_of_prefix st a b : out_of st a = true -> out_of st (a ++ b) = true.
Proof.
  revert st. induction a as [|x a IH]; intros st; cbn; [discriminate|]. destruct (is_dot x); auto. destruct (is_dotdot x); auto.
  destruct st; auto.
Qed.
Lemma climbs_out_iff segs : climbs_out segs <-> out_of [] segs = true.
Proof.
  split.
  - intros (pre & post & -> & R). apply stk_resolves in R. destruct (out_of [] pre) eqn:E; [now apply out_of_prefix|].
    rewrite out_of_app, R by auto. reflexivity.
  - assert (G : forall segs st, out_of st segs = true -> exists pre post, segs = pre ++ dotdot :: post /\ stk st pre = []).
    { induction segs0 as [|x l IH]; intros st; cbn; [discriminate|].
      destruct (is_dot_spec x) as [->|N1]; [|destruct (is_dotdot_spec x) as [->|N2]].
      - intros H. destruct (IH _ H) as (pre & post & -> & E). exists (dot :: pre), post. split; auto.
      - destruct st as [|y st]; [intros _; exists [], l; auto|].
        intros H. destruct (IH _ H) as (pre & post & -> & E). exists (dotdot :: pre), post. split; auto.
      - intros H. destruct (IH _ H) as (pre & post & -> & E). exists (x :: pre), post. split; auto. cbn.
        destruct (is_dot_spec x); [congruence|]. destruct (is_dotdot_spec x); [congruence|]. exact E. }
    intros H. destruct (G _ _ H) as (pre & post & -> & E). exists pre, post. split; auto. now apply resolves_iff.
Qed.
Lemma stk_front x segs : forall st, stk (x :: st) segs = if out_of st segs then stk st segs else x :: stk st segs.
Proof.
  induction segs as [|s r IH]; intros st; cbn [stk out_of]; auto. destruct (is_dot s); auto.
  destruct (is_dotdot s); [|apply (IH (st ++ [s]))].
  destruct st as [|y st]; [reflexivity|]. change (removelast (x :: y :: st)) with (x :: removelast (y :: st)). apply IH.
Qed.
Lemma last_cons_ne {T} (x : T) l d : l <> [] -> last (x :: l) d = last l d.
Proof. destruct l; [congruence|reflexivity]. Qed.
(* x does not stay *)
Lemma rds_gone x segs : segs <> [] -> is_dots x \/ climbs_out segs -> rds_segments (x :: segs) = rds_segments segs.
Proof.
  intros Hn H. rewrite !rds_segments_stk. cbn zeta. rewrite last_cons_ne by auto.
  assert (E : stk [] (x :: segs) = stk [] segs).
  { cbn [stk]. destruct (is_dot_spec x) as [->|N1]; auto. destruct (is_dotdot_spec x) as [->|N2]; auto.
    destruct H as [[H|H]|H]; [congruence|congruence|]. apply climbs_out_iff in H. cbn [app]. rewrite stk_front, H. reflexivity. }
  rewrite E. destruct segs; [congruence|]. reflexivity.
Qed.
(* x stays *)
Lemma rds_stays_front x segs : segs <> [] -> ~ is_dots x -> ~ climbs_out segs ->
  rds_segments (x :: segs) = if match stk [] segs with [] => is_empty x | _ => false end then [[]] else x :: rds_segments segs.
Proof.
  intros Hn Hx Hc. rewrite !rds_segments_stk. cbn zeta. rewrite last_cons_ne by auto.
  assert (E : stk [] (x :: segs) = x :: stk [] segs).
  { cbn [stk]. destruct (is_dot_spec x) as [->|N1]; [exfalso; apply Hx; now left|]. destruct (is_dotdot_spec x) as [->|N2]; [exfalso; apply Hx; now right|].
    cbn [app]. rewrite stk_front. destruct (out_of [] segs) eqn:Eo; [|reflexivity]. apply climbs_out_iff in Eo. tauto. }
  rewrite E. destruct segs as [|y segs] using rev_ind; [congruence|]. clear IHsegs.
  replace (match segs ++ [y] with [] => false | _ => dirlike (last (segs ++ [y]) []) end) with (dirlike y)
    by (rewrite last_snoc; destruct segs; reflexivity). rewrite last_snoc.
  destruct (stk [] (segs ++ [y])) as [|k0 k] eqn:Ek.
  - assert (D : dirlike y = true).
    { rewrite stk_app in Ek. cbn [stk] in Ek. unfold dirlike. destruct (is_dot y); [reflexivity|]. destruct (is_dotdot y); [reflexivity|].
      destruct (stk [] segs); discriminate. }
    rewrite D. cbn [last]. destruct (is_empty_spec x) as [->|]; reflexivity.
  - destruct (dirlike y); [|reflexivity]. rewrite last_cons_ne by discriminate. destruct (is_empty (last (k0 :: k) [])); reflexivity.
Qed.

(* --- texts --------------------------------------------------------------------------------------- *)
Lemma rotate {T} (c : T) s : c :: s = s ++ [c] -> Forall (fun y => y = c) s.
Proof.
  induction s as [|y s IH]; intros E; [constructor|]. cbn in E. injection E as E1 E2. subst y. constructor; auto.
Qed.
Lemma rotate_inv {T} (c : T) s : Forall (fun y => y = c) s -> c :: s = s ++ [c].
Proof. induction 1 as [|y s -> _ IH]; [reflexivity|]. cbn. now rewrite <- IH. Qed.
Lemma slashed_all l : Forall (fun s => s = []) l -> Forall (fun y => y = slash) (slashed l).
Proof. induction 1 as [|y s -> _ IH]; [constructor|]. rewrite slashed_cons'. constructor; auto. Qed.
Lemma slashed_all_inv l : Forall no_slash l -> Forall (fun y => y = slash) (slashed l) -> Forall (fun s => s = []) l.
Proof.
  induction 1 as [|x l Hx _ IH]; [constructor|]. rewrite slashed_cons'. intros H. inversion H as [|? ? _ H2]; subst. apply Forall_app in H2.
  destruct H2 as [H1 H2]. constructor; auto. destruct x as [|c x]; auto. inversion H1; subst. exfalso. apply Hx. now left.
Qed.
Lemma rds_nonempty segs : segs <> [] -> rds_segments segs <> [].
Proof.
  intros H. rewrite rds_segments_stk. cbn zeta. destruct segs as [|y segs _] using rev_ind; [congruence|].
  replace (match segs ++ [y] with [] => false | _ => dirlike (last (segs ++ [y]) []) end) with (dirlike y) by (rewrite last_snoc; destruct segs; reflexivity).
  destruct (stk [] (segs ++ [y])) as [|k0 k] eqn:Ek.
  - assert (D : dirlike y = true).
    { rewrite stk_app in Ek. cbn [stk] in Ek. unfold dirlike. destruct (is_dot y); [reflexivity|]. destruct (is_dotdot y); [reflexivity|].
      destruct (stk [] segs); discriminate. }
    rewrite D. discriminate.
  - destruct (dirlike y); [|discriminate]. destruct (is_empty _); discriminate.
Qed.
Lemma text_len c l : l <> [] -> length (path_text c l) + (if c then 0 else 1) = length (slashed l).
Proof. intros H. destruct c; cbn [path_text]; [lia|]. destruct l as [|x l]; [congruence|]. rewrite slashed_cons'. cbn. lia. Qed.

(* a corner makes a difference, always *)
Lemma rds_iff abs segs : Forall no_slash segs ->
  (path_text abs (rds_segments segs) = rds_total (path_text abs segs) <-> ~ corner abs segs).
Proof.
  intros Hs. pose proof (rds_rfc_iff (mkpath abs segs) Hs) as E. rewrite !path_string_text in E. cbn [absolute segments remove_dot_segments] in E.
  unfold rds_total. destruct (rfc_rds_total (path_text abs segs)) as [r Er]. rewrite Er in *. rewrite <- E. split; intros H; congruence.
Qed.
(* the one segment of the base path stays *)
Lemma front_iff abs x segs : Forall no_slash segs -> segs <> [] -> no_slash x -> (abs = false -> x <> []) -> ~ is_dots x -> ~ climbs_out segs ->
  (path_text abs (rds_segments (x :: segs)) = rds_total (path_text abs segs) <-> x = [] /\ leaves_slashes segs).
Proof.
  intros Hs Hn Hx Hr Hd Hc. rewrite rds_stays_front by auto.
  destruct (rds_rfc_exact (mkpath abs segs) Hs) as (c & t & E & Hcl & Ht). rewrite path_string_text in E. cbn [absolute segments remove_dot_segments] in *.
  unfold rds_total. rewrite E. clear E.
  pose proof (rds_nonempty _ Hn) as Hne. pose proof (text_len c _ Hne) as Hlen.
  assert (Tl : length t <= 1) by (destruct Ht as [[_ ->]|[_ ->]]; cbn; lia).
  assert (LS : leaves_slashes segs <-> dotty (last segs []) = true /\ Forall (fun s => s = []) (stk [] segs)).
  { unfold leaves_slashes. split.
    - intros ((l & d & -> & Hd1) & k & Hk & Hf). rewrite last_snoc. apply stk_resolves in Hk. rewrite Hk. split; auto. now destruct (dotty_spec d).
    - intros [H1 H2]. split; [|exists (stk [] segs); split; auto; apply resolves_stk].
      destruct segs as [|d l _] using rev_ind; [congruence|]. rewrite last_snoc in H1. exists l, d. split; auto. now destruct (dotty_spec d). }
  rewrite LS. clear LS.
  destruct (is_empty_spec x) as [->|Nx].
  - assert (abs = true) as -> by (destruct abs; auto; exfalso; now apply Hr). assert (c = true) as -> by (apply Hcl; auto). cbn [path_text is_empty].
    destruct (stk [] segs) as [|k0 k] eqn:Ek.
    + assert (D : dotty (last segs []) = true).
      { destruct segs as [|d l _] using rev_ind; [congruence|]. rewrite last_snoc. rewrite stk_app in Ek. cbn [stk] in Ek. unfold dotty.
        destruct (is_dot d); [reflexivity|]. destruct (is_dotdot d); [reflexivity|]. destruct (stk [] l); discriminate. }
      split; [intros _; auto|intros _].
      assert (Et : t = []).
      { destruct Ht as [[Ht _]|[_ Ht]]; auto. exfalso. destruct Ht as (? & ? & k & _ & _ & Hk). apply stk_resolves in Hk. rewrite Ek in Hk. destruct k; discriminate. }
      assert (Er : rds_segments segs = [[]]).
      { rewrite rds_segments_stk. cbn zeta. rewrite Ek. destruct segs as [|s0 segs]; [congruence|]. unfold dirlike. unfold dotty in D. now rewrite D. }
      rewrite Er, Et. reflexivity.
    + rewrite slashed_cons'. cbn [app]. split.
      * intros H. split; auto. destruct Ht as [[Ht ->]|[_ ->]].
        -- change (ss "/") with [slash] in H. apply rotate in H. apply dae_iff in Ht.
           assert (D : dotty (last segs []) = true /\ is_empty (last (k0 :: k) []) = true).
           { unfold dae in Ht. destruct segs; [congruence|]. apply andb_true_iff in Ht. rewrite Ek in Ht. exact Ht. }
           split; [tauto|]. destruct D as [D1 D2].
           assert (Er : rds_segments segs = k0 :: k).
           { rewrite rds_segments_stk. cbn zeta. rewrite Ek. destruct segs; [congruence|]. rewrite D2. destruct (dirlike _); reflexivity. }
           rewrite Er in H. apply slashed_all_inv in H; auto. rewrite <- Ek. eapply incl_Forall; [|exact Hs].
           intros z Hz. assert (G : forall (a b : list str), subseq a b -> forall z, In z a -> In z b) by (clear; induction 1; cbn; intuition).
           eapply G; [apply resolves_subseq, resolves_stk|exact Hz].
        -- exfalso. apply (f_equal (@length _)) in H. rewrite app_nil_r in H. cbn in H. lia.
      * intros (_ & D & F).
        assert (Le : is_empty (last (k0 :: k) []) = true).
        { assert (In (last (k0 :: k) []) (k0 :: k)) as Hi by (apply last_in; discriminate). rewrite Forall_forall in F. now rewrite (F _ Hi). }
        assert (Er : rds_segments segs = k0 :: k).
        { rewrite rds_segments_stk. cbn zeta. rewrite Ek. destruct segs; [congruence|]. rewrite Le. destruct (dirlike _); reflexivity. }
        assert (Da : dots_after_empty segs).
        { apply dae_iff. unfold dae. destruct segs; [congruence|]. rewrite D, Ek. exact Le. }
        destruct Ht as [[_ ->]|[Ht _]]; [|tauto]. rewrite Er. change (ss "/") with [slash]. apply rotate_inv, slashed_all, F.
  - split; [|intros [H _]; congruence]. intros H. exfalso.
    assert (E0 : (match stk [] segs with [] => false | _ => false end) = false) by (destruct (stk [] segs); auto). rewrite E0 in H.
    destruct x as [|a x]; [congruence|]. destruct abs.
    + assert (c = true) as -> by (apply Hcl; auto). cbn [path_text] in *. apply (f_equal (@length _)) in H. rewrite slashed_cons', app_length in H. cbn [app length] in H. rewrite app_length in H. cbn in *. lia.
    + cbn [path_text app] in H. destruct c.
      * destruct (rds_segments segs) as [|y r]; [congruence|]. cbn [path_text] in H. rewrite (slashed_cons' y r) in H at 2. cbn in H. inversion H; subst. apply Hx. now left.
      * apply (f_equal (@length _)) in H. rewrite app_length in H. cbn [length] in H. rewrite app_length in H. lia.
Qed.

(* --- join ------------------------------------------------------------------------------------------ *)
Lemma merge_rfc_one b r x : path_shape (comps b) -> absolute (p_path r) = false -> segments (p_path r) <> [] -> segments (p_path b) = [x] ->
  rfc_merge (five (comps b)) (five (comps r)) = path_text (absolute (p_path b)) (segments (p_path r))
  /\ merged (comps b) (comps r) = (absolute (p_path b), segments (p_path r)).
Proof.
  intros Hb Ha Hr Hx. destruct b as [sc au [ab sb] q f], r as [sc' au' [ar sr] q' f'].
  pose proof (shape_no_slash _ Hb) as Hns. pose proof (ps_rel _ Hb) as Hrel.
  unfold rfc_merge, merged, five, comps in *. cbn [u_authority u_path p_authority p_path absolute segments c_authority c_absolute c_segments] in *. subst ar sb.
  inversion Hns as [|? ? Hx _]; subst. split; [|destruct au; reflexivity].
  assert (E : up_to_last_slash (path_text ab [x]) = if ab then [slash] else []).
  { destruct ab; cbn [path_text].
    - rewrite slashed_cons'. change (slashed []) with (@nil ascii). rewrite app_nil_r. change (slash :: x) with ([] ++ slash :: x). rewrite up_to_last_slash_app by auto. reflexivity.
    - change (slashed []) with (@nil ascii). rewrite app_nil_r. unfold up_to_last_slash.
      assert (F : forall y, no_slash y -> from_slash y = []).
      { induction y as [|c y IH]; intros Hy; [reflexivity|]. destruct (no_slash_cons _ _ Hy) as [Hc Hy']. cbn. rewrite Hc. auto. }
      rewrite F by now apply no_slash_rev. reflexivity. }
  assert (N : path_text ab [x] <> []).
  { destruct ab; cbn [path_text]; [rewrite slashed_cons'; discriminate|]. destruct (Hrel x [] eq_refl eq_refl) as [Hne _]. destruct x; [congruence|discriminate]. }
  assert (R : (match option_map authority_text (option_map (fun a => (userinfo a, host a, port a)) au) with
               | Some _ => match path_text ab [x] with [] => ss "/" ++ path_text false sr | _ => up_to_last_slash (path_text ab [x]) ++ path_text false sr end
               | None => up_to_last_slash (path_text ab [x]) ++ path_text false sr end) = path_text ab sr).
  { rewrite E. assert (R0 : (if ab then [slash] else []) ++ path_text false sr = path_text ab sr).
    { destruct ab; [|reflexivity]. cbn [path_text]. destruct sr as [|y sr]; [congruence|]. rewrite slashed_cons'. reflexivity. }
    destruct au; cbn [option_map]; [|exact R0]. destruct (path_text ab [x]); [congruence|exact R0]. }
  exact R.
Qed.
(* both sides have the same scheme, authority, query and fragment; the paths are ... *)
Lemma join_cases sb sr b r strict : reference_decomp sb (comps b) -> reference_decomp sr (comps r) ->
  exists sch au p1 p2 q f,
    five (comps (join_parts b r strict)) = mkuri5 sch au p1 q f
    /\ rfc_transform rds_total strict (five (comps b)) (five (comps r)) = mkuri5 sch au p2 q f
    /\ ((~ merge_applies strict (comps b) (comps r) /\ c_segments (comps r) = [] /\ p1 = p2)
        \/ ((forall x, ~ (merge_applies strict (comps b) (comps r) /\ c_segments (comps b) = [x]))
            /\ exists abs segs, dotted_path strict (comps b) (comps r) abs segs /\ Forall no_slash segs
                 /\ p1 = path_text abs (rds_segments segs) /\ p2 = rds_total (path_text abs segs))
        \/ (exists x, merge_applies strict (comps b) (comps r) /\ c_segments (comps b) = [x] /\ no_slash x
             /\ (c_absolute (comps b) = false -> x <> []) /\ Forall no_slash (c_segments (comps r))
             /\ merged (comps b) (comps r) = (c_absolute (comps b), c_segments (comps r))
             /\ p1 = path_text (c_absolute (comps b)) (rds_segments (x :: c_segments (comps r)))
             /\ p2 = rds_total (path_text (c_absolute (comps b)) (c_segments (comps r))))).
Proof.
  intros Hb Hr. apply decomp_shape in Hb. apply decomp_shape in Hr.
  pose proof (shape_no_slash _ Hr) as Nr. pose proof (shape_no_slash _ Hb) as Nb.
  assert (Hsch : (if negb strict && opt_eqb str_eqb (p_scheme r) (p_scheme b) then None else p_scheme r) = None
     <-> p_scheme r = None \/ (strict = false /\ p_scheme r = p_scheme b)).
  { destruct strict; cbn [negb andb]; [intuition congruence|].
    destruct (opt_str_eqb_spec (p_scheme r) (p_scheme b)); intuition congruence. }
  assert (OWN : ~ merge_applies strict (comps b) (comps r) -> 
    (forall x, ~ (merge_applies strict (comps b) (comps r) /\ c_segments (comps b) = [x])) /\
    exists abs segs, dotted_path strict (comps b) (comps r) abs segs /\ Forall no_slash segs
                 /\ path_text (absolute (p_path r)) (rds_segments (segments (p_path r))) = path_text abs (rds_segments segs)
                 /\ rds_total (path_text (absolute (p_path r)) (segments (p_path r))) = rds_total (path_text abs segs)).
  { intros Hm. split; [tauto|]. exists (absolute (p_path r)), (segments (p_path r)). split; [exact (dp_own strict _ _ Hm)|auto]. }
  unfold join_parts, rfc_transform.
  change (u_scheme (five (comps r))) with (p_scheme r). change (u_scheme (five (comps b))) with (p_scheme b).
  set (rs := if negb strict && opt_eqb str_eqb (p_scheme r) (p_scheme b) then None else p_scheme r) in *.
  destruct rs as [sch|] eqn:Ers.
  { do 6 eexists. split; [reflexivity|]. split; [reflexivity|]. right. left. apply OWN. intros [H _]. apply Hsch in H. discriminate. }
  destruct r as [rsc ra [rabs rsegs] rq rf]. cbn [p_scheme p_authority p_path p_query p_fragment absolute segments] in *.
  destruct ra as [[u h pt]|].
  { do 6 eexists. split; [reflexivity|]. split; [reflexivity|]. right. left. apply OWN. intros (_ & H & _). discriminate. }
  unfold path_is_empty. cbn [segments].
  change (u_authority (five (comps (mkparts rsc None (mkpath rabs rsegs) rq rf)))) with (@None str).
  change (u_path (five (comps (mkparts rsc None (mkpath rabs rsegs) rq rf)))) with (path_text rabs rsegs).
  destruct (path_text rabs rsegs) as [|ch t] eqn:Et.
  { apply (shape_text_nil _ Hr) in Et. cbn in Et. subst rsegs.
    assert (NM : ~ merge_applies strict (comps b) (comps (mkparts rsc None (mkpath rabs []) rq rf))) by (intros (_ & _ & _ & H); now apply H).
    destruct rq; (do 6 eexists); (split; [reflexivity|]); (split; [reflexivity|]); left; split; auto. }
  pose proof (shape_text_hd _ _ _ Hr Et) as Hh. cbn [comps c_absolute p_path absolute] in Hh.
  assert (Hseg : rsegs <> []). { intros ->. destruct rabs; discriminate. }
  destruct rsegs as [|s1 rsegs]; [congruence|]. rewrite Hh.
  destruct rabs.
  - do 6 eexists. split; [reflexivity|]. split; [reflexivity|]. right. left. apply OWN. intros (_ & _ & H & _). discriminate.
  - assert (HM : merge_applies strict (comps b) (comps (mkparts rsc None (mkpath false (s1 :: rsegs)) rq rf))).
    { split; [now apply Hsch|]. split; [reflexivity|]. split; [reflexivity|discriminate]. }
    cbn [absolute].
    assert (Cs : (exists x, segments (p_path b) = [x]) \/ forall x, segments (p_path b) <> [x]).
    { destruct (segments (p_path b)) as [|x [|y l]]; [right|left; eauto|right]; discriminate. }
    destruct Cs as [[x Hx]|Hone].
    + destruct (merge_rfc_one b (mkparts rsc None (mkpath false (s1 :: rsegs)) rq rf) x) as [HM1 HM2]; auto; try discriminate.
      rewrite HM1. do 6 eexists. split; [reflexivity|]. split; [reflexivity|]. right. right. exists x. split; [exact HM|]. split; [exact Hx|].
      change (c_segments (comps b)) with (segments (p_path b)) in Nb. rewrite Hx in Nb. inversion Nb; subst.
      split; auto. split. { intros Ha. now apply (ps_rel _ Hb x [] Ha Hx). }
      split; [exact Nr|]. split; [exact HM2|]. split; [|reflexivity].
      unfold merge, path_is_empty. cbn [p_path segments absolute]. rewrite Hx. destruct (p_authority b); reflexivity.
    + destruct (merge_rfc b (mkparts rsc None (mkpath false (s1 :: rsegs)) rq rf)) as [HM1 HM2]; auto; try discriminate.
      rewrite HM1. do 6 eexists. split; [reflexivity|]. split; [reflexivity|]. right. left. split; [intros x [_ H]; now apply (Hone x)|].
      exists (fst (merged (comps b) (comps (mkparts rsc None (mkpath false (s1 :: rsegs)) rq rf)))), (snd (merged (comps b) (comps (mkparts rsc None (mkpath false (s1 :: rsegs)) rq rf)))).
      split; [now apply dp_merged|]. rewrite <- HM2. cbn [fst snd]. split; [|split; reflexivity].
      assert (E : segments (merge b (mkparts rsc None (mkpath false (s1 :: rsegs)) rq rf)) = snd (merged (comps b) (comps (mkparts rsc None (mkpath false (s1 :: rsegs)) rq rf)))) by now rewrite <- HM2.
      rewrite E. unfold merged. cbn [comps c_segments c_authority p_path segments p_authority].
      assert (F : Forall no_slash (removelast (segments (p_path b)) ++ s1 :: rsegs)).
      { apply Forall_app. split; [|exact Nr]. change (segments (p_path b)) with (c_segments (comps b)). destruct (c_segments (comps b)) as [|y k _] using rev_ind; [constructor|].
        rewrite removelast_snoc. apply Forall_app in Nb. tauto. }
      destruct (p_authority b); [destruct (segments (p_path b)) as [|? ?]|]; exact F || exact Nr.
Qed.
(* both are determined by the path they give *)
Lemma cases_iff sb sr b r strict : reference_decomp sb (comps b) -> reference_decomp sr (comps r) ->
  exists sch au p1 p2 q f,
    five (comps (join_parts b r strict)) = mkuri5 sch au p1 q f
    /\ rfc_transform rds_total strict (five (comps b)) (five (comps r)) = mkuri5 sch au p2 q f
    /\ (p1 = p2 <-> join_agrees strict (comps b) (comps r)).
Proof.
  intros Hb Hr. destruct (join_cases sb sr b r strict Hb Hr) as (sch & au & p1 & p2 & q & f & E1 & E2 & C).
  exists sch, au, p1, p2, q, f. split; auto. split; auto. unfold join_agrees, keeps.
  destruct C as [(NM & En & ->)|[(No & abs & segs & D & Ns & -> & ->)|(x & M & Ex & Nx & Hx & Ns & Em & -> & ->)]].
  - split; auto. intros _. right. split; [tauto|]. intros abs segs D. destruct D as [D|D]; [|tauto]. rewrite En.
    intros [[_ (pre & post & E & _ & y & Hy & _)]|(l & y & k & E & _)]; [|destruct l; discriminate].
    destruct pre; [|discriminate]. destruct Hy.
  - rewrite rds_iff by auto. split.
    + intros H. right. split; [intros x (A & B & _); now apply (No x)|]. intros abs' segs' D'.
      inversion D; subst; inversion D'; subst; auto; tauto.
    + intros [(x & (A & B & _) & _)|[_ H]]; [exfalso; now apply (No x)|auto].
  - assert (Hn : c_segments (comps r) <> []) by apply M.
    assert (Dec : (~ is_dots x /\ ~ climbs_out (c_segments (comps r))) \/ (is_dots x \/ climbs_out (c_segments (comps r)))).
    { rewrite climbs_out_iff. destruct (dotty_spec x); [tauto|]. destruct (out_of [] (c_segments (comps r))); [tauto|]. left. split; auto. }
    assert (DP : forall abs segs, dotted_path strict (comps b) (comps r) abs segs -> abs = c_absolute (comps b) /\ segs = c_segments (comps r)).
    { intros abs segs D. destruct D as [D|D]; [tauto|]. rewrite Em. auto. }
    destruct Dec as [[D1 D2]|D].
    + rewrite front_iff by auto. split.
      * intros [-> H]. left. exists []. auto.
      * intros [(y & (_ & Ey & _) & -> & H)|[H _]]; [split; congruence|]. exfalso. apply (H x). auto.
    + rewrite rds_gone, rds_iff by auto. split.
      * intros H. right. split; [intros y (_ & Ey & A & B); assert (y = x) by congruence; subst; tauto|].
        intros abs segs Hd. apply DP in Hd. destruct Hd as [-> ->]. exact H.
      * intros [(y & (_ & Ey & A & B) & _)|[_ H]]; [assert (y = x) by congruence; subst; tauto|]. apply H.
        pose proof (dp_merged strict _ _ M) as DM. now rewrite Em in DM.
Qed.
Lemma join_exact sb sr b r strict : reference_decomp sb (comps b) -> reference_decomp sr (comps r) ->
  (five (comps (join_parts b r strict)) = rfc_transform rds_total strict (five (comps b)) (five (comps r))
   <-> join_agrees strict (comps b) (comps r)).
Proof.
  intros Hb Hr. destruct (cases_iff sb sr b r strict Hb Hr) as (sch & au & p1 & p2 & q & f & E1 & E2 & C). rewrite E1, E2, <- C.
  split; intros E; congruence.
Qed.
Lemma join_string_exact sg fuel base ref strict t cb cr : fits fuel base -> fits fuel ref ->
  join sg fuel base ref strict = Ok (Some t) -> URI_decomp base cb -> reference_decomp ref cr ->
  (compose t = rfc_recompose (rfc_transform rds_total strict (five cb) (five cr)) <-> join_agrees strict cb cr).
Proof.
  intros Hfb Hfr E Hcb Hcr. apply join_strings in E. destruct E as [(_ & E)|[(b & _ & _ & E)|(b & r & Eb & Er & E)]]; try discriminate.
  assert (E' : t = join_parts b r strict) by congruence. clear E. subst t.
  apply split_iff in Eb; auto. apply split_reference_iff in Er; auto. destruct Eb as [Eb _], Er as [Er _].
  rewrite (URI_unique _ _ _ Hcb Eb) in *. rewrite (decomp_unique _ _ _ Hcr Er) in *.
  assert (Hb : reference_decomp base (comps b)) by (left; auto).
  rewrite recompose_five by (eapply (join_shape base ref); eauto).
  destruct (cases_iff base ref b r strict Hb Er) as (sch & au & p1 & p2 & q & f & E1 & E2 & C). rewrite E1, E2, <- C. unfold rfc_recompose. cbn [u_scheme u_authority u_path u_query u_fragment].
  split; [|congruence]. intros H. apply app_inv_head in H. apply app_inv_head in H. now apply app_inv_tail in H.
Qed.
(* the commonest case: the base path is "/" *)
Lemma root_base sg fuel base ref strict t cb cr : fits fuel base -> fits fuel ref ->
  join sg fuel base ref strict = Ok (Some t) -> URI_decomp base cb -> reference_decomp ref cr ->
  merge_applies strict cb cr -> c_segments cb = [[]] -> Forall (fun s => ~ is_dots s) (c_segments cr) ->
  u_path (five (comps t)) = ss "//" ++ path_text false (c_segments cr)
  /\ u_path (rfc_transform rds_total strict (five cb) (five cr)) = ss "/" ++ path_text false (c_segments cr).
Proof.
  intros Hfb Hfr E Hcb Hcr M Hseg Hd. apply join_strings in E. destruct E as [(_ & E)|[(b & _ & _ & E)|(b & r & Eb & Er & E)]]; try discriminate.
  assert (E' : t = join_parts b r strict) by congruence. clear E. subst t.
  apply split_iff in Eb; auto. apply split_reference_iff in Er; auto. destruct Eb as [Eb _], Er as [Er _].
  rewrite (URI_unique _ _ _ Hcb Eb) in *. rewrite (decomp_unique _ _ _ Hcr Er) in *.
  assert (Hb : reference_decomp base (comps b)) by (left; auto).
  destruct (join_cases base ref b r strict Hb Er) as (sch & au & p1 & p2 & q & f & E1 & E2 & C). rewrite E1, E2. cbn [u_path].
  destruct C as [(NM & _)|[(No & _)|(x & _ & Ex & Nx & Hx & Ns & Em & -> & ->)]]; [tauto|exfalso; now apply (No [])|].
  assert (x = []) by congruence. subst x. assert (Ab : c_absolute (comps b) = true) by (destruct (c_absolute (comps b)); auto; exfalso; now apply Hx).
  assert (Hn : c_segments (comps r) <> []) by apply M. rewrite Ab.
  assert (NC : ~ corner true (c_segments (comps r))).
  { intros [[H _]|(l & y & k & E & Hy & _)]; [discriminate|]. rewrite E in Hd. apply Forall_app in Hd. destruct Hd as [_ Hd]. inversion Hd; tauto. }
  rewrite <- (proj2 (rds_iff true _ Ns) NC). rewrite !rds_normal by auto using nil_not_dots.
  destruct (c_segments (comps r)) as [|y l]; [congruence|]. split; reflexivity.
Qed.
