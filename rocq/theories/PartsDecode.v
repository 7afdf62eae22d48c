(* uri::decode (ModelParts.parts_decode): both passes. *)
From Verif Require Import Base ModelUri ModelParts SpecPct SpecIcu SpecStore SpecViews.
From Verif Require Import PctFacts PctProps PartsHost PartsDec PartsRun PartsEnc.
From Verif Require ModelPct ModelPuny.
Local Open Scope list_scope.

Definition dec_plan (f : field) (s : str) : option str :=
  match f with
  | Host => match puny_decoded s with Ok (t, inl true) => match t with [] => None | _ => Some t end | _ => None end
  | _ => if ModelPct.needs_pctdecode s then match ModelPct.pctdecode s with Ok [] => None | Ok t => Some t | _ => None end else None
  end.
Lemma dec_plan_nonempty f s t : dec_plan f s = Some t -> t <> [].
Proof.
  unfold dec_plan. intros E ->.
  destruct f; (destruct (ModelPct.needs_pctdecode s); [|discriminate E]; destruct (ModelPct.pctdecode s) as [[|]| |]; discriminate E)
    || (destruct (puny_decoded s) as [[[|] [[]|]]| |]; discriminate E).
Qed.
Definition decodable (c : cslot) : Prop := let '(f, i, s) := c in f = Host -> ~ host_undecodable s.
Lemma dplan_pct f s : f <> Host -> exists t, ModelPct.pctdecode s = Ok t /\ decodes s t /\ dec_plan f s = (if ModelPct.needs_pctdecode s then Some t else None)
  /\ (ModelPct.needs_pctdecode s = true -> t <> []).
Proof.
  intros N. destruct (pctdecode_ok s) as (t & E & D). exists t. split; [exact E|]. split; [exact D|].
  assert (X : ModelPct.needs_pctdecode s = true -> t <> []).
  { intros X ->. apply decodes_length in D. destruct s; [discriminate X|cbn in D; lia]. }
  split; [|exact X]. unfold dec_plan. rewrite E. destruct (ModelPct.needs_pctdecode s); [|destruct f; try contradiction; reflexivity].
  specialize (X eq_refl). destruct t; [contradiction|]. destruct f; try contradiction; reflexivity.
Qed.
Definition some_text (t : str) (b : bool) : option str := if b then match t with [] => None | _ => Some t end else None.
Lemma dplan_host s : short_text s -> ~ host_undecodable s -> exists t b, puny_decoded s = Ok (t, inl b) /\ host_decoded s t /\ (b = true <-> host_has_xn s) /\ (b = false -> t = s)
  /\ dec_plan Host s = some_text t b.
Proof.
  intros H N. destruct (puny_decoded_spec s H) as [(t & b & P & D & B & S)|(w & e & _ & U)]; [|contradiction].
  exists t, b. split; [exact P|]. split; [exact D|]. split; [exact B|]. split; [exact S|]. unfold dec_plan. rewrite P. destruct b; reflexivity.
Qed.
Lemma decode_size_ok st needs req f i s : good (f, i, s) -> decodable (f, i, s) -> exists needs',
  decode_size st (needs, req, None) (Caller s) i (fcode f) = Ok (needs', req + size_of dec_plan f s, None, Caller s)
  /\ forall q, needs' q = (if (cpos (f, i, s) <? f_last)%N then bit_set needs (cpos (f, i, s)) (needs (cpos (f, i, s)) || planned dec_plan (f, i, s)) else needs) q.
Proof.
  intros G DC. pose proof (index_good _ G) as X. cbv beta iota in X. destruct G as [_ G]. cbn [decodable] in DC.
  eexists. split; [|reflexivity]. unfold decode_size. cbn [not_null assert bind read]. rewrite X. cbn [assert bind].
  rewrite host_code. rewrite <- (size_planned dec_plan dec_plan_nonempty f i s). unfold size_of, cpos.
  destruct (match f with Host => true | _ => false end) eqn:Ef.
  - destruct f; try discriminate. destruct (dplan_host s (G eq_refl) (DC eq_refl)) as (t & b & P & _ & _ & _ & ->). unfold puny_decoded_size. rewrite P. cbn [bind].
    destruct b, t; reflexivity.
  - assert (N : f <> Host) by (intros ->; discriminate). destruct (dplan_pct f s N) as (t & E & _ & -> & _). unfold pct_decoded_size.
    destruct (ModelPct.needs_pctdecode s); cbn [negb bind]; [rewrite E; reflexivity|reflexivity].
Qed.
Lemma decode_size_error st needs req i s : good (Host, i, s) -> host_undecodable s -> exists e needs' req', 
  decode_size st (needs, req, None) (Caller s) i (fcode Host) = Ok (needs', req', Some e, Caller s).
Proof.
  intros G U. pose proof (index_good _ G) as X. cbv beta iota in X. destruct G as [_ G].
  unfold decode_size. cbn [not_null assert bind read]. rewrite X. cbn [assert bind]. rewrite host_code. unfold puny_decoded_size.
  destruct (puny_decoded_spec s (G eq_refl)) as [(t & b & _ & D & _)|(w & e & P & _)]; [elim (undecodable_not _ _ U D)|]. rewrite P. cbn [bind]. eauto.
Qed.
Lemma decode_size_after st needs req e f i s : good (f, i, s) -> decode_size st (needs, req, Some e) (Caller s) i (fcode f) = Ok (needs, req, Some e, Caller s).
Proof. intros G. pose proof (index_good _ G) as X. cbv beta iota in X. unfold decode_size. cbn [not_null assert bind]. rewrite X. reflexivity. Qed.
Lemma undecodable_dec s : short_text s -> host_undecodable s \/ ~ host_undecodable s.
Proof. intros H. destruct (puny_decoded_spec s H) as [(t & b & _ & D & _)|(w & e & _ & U)]; [right; intros U; apply (undecodable_not _ _ U D)|left; exact U]. Qed.
Definition stuck (cl : list cslot) : Prop := exists i s, In (Host, i, s) cl /\ host_undecodable s.
Lemma decode_after st cl : Forall good cl -> forall needs req e, run (decode_size st) (needs, req, Some e) (map at_caller cl) = Ok (needs, req, Some e, views_of cl).
Proof.
  induction 1 as [|[[f i] s] cl G _ IH]; intros needs req e; [reflexivity|]. cbn [map at_caller run]. rewrite decode_size_after by exact G. cbn [bind]. rewrite IH. reflexivity.
Qed.
Lemma decode_sizes st cl : Forall good cl -> forall needs req,
  (exists needs', Forall decodable cl /\ run (decode_size st) (needs, req, None) (map at_caller cl) = Ok (needs', req + length (texts dec_plan cl), None, views_of cl)
     /\ forall pos, needs' pos = bits dec_plan needs cl pos)
  \/ (exists needs' req' e, stuck cl /\ run (decode_size st) (needs, req, None) (map at_caller cl) = Ok (needs', req', Some e, views_of cl)).
Proof.
  induction 1 as [|[[f i] s] cl G Gs IH]; intros needs req.
  - left. exists needs. split; [constructor|]. cbn. split; [now rewrite Nat.add_0_r|]. intros pos. unfold bits. cbn. now rewrite orb_false_r.
  - assert (X : decodable (f, i, s) \/ (f = Host /\ host_undecodable s)).
    { destruct G as [_ G]. destruct f; try (left; intros K; discriminate K). destruct (undecodable_dec s (G eq_refl)) as [U|U]; [right; auto|left; intros _; exact U]. }
    destruct X as [D|[-> U]].
    + destruct (decode_size_ok st needs req f i s G D) as (n1 & E1 & H1). cbn [map at_caller run]. rewrite E1. cbn [bind].
      destruct (IH n1 (req + size_of dec_plan f s)) as [(n2 & F2 & E2 & H2)|(n2 & r2 & e & (j & s' & Hs & U) & E2)]; rewrite E2; cbn [bind].
      * left. exists n2. split; [constructor; assumption|]. split.
        -- rewrite texts_cons, app_length. unfold size_of. destruct (dec_plan f s); cbn [length]; rewrite Nat.add_assoc, ?Nat.add_0_r; reflexivity.
        -- intros pos. rewrite H2. apply bits_cons. exact H1.
      * right. exists n2, r2, e. split; [exists j, s'; split; [right; exact Hs|exact U]|reflexivity].
    + right. destruct (decode_size_error st needs req i s G U) as (e & n1 & r1 & E1). cbn [map at_caller run]. rewrite E1. cbn [bind]. rewrite decode_after by exact Gs.
      exists n1, r1, e. split; [exists i, s; split; [left; reflexivity|exact U]|reflexivity].
Qed.
Lemma field_small f : (fcode f <? f_last)%N = true. Proof. destruct f; reflexivity. Qed.
Lemma decode_step_ok grow needs c : good c -> decodable c -> ((cpos c < f_last)%N -> needs (cpos c) = planned dec_plan c) -> step_ok dec_plan (decode_one grow needs) c.
Proof.
  destruct c as [[f i] s]. intros G DC H st L. pose proof (index_good _ G) as X. cbv beta iota in X. destruct G as [GI G]. cbn [decodable] in DC.
  unfold decode_one. cbn [not_null assert bind]. rewrite X, field_small. cbn [assert bind].
  change (pos_of (fcode f) i) with (cpos (f, i, s)). unfold planned in H. cbn [text_of] in L.
  destruct (N.ltb_spec (cpos (f, i, s)) f_last) as [LT|GE]; cbn [andb].
  - specialize (H LT). rewrite H. destruct (dec_plan f s) as [t|] eqn:E; cbn [negb]; [|reflexivity].
    assert (Lt : (f_last <=? cpos (f, i, s))%N = false) by (apply N.leb_gt; exact LT).
    cbn [read bind]. rewrite host_code. destruct (match f with Host => true | _ => false end) eqn:Ef.
    + destruct f; try discriminate. destruct (dplan_host s (G eq_refl) (DC eq_refl)) as (t' & b & P & _ & _ & _ & Q). rewrite Q in E. unfold some_text in E. destruct b; [|discriminate].
      assert (t' = t) by (destruct t'; [discriminate|]; injection E as <-; reflexivity). subst t'.
      rewrite P. cbn [bind]. rewrite push_all_fits by exact L. cbn [vc_data vc_alloc]. rewrite app_length, Nat.add_comm, Nat.add_sub. reflexivity.
    + assert (N : f <> Host) by (intros ->; discriminate). destruct (dplan_pct f s N) as (t' & E' & _ & Q & NE). rewrite Q in E. unfold pct_decoded_size.
      destruct (ModelPct.needs_pctdecode s); [|discriminate]. injection E as ->. cbn [negb]. rewrite E'. cbn [bind]. rewrite Lt. cbn [andb].
      specialize (NE eq_refl). destruct t as [|t0 t]; [contradiction|]. change (Nat.ltb 0 (length (t0 :: t))) with true. cbn [assert bind].
      rewrite push_all_fits by exact L. cbn [vc_data vc_alloc]. rewrite app_length, Nat.add_comm, Nat.add_sub. reflexivity.
  - assert (S : f = Segment).
    { destruct GI as [E|E]; [exact E|]. subst i. exfalso. destruct f; cbv in GE; now apply GE. }
    subst f. cbn [read bind fcode]. change (f_path =? f_host)%N with false. destruct (dplan_pct Segment s ltac:(discriminate)) as (t & E' & _ & Q & NE). rewrite Q in *.
    unfold pct_decoded_size. apply N.leb_le in GE. rewrite GE. destruct (ModelPct.needs_pctdecode s); cbn [negb bind]; [|reflexivity]. rewrite E'. cbn [bind].
    specialize (NE eq_refl). destruct t as [|t0 t]; [contradiction|]. change (Nat.eqb (length (t0 :: t)) 0) with false. change (Nat.ltb 0 (length (t0 :: t))) with true. cbn [andb assert bind].
    rewrite push_all_fits by exact L. cbn [vc_data vc_alloc]. rewrite app_length, Nat.add_comm, Nat.add_sub. reflexivity.
Qed.
Definition host_stuck (p : vparts) : Prop := exists a s, v_authority p = Some a /\ v_host a = Caller s /\ host_undecodable s.
Lemma decode_whole grow store p : outside p -> few_segments p -> host_short p ->
  (~ host_stuck p /\ exists data q, let st := store_for grow store data in
     parts_decode grow store p = Ok (st, inl q) /\ views_rel (R1 (lands dec_plan st)) p q /\ consecutive (vc_alloc st) 0 (view_list q) (length data))
  \/ (host_stuck p /\ exists n e, parts_decode grow store p = Ok (reserve grow (vclear store) n, inr e)).
Proof.
  intros O F H. destruct (slots_callers p O F) as (cl & E & ND & G0). pose proof (good_slots p cl H E G0) as G.
  unfold parts_decode. destruct (decode_sizes (vclear store) cl G (fun _ => false) 0) as [(needs & D & R & B)|(needs & req & e & (i & s & Hs & U) & R)].
  - left. split.
    { intros (a & s & Ea & Eh & U). assert (X : In (Host, 0%N, Caller s) (slots p)).
      { unfold slots. rewrite Ea. cbn [auth_slots]. rewrite Eh. cbn [view_slots]. apply in_or_app; right. apply in_or_app; right.
        apply in_or_app. left. apply in_or_app. right. apply in_or_app. left. left. reflexivity. }
      rewrite E in X. apply in_map_iff in X as ([[f j] s'] & Ex & Hx). cbn in Ex. injection Ex as -> -> ->. rewrite Forall_forall in D. apply (D _ Hx eq_refl U). }
    exists (texts dec_plan cl). pose proof (first_pass _ _ _ _ _ E R) as FP. change (@pair (N -> bool) nat) with (@pair bitset nat). change (@pair ((N -> bool) * nat) (option ModelPuny.derr)) with (@pair (bitset * nat) (option ModelPuny.derr)). rewrite FP. cbn [bind].
    change (0 + length (texts dec_plan cl)) with (length (texts dec_plan cl)). set (st := reserve grow (vclear store) (length (texts dec_plan cl))).
    destruct (second_pass dec_plan (decode_one grow needs) st p cl E) as (q & Eq & V & C).
    + apply Forall_forall. intros c Hc. rewrite Forall_forall in G, D. apply decode_step_ok; [apply G, Hc|apply D, Hc|]. intros L. rewrite B. apply bits_own; assumption.
    + apply reserve_data.
    + apply reserve_cap.
    + exists q. cbn zeta. fold st. rewrite Eq. cbn [bind vc_data]. rewrite Nat.eqb_refl. cbn [assert bind]. split; [reflexivity|]. split; [exact V|exact C].
  - right. split.
    { assert (X : In (Host, i, Caller s) (slots p)) by (rewrite E; apply (in_map at_caller _ _ Hs)). apply slots_host in X as (a & Ea & Eh). exists a, s. auto. }
    pose proof (first_pass _ _ _ _ _ E R) as FP. change (@pair (N -> bool) nat) with (@pair bitset nat). change (@pair ((N -> bool) * nat) (option ModelPuny.derr)) with (@pair (bitset * nat) (option ModelPuny.derr)). rewrite FP. cbn [bind]. exists req, e. reflexivity.
Qed.
Lemma needs_dec_iff s : ModelPct.needs_pctdecode s = true <-> In percent s.
Proof. unfold ModelPct.needs_pctdecode. rewrite existsb_exists. split; [intros (c & H & E); apply Ascii.eqb_eq in E; now subst|]. intros H. exists percent. split; [exact H|reflexivity]. Qed.
Lemma dplan_spec f s : (f = Host -> short_text s /\ ~ host_undecodable s) ->
  match dec_plan f s with Some t => must_decode f s /\ decoded f s t | None => ~ must_decode f s /\ decoded f s s end.
Proof.
  intros H. destruct (match f with Host => true | _ => false end) eqn:Ef.
  - destruct f; try discriminate. destruct (H eq_refl) as [H1 H2]. destruct (dplan_host s H1 H2) as (t & b & _ & D & B & S & ->).
    cbn [must_decode decoded]. unfold some_text. destruct b; [destruct t as [|t0 t]|].
    + split; [intros [_ K]; contradiction|right; auto].
    + split; [|left; split; [exact D|discriminate]]. split; [now apply B|]. intros K. pose proof (host_decoded_fun _ _ _ D K). discriminate.
    + specialize (S eq_refl). subst t. assert (N : ~ host_has_xn s) by (intros K; apply B in K; discriminate). split; [intros [K _]; contradiction|].
      destruct s as [|s0 s]; [right; auto|left; split; [exact D|discriminate]].
  - assert (N : f <> Host) by (intros ->; discriminate). destruct (dplan_pct f s N) as (t & _ & D & -> & _).
    assert (M : must_decode f s <-> ModelPct.needs_pctdecode s = true) by (rewrite needs_dec_iff; destruct f; try contradiction; reflexivity).
    destruct (ModelPct.needs_pctdecode s) eqn:K.
    + split; [now apply M|]. destruct f; try contradiction; exact D.
    + split; [rewrite M; discriminate|]. assert (X : decodes s s) by (apply decodes_plain; rewrite <- needs_dec_iff, K; discriminate). destruct f; try contradiction; exact X.
Qed.
