(* uri::encode (ModelParts.parts_encode): both passes. *)
From Verif Require Import Base ModelUri ModelParts SpecPct SpecIcu SpecStore SpecViews.
From Verif Require Import PctFacts PctProps PartsHost PartsRun.
From Verif Require ModelPct.
Local Open Scope list_scope.

Definition es_of (f : field) : N := pctencode_set_from_parts_field (fcode f).
Lemma es_small f : (es_of f < 256)%N. Proof. destruct f; reflexivity. Qed.
Definition enc_plan (f : field) (s : str) : option str :=
  match f with
  | Host => match convert_to_utf32 s with Ok u => match puny_encoded u with Ok (e, true) => Some e | _ => None end | _ => None end
  | _ => if existsb (fun c => needs c (es_of f)) s then Some (enc (es_of f) s) else None
  end.
Definition good (c : cslot) : Prop := let '(f, i, s) := c in (f = Segment \/ i = 0%N) /\ (f = Host -> short_text s).
Lemma needs_field_set f c : f <> Host -> needs c (es_of f) = true <-> field_set f c.
Proof.
  intros N. assert (X : needs c (es_of f) = true <-> ModelPct.needs_byte (code c) (es_of f) = Ok true).
  { rewrite (needs_ok c (es_of f) (es_small f)). split; [now intros ->|now intros [=]]. }
  rewrite X. destruct (c17 c) as (C1 & C2 & C3 & C4 & C5 & C6 & C7 & C8). destruct f; [exact C8|exact C5|contradiction|exact C8|exact C4|exact C2|exact C1].
Qed.
Lemma enc_nonempty es s : s <> [] -> enc es s <> [].
Proof. destruct s as [|c s]; [contradiction|]. intros _. cbn. destruct (needs c es); discriminate. Qed.
Lemma index_good c : good c -> let '(f, i, s) := c in index_ok i (fcode f) = true.
Proof. destruct c as [[f i] s]. intros [[->| ->] _]; [cbn; apply orb_true_r|reflexivity]. Qed.
Lemma host_code f : (fcode f =? f_host)%N = match f with Host => true | _ => false end.
Proof. destruct f; reflexivity. Qed.

(* the plan, for the sizes and for the texts *)
Lemma plan_host s : short_text s -> exists u e b, convert_to_utf32 s = Ok u /\ puny_encoded u = Ok (e, b) /\ enc_plan Host s = (if b then Some e else None)
  /\ host_encoded s e /\ (b = true <-> ~ ascii_only (map code s)) /\ (b = true -> e <> []).
Proof.
  intros H. destruct (puny_encoded_spec s H) as (u & e & b & C & P & R). exists u, e, b. split; [exact C|]. split; [exact P|]. split; [|exact R].
  cbn [enc_plan]. rewrite C, P. destruct b; reflexivity.
Qed.
Lemma plan_pct f s : f <> Host -> exists b, ModelPct.needs_pctencode s (es_of f) = Ok b /\ ModelPct.pctencode s (es_of f) = Ok (enc (es_of f) s)
  /\ enc_plan f s = (if b then Some (enc (es_of f) s) else None).
Proof.
  intros N. exists (existsb (fun c => needs c (es_of f)) s). rewrite needs_str, pctencode_enc by apply es_small. split; [reflexivity|]. split; [reflexivity|].
  destruct f; try contradiction; reflexivity.
Qed.
Lemma enc_plan_nonempty f s t : (f = Host -> short_text s) -> enc_plan f s = Some t -> t <> [].
Proof.
  intros H E. destruct (match f with Host => true | _ => false end) eqn:Ef.
  - destruct f; try discriminate. destruct (plan_host s (H eq_refl)) as (u & e & b & _ & _ & P & _ & _ & NE). rewrite P in E. destruct b; [|discriminate]. injection E as <-. auto.
  - assert (N : f <> Host) by (intros ->; discriminate). destruct (plan_pct f s N) as (b & B & _ & P). rewrite P in E. destruct b; [|discriminate]. injection E as <-.
    apply enc_nonempty. intros ->. discriminate B.
Qed.
(* hosts of 2^32 characters and more are outside of what is claimed *)
Definition plan' (f : field) (s : str) : option str := match enc_plan f s with Some [] => None | o => o end.
Lemma plan'_nonempty f s t : plan' f s = Some t -> t <> [].
Proof. unfold plan'. destruct (enc_plan f s) as [[|]|]; intros [= <-]; discriminate. Qed.
Lemma plan'_eq f s : (f = Host -> short_text s) -> plan' f s = enc_plan f s.
Proof. intros H. unfold plan'. destruct (enc_plan f s) as [[|]|] eqn:E; try reflexivity. apply enc_plan_nonempty in E; [contradiction|exact H]. Qed.

Lemma encode_size_ok st needs req f i s : good (f, i, s) -> exists needs',
  encode_size st (needs, req) (Caller s) i (fcode f) = Ok (needs', req + size_of plan' f s, Caller s)
  /\ forall q, needs' q = (if (cpos (f, i, s) <? f_last)%N then bit_set needs (cpos (f, i, s)) (needs (cpos (f, i, s)) || planned plan' (f, i, s)) else needs) q.
Proof.
  intros G. pose proof (index_good _ G) as X. cbv beta iota in X. destruct G as [_ G].
  eexists. split; [|reflexivity]. unfold encode_size. cbn [not_null assert bind read]. rewrite X. cbn [assert bind].
  rewrite host_code. rewrite <- (size_planned plan' plan'_nonempty f i s). unfold size_of. rewrite (plan'_eq f s G). unfold cpos.
  destruct (match f with Host => true | _ => false end) eqn:Ef.
  - destruct f; try discriminate. destruct (plan_host s (G eq_refl)) as (u & e & b & C & P & -> & _). rewrite C. cbn [bind]. unfold puny_encoded_size. rewrite P. cbn [bind].
    destruct b; reflexivity.
  - assert (N : f <> Host) by (intros ->; discriminate). destruct (plan_pct f s N) as (b & B & E & ->). unfold pct_encoded_size. fold (es_of f). rewrite B. cbn [bind].
    destruct b; cbn [negb]; [rewrite E; reflexivity|reflexivity].
Qed.
Lemma encode_sizes st cl : Forall good cl -> forall needs req, exists needs',
  run (encode_size st) (needs, req) (map at_caller cl) = Ok (needs', req + length (texts plan' cl), views_of cl)
  /\ forall pos, needs' pos = bits plan' needs cl pos.
Proof.
  induction 1 as [|[[f i] s] cl G _ IH]; intros needs req.
  - exists needs. cbn. split; [now rewrite Nat.add_0_r|]. intros pos. unfold bits. cbn. now rewrite orb_false_r.
  - destruct (encode_size_ok st needs req f i s G) as (n1 & E1 & H1). cbn [map at_caller run]. rewrite E1. cbn [bind].
    destruct (IH n1 (req + size_of plan' f s)) as (n2 & E2 & H2). rewrite E2. cbn [bind]. exists n2. split.
    + rewrite texts_cons, app_length. unfold size_of. destruct (plan' f s); cbn [length]; rewrite Nat.add_assoc, ?Nat.add_0_r; reflexivity.
    + intros pos. rewrite H2. apply bits_cons. exact H1.
Qed.
Lemma encode_step_ok grow needs c : good c -> ((cpos c < f_last)%N -> needs (cpos c) = planned plan' c) -> step_ok plan' (encode_one grow needs) c.
Proof.
  destruct c as [[f i] s]. intros G H st L. pose proof (index_good _ G) as X. cbv beta iota in X. destruct G as [GI G].
  unfold encode_one. cbn [not_null assert bind]. rewrite X. cbn [assert bind].
  change (pos_of (fcode f) i) with (cpos (f, i, s)). unfold planned in H. cbn [text_of] in L. rewrite (plan'_eq f s G) in *.
  destruct (N.ltb_spec (cpos (f, i, s)) f_last) as [LT|GE]; cbn [andb].
  - specialize (H LT). rewrite H. destruct (enc_plan f s) as [t|] eqn:E; cbn [negb]; [|reflexivity].
    assert (Lt : (f_last <=? cpos (f, i, s))%N = false) by (apply N.leb_gt; exact LT).
    cbn [read bind]. rewrite host_code. destruct (match f with Host => true | _ => false end) eqn:Ef.
    + destruct f; try discriminate. destruct (plan_host s (G eq_refl)) as (u & e & b & C & P & Q & _ & _ & NE). rewrite Q in E. destruct b; [|discriminate]. injection E as ->.
      rewrite C. cbn [bind]. unfold puny_encoded_size. rewrite P. cbn [bind]. specialize (NE eq_refl). destruct t as [|t0 t]; [contradiction|].
      change (negb (Nat.eqb (length (t0 :: t)) 0)) with true. cbn [assert bind]. apply Nat.leb_le in L. rewrite L. cbn [assert bind]. apply Nat.leb_le in L.
      rewrite push_all_fits by exact L. cbn [vc_data]. rewrite app_length, Nat.eqb_refl. cbn [assert bind vc_alloc]. rewrite Nat.add_comm, Nat.add_sub. reflexivity.
    + assert (N : f <> Host) by (intros ->; discriminate). destruct (plan_pct f s N) as (b & B & E' & Q). rewrite Q in E. destruct b; [|discriminate]. injection E as <-.
      fold (es_of f). rewrite B. cbn [bind]. rewrite orb_true_r. cbn [assert bind negb]. rewrite Lt. cbn [andb]. unfold pct_encoded_size. rewrite B. cbn [bind negb]. rewrite E'. cbn [bind].
      apply Nat.leb_le in L. rewrite L. cbn [assert bind]. apply Nat.leb_le in L.
      rewrite push_all_fits by exact L. cbn [vc_data]. rewrite app_length, Nat.eqb_refl. cbn [assert bind vc_alloc]. rewrite Nat.add_comm, Nat.add_sub. reflexivity.
  - assert (S : f = Segment).
    { destruct GI as [E|E]; [exact E|]. subst i. exfalso. destruct f; cbv in GE; now apply GE. }
    subst f. cbn [read bind fcode]. change (f_path =? f_host)%N with false. destruct (plan_pct Segment s ltac:(discriminate)) as (b & B & E' & Q). rewrite Q in *.
    fold (es_of Segment). change (pctencode_set_from_parts_field f_path) with (es_of Segment). rewrite B. cbn [bind]. change (f_path =? f_path)%N with true. cbn [orb assert bind].
    apply N.leb_le in GE. rewrite GE. cbn [andb]. destruct b; cbn [negb]; [|reflexivity]. unfold pct_encoded_size. rewrite B. cbn [bind negb]. rewrite E'. cbn [bind].
    apply Nat.leb_le in L. rewrite L. cbn [assert bind]. apply Nat.leb_le in L.
    rewrite push_all_fits by exact L. cbn [vc_data]. rewrite app_length, Nat.eqb_refl. cbn [assert bind vc_alloc]. rewrite Nat.add_comm, Nat.add_sub. reflexivity.
Qed.

Definition host_short (p : vparts) : Prop := forall a s, v_authority p = Some a -> v_host a = Caller s -> short_text s.
Lemma slots_host p s i : In (Host, i, Caller s) (slots p) -> exists a, v_authority p = Some a /\ v_host a = Caller s.
Proof.
  assert (O : forall f o x, In x (opt_slots f o) -> fst (fst x) = f).
  { intros f [[|c|]|] x; cbn; intros H; try destruct H as [<-|[]]; try destruct H; reflexivity. }
  assert (G : forall l count x, In x (seg_slots l count) -> fst (fst x) = Segment).
  { induction l as [|[|c|] l IH]; intros count x H; cbn in H; try contradiction; try (apply IH in H; exact H); (destruct H as [<-|H]; [reflexivity|apply IH in H; exact H]). }
  unfold slots. intros H. repeat (apply in_app_or in H; destruct H as [H|H]); try (apply O in H; discriminate H).
  - apply G in H. discriminate H.
  - destruct (v_authority p) as [a|]; cbn [auth_slots] in H; [|destruct H]. exists a. split; [reflexivity|].
    repeat (apply in_app_or in H; destruct H as [H|H]); try (apply O in H; discriminate H). destruct (v_host a); cbn in H; [destruct H|..]; (destruct H as [[= _ E]|[]]; try discriminate; congruence).
Qed.
Lemma good_slots p cl : host_short p -> slots p = map at_caller cl -> Forall (fun c => fst (fst c) = Segment \/ snd (fst c) = 0%N) cl -> Forall good cl.
Proof.
  intros H E F. apply Forall_forall. intros [[f i] s] Hc. rewrite Forall_forall in F. split; [apply (F _ Hc)|]. intros ->.
  assert (X : In (Host, i, Caller s) (slots p)) by (rewrite E; apply (in_map at_caller _ _ Hc)). apply slots_host in X as (a & Ea & Eh). exact (H a s Ea Eh).
Qed.
Definition store_for (grow : nat -> nat) (store : vec) (data : str) : vec :=
  let st := reserve grow (vclear store) (length data) in Vec (vc_alloc st) (vc_cap st) data.
Lemma reserve_cap grow v n : n <= vc_cap (reserve grow v n). Proof. unfold reserve. destruct (Nat.leb_spec n (vc_cap v)); cbn; lia. Qed.
Lemma reserve_data grow v n : vc_data (reserve grow v n) = vc_data v. Proof. unfold reserve. destruct (Nat.leb n (vc_cap v)); reflexivity. Qed.
Lemma encode_whole grow store p : outside p -> few_segments p -> host_short p ->
  exists data q, let st := store_for grow store data in
  parts_encode grow store p = Ok (st, q) /\ views_rel (R1 (lands plan' st)) p q /\ consecutive (vc_alloc st) 0 (view_list q) (length data).
Proof.
  intros O F H. destruct (slots_callers p O F) as (cl & E & ND & G0). pose proof (good_slots p cl H E G0) as G.
  exists (texts plan' cl). unfold parts_encode.
  destruct (encode_sizes (vclear store) cl G (fun _ => false) 0) as (needs & R1 & B). pose proof (first_pass _ _ _ _ _ E R1) as FP. change (@pair (N -> bool) nat) with (@pair bitset nat). rewrite FP. cbn [bind plus].
  set (st := reserve grow (vclear store) (length (texts plan' cl))).
  destruct (second_pass plan' (encode_one grow needs) st p cl E) as (q & Eq & V & C).
  - apply Forall_forall. intros c Hc. rewrite Forall_forall in G. apply encode_step_ok; [apply G, Hc|]. intros L. rewrite B. apply bits_own; assumption.
  - apply reserve_data.
  - apply reserve_cap.
  - exists q. cbn zeta. change (0 + length (texts plan' cl)) with (length (texts plan' cl)). fold st. rewrite Eq. cbn [bind vc_data]. rewrite Nat.eqb_refl. cbn [assert bind]. split; [reflexivity|]. split; [exact V|exact C].
Qed.
(* the plan is what the specification says *)
Lemma plan_spec f s : (f = Host -> short_text s) ->
  match plan' f s with Some t => must_encode f s /\ encoded f s t | None => ~ must_encode f s /\ encoded f s s end.
Proof.
  intros H. rewrite (plan'_eq f s H). destruct (match f with Host => true | _ => false end) eqn:Ef.
  - destruct f; try discriminate. destruct (plan_host s (H eq_refl)) as (u & e & b & _ & _ & -> & HE & B & _). cbn [must_encode encoded]. destruct b.
    + split; [now apply B|exact HE].
    + assert (A : ascii_only (map code s)) by (destruct (ascii_only_dec (map code s)) as [A|A]; [exact A|apply B in A; discriminate]). split; [intros N; contradiction|]. now apply host_encoded_ascii.
  - assert (N : f <> Host) by (intros ->; discriminate). destruct (plan_pct f s N) as (b & B & _ & ->).
    assert (ES : encodes (field_set f) s (enc (es_of f) s)).
    { eapply encodes_ext; [|apply enc_encodes]. intros c _. now apply needs_field_set. }
    rewrite needs_str in B by apply es_small. injection B as B.
    assert (MU : must_encode f s <-> b = true).
    { rewrite <- B, existsb_exists. destruct f; try contradiction; cbn [must_encode]; (split; intros (c & Hc & K); exists c; (split; [exact Hc|]); now apply (needs_field_set _ c N)). }
    assert (EN : encoded f s (enc (es_of f) s)) by (destruct f; try contradiction; exact ES).
    destruct b; [split; [now apply MU|exact EN]|]. split; [rewrite MU; discriminate|].
    assert (SM : enc (es_of f) s = s); [|rewrite SM in EN; exact EN].
    clear - B. induction s as [|c s IH]; [reflexivity|]. cbn [existsb] in B. apply orb_false_iff in B as [B1 B2]. cbn. rewrite B1. cbn. f_equal. exact (IH B2).
Qed.
