(* parts_strings (ModelParts) as a run over the list of views that are not null; the two passes of encode and
   decode for any plan that says what is to be written for which text. *)
From Verif Require Import Base ModelUri ModelParts SpecStore SpecViews.
Local Open Scope list_scope.

Definition fcode (f : field) : N :=
  match f with Scheme => f_scheme | Userinfo => f_userinfo | Host => f_host | Port => f_port | Segment => f_path | Query => f_query | Fragment => f_fragment end.
Definition slot : Type := field * N * view.

Definition view_slots (f : field) (v : view) : list slot := match v with Null => [] | _ => [(f, 0%N, v)] end.
Definition opt_slots (f : field) (o : option view) : list slot := match o with None => [] | Some v => view_slots f v end.
Fixpoint seg_slots (l : list view) (count : N) : list slot :=
  match l with
  | [] => []
  | Null :: l' => seg_slots l' count
  | v :: l' => (Segment, count, v) :: seg_slots l' ((count + 1) mod 2 ^ 32)%N
  end.
Definition auth_slots (a : option vauth) : list slot :=
  match a with None => [] | Some a => opt_slots Userinfo (v_userinfo a) ++ view_slots Host (v_host a) ++ opt_slots Port (v_port a) end.
Definition slots (p : vparts) : list slot :=
  opt_slots Scheme (v_scheme p) ++ seg_slots (v_segments p) 0 ++ auth_slots (v_authority p) ++ opt_slots Query (v_query p) ++ opt_slots Fragment (v_fragment p).

Section Run.
Context {St : Type}.
Variable f : St -> view -> N -> N -> outcome (St * view).
Fixpoint run (s : St) (l : list slot) : outcome (St * list view) :=
  match l with
  | [] => Ok (s, [])
  | (fld, idx, v) :: l' => do (s, v') <- f s v idx (fcode fld); do (s, vs) <- run s l'; Ok (s, v' :: vs)
  end.
Lemma run_app a : forall b s s' vs, run s (a ++ b) = Ok (s', vs) -> exists s1 va vb, run s a = Ok (s1, va) /\ run s1 b = Ok (s', vb) /\ vs = va ++ vb.
Proof.
  induction a as [|[[fld idx] v] a IH]; intros b s s' vs E; cbn [run app] in E.
  - exists s, [], vs. auto.
  - cbn [run]. destruct (f s v idx (fcode fld)) as [[s1 v']| |]; cbn [bind] in E |- *; try discriminate.
    destruct (run s1 (a ++ b)) as [[s2 ws]| |] eqn:E2; cbn [bind] in E; try discriminate. injection E as <- <-.
    apply IH in E2 as (s3 & va & vb & E3 & E4 & ->). rewrite E3. cbn [bind]. exists s3, (v' :: va), vb. auto.
Qed.
Lemma run_length l : forall s s' vs, run s l = Ok (s', vs) -> length vs = length l.
Proof.
  induction l as [|[[fld idx] v] l IH]; intros s s' vs E; cbn [run] in E; [now injection E as _ <-|].
  destruct (f s v idx (fcode fld)) as [[s1 v']| |]; cbn [bind] in E; try discriminate.
  destruct (run s1 l) as [[s2 ws]| |] eqn:E2; cbn [bind] in E; try discriminate. injection E as _ <-. cbn. f_equal. eapply IH; exact E2.
Qed.

Variable R : field -> view -> view -> Prop.
Definition R1 (fld : field) (v v' : view) : Prop := match v with Null => v' = Null | _ => R fld v v' end.
Definition R2 (sl : slot) (v' : view) : Prop := let '(fld, _, v) := sl in R fld v v'.

Lemma run_split a b s s' vs : run s (a ++ b) = Ok (s', vs) -> Forall2 R2 (a ++ b) vs ->
  exists s1 va vb, run s a = Ok (s1, va) /\ Forall2 R2 a va /\ run s1 b = Ok (s', vb) /\ Forall2 R2 b vb /\ vs = va ++ vb.
Proof.
  intros E F. apply run_app in E as (s1 & va & vb & E1 & E2 & ->). exists s1, va, vb.
  assert (X : Forall2 R2 a va /\ Forall2 R2 b vb); [|tauto]. pose proof (run_length _ _ _ _ E1) as L. clear - F L. revert va L F.
  induction a as [|x a IH]; intros [|v va] L F; try discriminate; cbn [app] in F; [split; [constructor|exact F]|].
  inversion F as [|? ? ? ? H1 H2]; subst. injection L as L. destruct (IH va L H2) as [P Q]. split; [constructor; assumption|exact Q].
Qed.
(* the views that are not null, in the order of the run *)
Definition live (vs : list view) : list view := filter not_null vs.
Lemma run_view fld v s s' vs : run s (view_slots fld v) = Ok (s', vs) -> Forall2 R2 (view_slots fld v) vs ->
  exists v', on_view f s v (fcode fld) = Ok (s', v') /\ R1 fld v v' /\ live [v'] = live vs.
Proof.
  destruct v as [|c|al off len]; cbn [view_slots run on_view]; intros E F.
  - injection E as <- <-. exists Null. repeat split; reflexivity.
  - destruct (f s (Caller c) 0%N (fcode fld)) as [[s1 v']| |]; cbn [bind] in E; try discriminate. injection E as <- <-. exists v'. split; [reflexivity|]. inversion F; subst; split; [assumption|reflexivity].
  - destruct (f s (InStore al off len) 0%N (fcode fld)) as [[s1 v']| |]; cbn [bind] in E; try discriminate. injection E as <- <-. exists v'. split; [reflexivity|]. inversion F; subst; split; [assumption|reflexivity].
Qed.
Lemma run_opt fld o s s' vs : run s (opt_slots fld o) = Ok (s', vs) -> Forall2 R2 (opt_slots fld o) vs ->
  exists o', on_opt f s o (fcode fld) = Ok (s', o') /\ opt_rel2 (R1 fld) o o' /\ live (opt_views o') = live vs.
Proof.
  destruct o as [v|]; cbn [opt_slots on_opt]; intros E F.
  - apply run_view in E as (v' & E & H & L); [|exact F]. rewrite E. exists (Some v'). split; [reflexivity|]. split; [constructor; exact H|exact L].
  - cbn in E. injection E as <- <-. exists None. split; [reflexivity|]. split; [constructor|reflexivity].
Qed.
Lemma run_segs l : forall count s s' vs, run s (seg_slots l count) = Ok (s', vs) -> Forall2 R2 (seg_slots l count) vs ->
  exists l', on_segments f s l count = Ok (s', l') /\ Forall2 (R1 Segment) l l' /\ live l' = live vs.
Proof.
  assert (C : forall v w (vs ws : list view), live vs = live ws -> v = w -> live (v :: vs) = live (w :: ws)) by (intros v w vs ws E ->; unfold live in *; cbn [filter]; now rewrite E).
  induction l as [|v l IH]; intros count s s' vs E F; cbn [seg_slots on_segments] in *.
  - cbn in E. injection E as <- <-. exists []. auto.
  - destruct v as [|c|al off len].
    + destruct (IH count s s' vs E F) as (l' & E' & H & L). rewrite E'. exists (Null :: l'). split; [reflexivity|]. split; [constructor; [reflexivity|exact H]|exact L].
    + cbn [run fcode] in E. destruct (f s (Caller c) count f_path) as [[s1 v']| |]; cbn [bind] in E |- *; try discriminate.
      destruct (run s1 (seg_slots l ((count + 1) mod 2 ^ 32))) as [[s2 ws]| |] eqn:E2; cbn [bind] in E; try discriminate. injection E as <- <-.
      inversion F; subst. destruct (IH _ _ _ _ E2) as (l' & E' & H & L); [assumption|]. rewrite E'. exists (v' :: l'). split; [reflexivity|]. split; [constructor; assumption|auto].
    + cbn [run fcode] in E. destruct (f s (InStore al off len) count f_path) as [[s1 v']| |]; cbn [bind] in E |- *; try discriminate.
      destruct (run s1 (seg_slots l ((count + 1) mod 2 ^ 32))) as [[s2 ws]| |] eqn:E2; cbn [bind] in E; try discriminate. injection E as <- <-.
      inversion F; subst. destruct (IH _ _ _ _ E2) as (l' & E' & H & L); [assumption|]. rewrite E'. exists (v' :: l'). split; [reflexivity|]. split; [constructor; assumption|auto].
Qed.
Lemma live_app a b : live (a ++ b) = live a ++ live b. Proof. apply filter_app. Qed.
Lemma parts_run s p s' vs : run s (slots p) = Ok (s', vs) -> Forall2 R2 (slots p) vs ->
  exists p', parts_strings f s p = Ok (s', p') /\ views_rel R1 p p' /\ live (view_list p') = live vs.
Proof.
  unfold slots. intros E F.
  apply run_split in E as (s1 & v1 & w1 & E1 & F1 & E & F' & D1); [|exact F]. clear F.
  apply run_split in E as (s2 & v2 & w2 & E2 & F2 & E & F & D2); [|exact F']. clear F'.
  apply run_split in E as (s3 & v3 & w3 & E3 & F3 & E & F' & D3); [|exact F]. clear F.
  apply run_split in E as (s4 & v4 & w4 & E4 & F4 & E & F & D4); [|exact F']. clear F'.
  apply run_opt in E1 as (sc & E1 & H1 & L1); [|exact F1]. apply run_segs in E2 as (sg & E2 & H2 & L2); [|exact F2].
  apply run_opt in E4 as (q & E4 & H4 & L4); [|exact F4]. apply run_opt in E as (fr & E & H & L); [|exact F].
  cbn [fcode] in *. unfold parts_strings. rewrite E1. cbn [bind]. rewrite E2. cbn [bind].
  assert (X : exists au, on_auth f s2 (v_authority p) = Ok (s3, au) /\
     opt_rel2 (fun a b => opt_rel2 (R1 Userinfo) (v_userinfo a) (v_userinfo b) /\ R1 Host (v_host a) (v_host b) /\ opt_rel2 (R1 Port) (v_port a) (v_port b)) (v_authority p) au
     /\ live (match au with None => [] | Some a => opt_views (v_userinfo a) ++ [v_host a] ++ opt_views (v_port a) end) = live v3).
  { destruct (v_authority p) as [a|]; cbn [auth_slots on_auth] in *; [|cbn in E3; injection E3 as <- <-; exists None; split; [reflexivity|split; [constructor|reflexivity]]].
    apply run_split in E3 as (t1 & x1 & y1 & G1 & K1 & G & K & D5); [|exact F3].
    apply run_split in G as (t2 & x2 & y2 & G2 & K2 & G3 & K3 & D6); [|exact K].
    apply run_opt in G1 as (u & G1 & I1 & M1); [|exact K1]. apply run_view in G2 as (h & G2 & I2 & M2); [|exact K2]. apply run_opt in G3 as (po & G3 & I3 & M3); [|exact K3].
    cbn [fcode] in *. rewrite G1. cbn [bind]. rewrite G2. cbn [bind]. rewrite G3. cbn [bind]. eexists. split; [reflexivity|]. split; [constructor; cbn; auto|].
    cbn [v_userinfo v_host v_port]. rewrite D5, D6, !live_app, M1, M2, M3. reflexivity. }
  destruct X as (au & Ea & Ha & La). rewrite Ea. cbn [bind]. rewrite E4. cbn [bind]. rewrite E. cbn [bind].
  eexists. split; [reflexivity|]. split; [unfold views_rel; cbn; repeat (split; [assumption|]); split; [reflexivity|]; repeat (split; [assumption|]); assumption|].
  unfold view_list. cbn [v_scheme v_segments v_authority v_query v_fragment]. rewrite !live_app, L1, L2, La, L4, L, <- !live_app, D1, D2, D3, D4. reflexivity.
Qed.
End Run.

(* --- texts of the caller, in slots --- *)
Definition cslot : Type := field * N * str.
Definition at_caller (c : cslot) : slot := let '(f, i, s) := c in (f, i, Caller s).
Definition cpos (c : cslot) : N := let '(f, i, _) := c in pos_of (fcode f) i.

Section Plan.
Variable plan : field -> str -> option str.
Hypothesis plan_nonempty : forall f s t, plan f s = Some t -> t <> [].
Definition size_of (f : field) (s : str) : nat := match plan f s with Some t => length t | None => 0 end.
Definition planned (c : cslot) : bool := let '(f, _, s) := c in match plan f s with Some _ => true | None => false end.
Definition text_of (c : cslot) : str := let '(f, _, s) := c in match plan f s with Some t => t | None => [] end.
Definition texts (cl : list cslot) : str := concat (map text_of cl).
Lemma size_planned f i s : negb (Nat.eqb (size_of f s) 0) = planned (f, i, s).
Proof.
  unfold size_of, planned. destruct (plan f s) as [t|] eqn:E; [|reflexivity]. apply plan_nonempty in E. destruct t; [contradiction|reflexivity].
Qed.
Lemma size_text f i s : size_of f s = length (text_of (f, i, s)).
Proof. unfold size_of, text_of. destruct (plan f s); reflexivity. Qed.

(* the bits set by the first pass *)
Definition bits (needs : bitset) (cl : list cslot) (pos : N) : bool :=
  needs pos || existsb (fun c => (cpos c =? pos)%N && (cpos c <? f_last)%N && planned c) cl.
Lemma bits_cons (needs needs' : bitset) c cl pos :
  (forall q, needs' q = (if (cpos c <? f_last)%N then bit_set needs (cpos c) (needs (cpos c) || planned c) else needs) q) ->
  bits needs' cl pos = bits needs (c :: cl) pos.
Proof.
  intros H. unfold bits. rewrite H. cbn [existsb]. destruct (cpos c <? f_last)%N.
  - unfold bit_set. rewrite (N.eqb_sym pos). destruct (N.eqb_spec (cpos c) pos) as [->|_]; cbn [andb]; [now rewrite orb_assoc|reflexivity].
  - now rewrite andb_false_r.
Qed.
Lemma bits_own cl c : NoDup (map cpos cl) -> In c cl -> (cpos c < f_last)%N -> bits (fun _ => false) cl (cpos c) = planned c.
Proof.
  unfold bits. cbn [orb]. induction cl as [|d cl IH]; intros N H L; [destruct H|]. cbn [map] in N. inversion N as [|? ? N1 N2]; subst. cbn [existsb].
  destruct H as [->|H].
  - rewrite N.eqb_refl. apply N.ltb_lt in L. rewrite L. cbn [andb].
    assert (X : existsb (fun x => (cpos x =? cpos c)%N && (cpos x <? f_last)%N && planned x) cl = false); [|rewrite X; apply orb_false_r].
    apply not_true_iff_false. intros X. apply existsb_exists in X as (x & Hx & E). apply andb_true_iff in E as [E _]. apply andb_true_iff in E as [E _].
    apply N.eqb_eq in E. apply N1. rewrite <- E. apply in_map. exact Hx.
  - destruct (N.eqb_spec (cpos d) (cpos c)) as [E|_]; [elim N1; rewrite E; apply in_map; exact H|]. cbn [andb orb]. apply IH; assumption.
Qed.

(* where the second pass puts the texts *)
Fixpoint placed (a off : nat) (cl : list cslot) : list view :=
  match cl with
  | [] => []
  | (f, i, s) :: cl' =>
      match plan f s with
      | None => Caller s :: placed a off cl'
      | Some t => InStore a off (length t) :: placed a (off + length t) cl'
      end
  end.
Definition step_ok (g : vec -> view -> N -> N -> outcome (vec * view)) (c : cslot) : Prop :=
  let '(f, i, s) := c in forall st, length (vc_data st) + length (text_of c) <= vc_cap st ->
    g st (Caller s) i (fcode f) = Ok (match plan f s with
      | None => (st, Caller s)
      | Some t => (Vec (vc_alloc st) (vc_cap st) (vc_data st ++ t), InStore (vc_alloc st) (length (vc_data st)) (length t)) end).
Lemma texts_cons f i s cl : texts ((f, i, s) :: cl) = match plan f s with Some t => t | None => [] end ++ texts cl.
Proof. reflexivity. Qed.
Lemma run_placed g cl : Forall (step_ok g) cl -> forall st, length (vc_data st) + length (texts cl) <= vc_cap st ->
  run g st (map at_caller cl) = Ok (Vec (vc_alloc st) (vc_cap st) (vc_data st ++ texts cl), placed (vc_alloc st) (length (vc_data st)) cl).
Proof.
  induction 1 as [|[[f i] s] cl H _ IH]; intros st L; cbn [map run at_caller].
  - cbn. rewrite app_nil_r. destruct st; reflexivity.
  - rewrite texts_cons in *. rewrite app_length in L. pose proof (H st) as H1. cbn [text_of] in H1. cbn [placed]. destruct (plan f s) as [t|] eqn:P.
    + rewrite H1 by lia. cbn [bind]. rewrite IH; [|cbn; rewrite app_length; lia]. cbn [bind vc_alloc vc_cap vc_data]. rewrite app_length, <- app_assoc. reflexivity.
    + cbn [length plus app] in *. rewrite H1 by lia. cbn [bind]. rewrite IH by exact L. reflexivity.
Qed.
Definition lands (st : vec) (f : field) (v v' : view) : Prop :=
  exists s, v = Caller s /\ match plan f s with None => v' = v | Some t => inside st v' /\ read st v' = Ok t end.
Lemma placed_lands a cap cl : forall pre off, length pre = off ->
  Forall2 (R2 (lands (Vec a cap (pre ++ texts cl)))) (map at_caller cl) (placed a off cl).
Proof.
  induction cl as [|[[f i] s] cl IH]; intros pre off L; cbn [map placed at_caller]; [constructor|].
  rewrite texts_cons. destruct (plan f s) as [t|] eqn:P.
  - constructor.
    + exists s. split; [reflexivity|]. rewrite P. unfold inside, read. cbn [vc_alloc vc_data]. repeat rewrite app_length.
      assert (G : off + length t <= length pre + (length t + length (texts cl))) by lia. split; [split; [reflexivity|exact G]|].
      rewrite Nat.eqb_refl. apply Nat.leb_le in G. rewrite G. cbn [andb]. f_equal. rewrite skipn_app, <- L, skipn_all, Nat.sub_diag. cbn [skipn app].
      rewrite firstn_app, firstn_all, Nat.sub_diag. cbn [firstn]. apply app_nil_r.
    + specialize (IH (pre ++ t) (off + length t)). rewrite <- app_assoc in IH. apply IH. rewrite app_length. lia.
  - constructor; [|apply IH; exact L]. cbn. exists s. split; [reflexivity|]. now rewrite P.
Qed.
End Plan.

(* --- the slots of parts whose views are the caller's --- *)
Lemma view_callers f v : match v with InStore _ _ _ => False | _ => True end -> exists cl, view_slots f v = map at_caller cl /\ Forall (fun c => snd (fst c) = 0%N /\ fst (fst c) = f) cl /\ length cl <= 1.
Proof. destruct v; intros H; [exists []; auto|exists [(f, 0%N, s)]; repeat constructor|destruct H]. Qed.
Lemma opt_callers f o : opt_rel2 (fun v _ => match v with InStore _ _ _ => False | _ => True end) o o ->
  exists cl, opt_slots f o = map at_caller cl /\ Forall (fun c => snd (fst c) = 0%N /\ fst (fst c) = f) cl /\ length cl <= 1.
Proof. intros H. inversion H; subst; [exists []; auto|apply view_callers; assumption]. Qed.
Lemma seg_callers l : forall count, Forall (fun v => match v with InStore _ _ _ => False | _ => True end) l -> (count + N.of_nat (length l) <= 2 ^ 32 - 6)%N ->
  exists cl, seg_slots l count = map at_caller cl /\ NoDup (map cpos cl) /\ Forall (fun c => fst (fst c) = Segment /\ (6 + count <= cpos c)%N) cl.
Proof.
  change (2 ^ 32 - 6)%N with 4294967290%N. induction l as [|v l IH]; intros count F L; cbn [seg_slots].
  - exists []. repeat constructor.
  - inversion F as [|? ? Hv Fl]; subst. cbn [length] in L. destruct v as [|s|]; [|clear Hv|destruct Hv].
    + apply IH; [exact Fl|lia].
    + rewrite N.mod_small by (change (2 ^ 32)%N with 4294967296%N; lia). destruct (IH (count + 1)%N Fl) as (cl & E & ND & G); [lia|].
      exists ((Segment, count, s) :: cl). rewrite E. split; [reflexivity|].
      assert (C : cpos (Segment, count, s) = (6 + count)%N) by (unfold cpos, fcode, pos_of, f_path; apply N.mod_small; change (2 ^ 32)%N with 4294967296%N; lia).
      split; [|constructor; [split; [reflexivity|rewrite C; lia]|eapply Forall_impl; [|exact G]; cbv beta; intros a [A1 A2]; split; [exact A1|lia]]].
      cbn [map]. constructor; [|exact ND]. rewrite C. intros H. apply in_map_iff in H as (x & Ex & Hx). rewrite Forall_forall in G. destruct (G x Hx) as [_ G2]. lia.
Qed.
Lemma nd_app (a b : list cslot) : NoDup (map cpos a) -> NoDup (map cpos b) -> (forall x y, In x a -> In y b -> cpos x <> cpos y) -> NoDup (map cpos (a ++ b)).
Proof.
  intros Ha Hb D. induction a as [|x a IH]; cbn [app map] in *; [exact Hb|]. inversion Ha as [|? ? H1 H2]; subst. constructor.
  - intros H. rewrite map_app in H. apply in_app_or in H as [H|H]; [contradiction|]. apply in_map_iff in H as (y & E & Hy). apply (D x y); [left; reflexivity|exact Hy|auto].
  - apply IH; [exact H2|]. intros; apply D; [right|]; assumption.
Qed.
Lemma nd_one (cl : list cslot) : length cl <= 1 -> NoDup (map cpos cl).
Proof. destruct cl as [|a [|]]; cbn; intros; [constructor|constructor; [intros []|constructor]|lia]. Qed.
Definition at_zero (f : field) (c : cslot) : Prop := snd (fst c) = 0%N /\ fst (fst c) = f.
Lemma zero_pos f c : at_zero f c -> f <> Segment -> cpos c = fcode f /\ (fcode f < 6)%N.
Proof. destruct c as [[g i] s]. unfold at_zero; cbn. intros [-> ->] N. unfold pos_of. destruct f; try contradiction; (split; [reflexivity|reflexivity]). Qed.
Lemma slots_callers p : outside p -> few_segments p ->
  exists cl, slots p = map at_caller cl /\ NoDup (map cpos cl) /\ Forall (fun c => fst (fst c) = Segment \/ snd (fst c) = 0%N) cl.
Proof.
  intros (H1 & H2 & _ & H3 & H4 & H5) FS. unfold few_segments in FS. unfold slots.
  destruct (opt_callers Scheme _ H1) as (c1 & E1 & G1 & L1).
  destruct (seg_callers (v_segments p) 0) as (c2 & E2 & N2 & G2).
  { clear - H3. remember (v_segments p) as l eqn:E. clear E. remember l as l' eqn:E in H3 at 2. clear E. induction H3; constructor; assumption. }
  { lia. }
  assert (X : exists c3, auth_slots (v_authority p) = map at_caller c3 /\ NoDup (map cpos c3)
     /\ Forall (fun c => at_zero Userinfo c \/ at_zero Host c \/ at_zero Port c) c3).
  { inversion H2 as [Ea|a b Ha Ea Eb]; subst; [exists []; repeat constructor|]. cbn [auth_slots]. destruct Ha as (K1 & K2 & K3).
    destruct (opt_callers Userinfo (v_userinfo a)) as (d1 & F1 & I1 & M1); [clear - K1; inversion K1; constructor; assumption|].
    destruct (view_callers Host (v_host a) K2) as (d2 & F2 & I2 & M2).
    destruct (opt_callers Port (v_port a)) as (d3 & F3 & I3 & M3); [clear - K3; inversion K3; constructor; assumption|].
    exists (d1 ++ d2 ++ d3). rewrite F1, F2, F3, !map_app. split; [reflexivity|]. rewrite <- !map_app.
    rewrite Forall_forall in I1, I2, I3. split.
    - apply nd_app; [apply nd_one; exact M1|apply nd_app; [apply nd_one; exact M2|apply nd_one; exact M3|]|].
      + intros x y Hx Hy. destruct (zero_pos Host x (I2 x Hx)) as [-> _]; [discriminate|]. destruct (zero_pos Port y (I3 y Hy)) as [-> _]; [discriminate|]. discriminate.
      + intros x y Hx Hy. destruct (zero_pos Userinfo x (I1 x Hx)) as [-> _]; [discriminate|]. apply in_app_or in Hy as [Hy|Hy];
          [destruct (zero_pos Host y (I2 y Hy)) as [-> _]; [discriminate|discriminate]|destruct (zero_pos Port y (I3 y Hy)) as [-> _]; [discriminate|discriminate]].
    - apply Forall_forall. intros x Hx. apply in_app_or in Hx as [Hx|Hx]; [left; apply I1, Hx|]. apply in_app_or in Hx as [Hx|Hx]; [right; left; apply I2, Hx|right; right; apply I3, Hx]. }
  destruct X as (c3 & E3 & N3 & G3).
  destruct (opt_callers Query _ H4) as (c4 & E4 & G4 & L4). destruct (opt_callers Fragment _ H5) as (c5 & E5 & G5 & L5).
  exists (c1 ++ c2 ++ c3 ++ c4 ++ c5). rewrite E1, E2, E3, E4, E5, !map_app. split; [reflexivity|]. rewrite <- !map_app.
  assert (P1 : forall x, In x c1 -> cpos x = 0%N) by (intros x Hx; rewrite Forall_forall in G1; destruct (zero_pos Scheme x (G1 x Hx)) as [-> _]; [discriminate|reflexivity]).
  assert (P2 : forall x, In x c2 -> (6 <= cpos x)%N) by (intros x Hx; rewrite Forall_forall in G2; destruct (G2 x Hx); lia).
  assert (P3 : forall x, In x c3 -> (1 <= cpos x <= 3)%N).
  { intros x Hx. rewrite Forall_forall in G3. destruct (G3 x Hx) as [Z|[Z|Z]]; (destruct (zero_pos _ x Z) as [-> _]; [discriminate|cbn; unfold f_userinfo, f_host, f_port; lia]). }
  assert (P4 : forall x, In x c4 -> cpos x = 4%N) by (intros x Hx; rewrite Forall_forall in G4; destruct (zero_pos Query x (G4 x Hx)) as [-> _]; [discriminate|reflexivity]).
  assert (P5 : forall x, In x c5 -> cpos x = 5%N) by (intros x Hx; rewrite Forall_forall in G5; destruct (zero_pos Fragment x (G5 x Hx)) as [-> _]; [discriminate|reflexivity]).
  split.
  - repeat first [apply nd_app|apply nd_one; assumption|assumption]; intros x y Hx Hy; repeat (apply in_app_or in Hy; destruct Hy as [Hy|Hy]);
      repeat match goal with
      | H : In ?z c1 |- _ => apply P1 in H | H : In ?z c2 |- _ => apply P2 in H | H : In ?z c3 |- _ => apply P3 in H
      | H : In ?z c4 |- _ => apply P4 in H | H : In ?z c5 |- _ => apply P5 in H end; lia.
  - apply Forall_forall. intros x Hx. rewrite Forall_forall in G1, G2, G3, G4, G5. repeat (apply in_app_or in Hx; destruct Hx as [Hx|Hx]).
    + right. apply G1, Hx. + left. apply G2, Hx. + right. destruct (G3 x Hx) as [Z|[Z|Z]]; apply Z. + right. apply G4, Hx. + right. apply G5, Hx.
Qed.
Lemma push_all_fits grow t : forall st, length (vc_data st) + length t <= vc_cap st ->
  push_all grow st t = Vec (vc_alloc st) (vc_cap st) (vc_data st ++ t).
Proof.
  unfold push_all. induction t as [|c t IH]; intros st L; cbn [fold_left].
  - rewrite app_nil_r. destruct st; reflexivity.
  - cbn [length] in L. rewrite IH; unfold push_back, reserve; (assert (G : Nat.leb (S (length (vc_data st))) (vc_cap st) = true) by (apply Nat.leb_le; lia)); rewrite G; cbn [vc_alloc vc_cap vc_data].
    + rewrite <- app_assoc. reflexivity.
    + rewrite app_length. cbn. lia.
Qed.

(* --- the passes --- *)
Definition views_of (cl : list cslot) : list view := map (fun c => Caller (snd c)) cl.
Lemma same_view f v v' : R1 (fun _ v v' => v' = v) f v v' -> v' = v.
Proof. destruct v; auto. Qed.
Lemma same_opt f o o' : opt_rel2 (R1 (fun _ v v' => v' = v) f) o o' -> o' = o.
Proof. destruct 1 as [|a b H]; [reflexivity|]. f_equal. eapply same_view; exact H. Qed.
Lemma same_views p p' : views_rel (R1 (fun _ v v' => v' = v)) p p' -> p' = p.
Proof.
  destruct p as [sc au ab sg q fr], p' as [sc' au' ab' sg' q' fr']. unfold views_rel. cbn. intros (H1 & H2 & H3 & H4 & H5 & H6).
  apply same_opt in H1, H5, H6. subst. f_equal.
  - destruct H2 as [|[u h po] [u' h' po'] (K1 & K2 & K3)]; [reflexivity|]. cbn in *. apply same_opt in K1, K3. apply same_view in K2. now subst.
  - induction H4 as [|v v' l l' H _ IH]; [reflexivity|]. apply same_view in H. now subst.
Qed.
Lemma first_pass {St} (f : St -> view -> N -> N -> outcome (St * view)) s s' p cl : slots p = map at_caller cl ->
  run f s (map at_caller cl) = Ok (s', views_of cl) -> parts_strings f s p = Ok (s', p).
Proof.
  intros E R. rewrite <- E in R. apply (parts_run f (fun _ v v' => v' = v)) in R as (p' & Ep & V & _).
  - apply same_views in V. now subst.
  - rewrite E. clear. induction cl as [|[[fld i] s] cl IH]; cbn; constructor; [reflexivity|exact IH].
Qed.
Lemma consecutive_live a vs : forall off stop, consecutive a off (live vs) stop <-> consecutive a off vs stop.
Proof.
  induction vs as [|v vs IH]; intros off stop; [reflexivity|]. unfold live. cbn [filter]. fold (live vs). destruct v as [|s|b o l]; cbn [not_null].
  - rewrite IH. split; [now constructor|]. now inversion 1.
  - split; inversion 1; subst; constructor; now apply IH.
  - split; inversion 1; subst; constructor; now apply IH.
Qed.
Lemma placed_consecutive plan a cl : forall off, consecutive a off (placed plan a off cl) (off + length (texts plan cl)).
Proof.
  induction cl as [|[[f i] s] cl IH]; intros off; cbn [placed].
  - cbn. rewrite Nat.add_0_r. constructor.
  - rewrite texts_cons, app_length. destruct (plan f s) as [t|]; constructor; [rewrite Nat.add_assoc|cbn [length plus]]; apply IH.
Qed.
Lemma second_pass plan g st p cl : slots p = map at_caller cl -> Forall (step_ok plan g) cl -> vc_data st = [] -> length (texts plan cl) <= vc_cap st ->
  let st' := Vec (vc_alloc st) (vc_cap st) (texts plan cl) in
  exists q, parts_strings g st p = Ok (st', q) /\ views_rel (R1 (lands plan st')) p q /\ consecutive (vc_alloc st') 0 (view_list q) (length (vc_data st')).
Proof.
  intros E F Z L st'. pose proof (run_placed plan g cl F st) as R. rewrite Z in R. specialize (R L). cbn [app length] in R. fold st' in R.
  rewrite <- E in R. apply (parts_run g (lands plan st')) in R as (q & Eq & V & Lv).
  - exists q. split; [exact Eq|]. split; [exact V|]. apply consecutive_live. rewrite Lv. apply consecutive_live. apply placed_consecutive.
  - rewrite E. apply (placed_lands plan (vc_alloc st) (vc_cap st) cl [] 0 eq_refl).
Qed.
