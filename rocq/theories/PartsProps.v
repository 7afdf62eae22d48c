(* From the plans of PartsEnc and PartsDecode to the vocabulary of SpecViews; round trips. *)
From Verif Require Import Base ModelUri ModelParts SpecPct SpecPuny SpecIcu SpecStore SpecViews Rfc3986 SpecHost SpecParts SpecUri.
From Verif Require Import PctFacts PctProps PunyLoop PunyProps IcuUtf8 IcuRead8 IcuEnc IcuProps PartsHost PartsDec PartsRun PartsEnc PartsDecode.
From Verif Require ModelPct ModelPuny PropSplitFacts.
Local Open Scope list_scope.

(* --- relations on views --- *)
Lemma forall2_mono {A B} (P Q : A -> B -> Prop) l m : (forall a b, P a b -> Q a b) -> Forall2 P l m -> Forall2 Q l m.
Proof. intros H. induction 1; constructor; auto. Qed.
Lemma opt2_mono {A B} (P Q : A -> B -> Prop) o o' : (forall a b, P a b -> Q a b) -> opt_rel2 P o o' -> opt_rel2 Q o o'.
Proof. intros H. destruct 1; constructor; auto. Qed.
Lemma opt2_and {A B} (P : A -> A -> Prop) (Q R : A -> B -> Prop) o o' : (forall a b, P a a -> Q a b -> R a b) -> opt_rel2 P o o -> opt_rel2 Q o o' -> opt_rel2 R o o'.
Proof. intros H X Y. destruct Y; constructor. inversion X; subst. auto. Qed.
Lemma forall2_and {A B} (P : A -> A -> Prop) (Q R : A -> B -> Prop) : (forall a b, P a a -> Q a b -> R a b) -> forall l m, Forall2 P l l -> Forall2 Q l m -> Forall2 R l m.
Proof. intros H l m X Y. induction Y; constructor; inversion X; subst; auto. Qed.
Lemma views_mono (R S : field -> view -> view -> Prop) p q : (forall f v v', R f v v' -> S f v v') -> views_rel R p q -> views_rel S p q.
Proof.
  intros H (H1 & H2 & H3 & H4 & H5 & H6). unfold views_rel.
  split; [eapply opt2_mono; [|exact H1]; auto|]. split; [eapply opt2_mono; [|exact H2]; intros a b (K1 & K2 & K3); repeat split; [eapply opt2_mono; [|exact K1]; auto|auto|eapply opt2_mono; [|exact K3]; auto]|].
  split; [exact H3|]. split; [eapply forall2_mono; [|exact H4]; auto|]. split; [eapply opt2_mono; [|exact H5]; auto|eapply opt2_mono; [|exact H6]; auto].
Qed.
Lemma views_and (P : field -> view -> Prop) (R S : field -> view -> view -> Prop) p q : (forall f v v', P f v -> R f v v' -> S f v v') -> views_all P p -> views_rel R p q -> views_rel S p q.
Proof.
  intros H (G1 & G2 & _ & G4 & G5 & G6) (H1 & H2 & H3 & H4 & H5 & H6). unfold views_rel.
  split; [eapply opt2_and; [|exact G1|exact H1]; cbv beta; eauto|].
  split; [eapply opt2_and; [|exact G2|exact H2]; cbv beta; intros a b (J1 & J2 & J3) (K1 & K2 & K3); repeat split; [eapply opt2_and; [|exact J1|exact K1]; cbv beta; eauto|eauto|eapply opt2_and; [|exact J3|exact K3]; cbv beta; eauto]|].
  split; [exact H3|]. split; [eapply forall2_and; [|exact G4|exact H4]; cbv beta; eauto|].
  split; [eapply opt2_and; [|exact G5|exact H5]; cbv beta; eauto|eapply opt2_and; [|exact G6|exact H6]; cbv beta; eauto].
Qed.
Lemma views_both P Q p : views_all P p -> views_all Q p -> views_all (fun f v => P f v /\ Q f v) p.
Proof. intros HP HQ. apply (views_and P (fun f v _ => Q f v)); auto. Qed.
Lemma short_host_short p : short_host p -> host_short p.
Proof. intros (_ & H & _) a s Ea Eh. rewrite Ea in H. inversion H as [|x y (_ & K & _) Ex Ey]; subst. rewrite Eh in K. exact K. Qed.

Definition small (f : field) (v : view) : Prop := match v with InStore _ _ _ => False | Caller s => f = Host -> short_text s | Null => True end.
Lemma proper_small p : proper p -> views_all small p.
Proof.
  intros (O & _ & S). eapply views_mono; [|apply (views_both _ _ p O S)]. cbv beta. intros f v _ [A B]. destruct v as [|s|]; cbn; [exact I|intros ->; exact B|exact A].
Qed.
Lemma opt2_in {A} (P : A -> Prop) o : (forall a, o = Some a -> P a) -> opt_rel2 (fun a _ => P a) o o.
Proof. destruct o; intros H; constructor; auto. Qed.
Definition decodable_view (f : field) (v : view) : Prop := match v with Caller s => f = Host -> ~ host_undecodable s | _ => True end.
Lemma not_stuck p : ~ undecodable p -> views_all decodable_view p.
Proof.
  assert (T : forall f v, f <> Host -> decodable_view f v) by (intros f [|s|] N; cbn; auto; intros E; contradiction).
  intros N. unfold views_all, views_rel. repeat split; try (apply (opt2_in (decodable_view _)); intros; apply T; discriminate).
  - destruct (v_authority p) as [a|] eqn:Ea; constructor. split; [apply (opt2_in (decodable_view _)); intros; apply T; discriminate|]. split; [|apply (opt2_in (decodable_view _)); intros; apply T; discriminate].
    destruct (v_host a) as [|s|] eqn:Eh; cbn; [exact I| |exact I]. intros _ U. apply N. exists a, s. auto.
  - induction (v_segments p); constructor; auto. apply T. discriminate.
Qed.

Lemma encode_views st p q : proper p -> views_rel (R1 (lands plan' st)) p q -> views_rel (view_encoded st) p q.
Proof.
  intros P. apply (views_and small _ _ _ _); [|apply proper_small; exact P]. intros f v v' S R. destruct v as [|s|]; cbn in *; [exact R| |contradiction].
  destruct R as (s' & [= <-] & R). pose proof (plan_spec f s S) as X. destruct (plan' f s) as [t|]; destruct X as [X1 X2].
  - destruct R as [R1 R2]. split; [exists t; auto|right; auto].
  - subst v'. split; [exists s; auto|left; auto].
Qed.
Lemma decode_views st p q : proper p -> ~ undecodable p -> views_rel (R1 (lands dec_plan st)) p q -> views_rel (view_decoded st) p q.
Proof.
  intros P N. apply (views_and (fun f v => small f v /\ decodable_view f v) _ _ _ _); [|apply views_both; [apply proper_small; exact P|apply not_stuck; exact N]].
  intros f v v' [S D] R. destruct v as [|s|]; cbn in *; [exact R| |contradiction].
  destruct R as (s' & [= <-] & R). assert (X : f = Host -> short_text s /\ ~ host_undecodable s) by auto. apply dplan_spec in X. destruct (dec_plan f s) as [t|]; destruct X as [X1 X2].
  - destruct R as [R1 R2]. split; [exists t; auto|right; auto].
  - subst v'. split; [exists s; auto|left; auto].
Qed.

(* one allocation at most *)
Definition one_reserve (store st : vec) : Prop :=
  vc_alloc st <= S (vc_alloc store) /\ (length (vc_data st) <= vc_cap store -> vc_alloc st = vc_alloc store) /\ length (vc_data st) <= vc_cap st.
Lemma store_for_once grow store data : one_reserve store (store_for grow store data).
Proof.
  unfold one_reserve, store_for. cbn [vc_alloc vc_data vc_cap]. split; [|split].
  - unfold reserve, vclear; cbn. destruct (Nat.leb _ _); cbn; lia.
  - intros L. unfold reserve, vclear; cbn. apply Nat.leb_le in L. rewrite L. reflexivity.
  - apply reserve_cap.
Qed.
Lemma encode_all grow store p : proper p -> exists st q, parts_encode grow store p = Ok (st, q) /\ one_reserve store st
  /\ consecutive (vc_alloc st) 0 (view_list q) (length (vc_data st)) /\ views_rel (view_encoded st) p q.
Proof.
  intros P. pose proof P as (O & F & S). destruct (encode_whole grow store p O F (short_host_short p S)) as (data & q & E & V & C).
  exists (store_for grow store data), q. split; [exact E|]. split; [apply store_for_once|]. split; [exact C|]. apply encode_views; assumption.
Qed.
Lemma decode_all grow store p : proper p ->
  (~ undecodable p /\ exists st q, parts_decode grow store p = Ok (st, inl q) /\ one_reserve store st
     /\ consecutive (vc_alloc st) 0 (view_list q) (length (vc_data st)) /\ views_rel (view_decoded st) p q)
  \/ (undecodable p /\ exists st e, parts_decode grow store p = Ok (st, inr e) /\ vc_data st = []).
Proof.
  intros P. pose proof P as (O & F & S). destruct (decode_whole grow store p O F (short_host_short p S)) as [(N & data & q & E & V & C)|(U & n & e & E)].
  - left. split; [exact N|]. exists (store_for grow store data), q. split; [exact E|]. split; [apply store_for_once|]. split; [exact C|]. apply decode_views; assumption.
  - right. split; [exact U|]. exists (reserve grow (vclear store) n), e. split; [exact E|]. apply reserve_data.
Qed.

(* --- nothing to do: the same views, an empty store --- *)
Lemma eq_views p q : views_rel (fun _ v v' => v' = v) p q -> q = p.
Proof. intros H. apply same_views. eapply views_mono; [|exact H]. cbv beta. intros f v v' ->. destruct v; reflexivity. Qed.
Lemma consecutive_none a vs : Forall (fun v => match v with InStore _ _ _ => False | _ => True end) vs -> forall off stop, consecutive a off vs stop -> stop = off.
Proof. induction 1 as [|v vs H _ IH]; intros off stop C; inversion C; subst; auto. contradiction. Qed.
Lemma forall2_self {A} (P : A -> Prop) l : Forall2 (fun a _ => P a) l l -> Forall P l.
Proof. intros H. remember l as m in H at 2. clear Heqm. induction H; constructor; auto. Qed.
Lemma opt2_self {A} (P : A -> Prop) o a : opt_rel2 (fun a _ => P a) o o -> o = Some a -> P a.
Proof. intros H ->. now inversion H. Qed.
Lemma outside_list p : outside p -> Forall (fun v => match v with InStore _ _ _ => False | _ => True end) (view_list p).
Proof.
  intros (H1 & H2 & _ & H4 & H5 & H6). set (P := fun v => match v with InStore _ _ _ => False | _ => True end) in *.
  assert (O : forall o, opt_rel2 (fun v _ => P v) o o -> Forall P (opt_views o)) by (intros [v|] H; cbn; [constructor; [now inversion H|constructor]|constructor]).
  unfold view_list. repeat (apply Forall_app; split); auto.
  - apply (forall2_self P). exact H4.
  - destruct (v_authority p) as [a|]; [|constructor]. inversion H2 as [|x y (K1 & K2 & K3) Ex Ey]; subst. cbv beta iota. repeat (apply Forall_app; split); auto.
Qed.
Lemma becomes_nothing (must : field -> str -> Prop) (R : field -> str -> str -> Prop) st p q : views_all (fun f v => match v with Caller s => ~ must f s | _ => True end) p -> views_rel (becomes must R st) p q -> q = p.
Proof.
  intros N V. apply eq_views. eapply views_and; [|exact N|exact V]. cbv beta. intros f v v' H B. destruct v as [|s|]; cbn in B; [exact B| |contradiction].
  destruct B as [_ [[_ B]|[B _]]]; [exact B|contradiction].
Qed.
Lemma becomes_empty p st : outside p -> consecutive (vc_alloc st) 0 (view_list p) (length (vc_data st)) -> vc_data st = [].
Proof. intros O C. apply consecutive_none in C; [|apply outside_list; exact O]. destruct (vc_data st); [reflexivity|discriminate C]. Qed.

(* --- the texts shown --- *)
Lemma outside_read st st' v : match v with InStore _ _ _ => False | _ => True end -> read st v = read st' v.
Proof. destruct v; [reflexivity|reflexivity|contradiction]. Qed.
Lemma shown (must : field -> str -> Prop) (R : field -> str -> str -> Prop) st st' f v v' s : (forall g, R g [] []) -> becomes must R st' f v v' -> read st v = Ok s -> exists t, read st' v' = Ok t /\ R f s t.
Proof.
  intros RN B E. destruct v as [|c|]; cbn in B, E; [subst; injection E as <-; exists []; split; [reflexivity|apply RN]| |contradiction].
  injection E as <-. destruct B as [B _]. exact B.
Qed.
Lemma shows_becomes (must : field -> str -> Prop) (R : field -> str -> str -> Prop) st st' p q pc : (forall g, R g [] []) -> views_rel (becomes must R st') p q -> shows st p pc ->
  exists qc, shows st' q qc /\ parts_rel R pc qc.
Proof.
  intros RN (H1 & H2 & H3 & H4 & H5 & H6) (S1 & S2 & S3 & S4 & S5 & S6).
  set (sh := fun st v s => read st v = Ok s) in *.
  assert (O : forall f (o o' : option view) os, opt_rel2 (becomes must R st' f) o o' -> opt_rel2 (sh st) o os -> exists os', opt_rel2 (sh st') o' os' /\ opt_rel (R f) os os').
  { intros f o o' os A B. destruct A as [|v v' A]; inversion B; subst; [exists None; split; constructor|].
    destruct (shown must R st st' f v v' b RN A) as (t & Et & Ht); [assumption|]. exists (Some t). split; constructor; assumption. }
  destruct (O _ _ _ _ H1 S1) as (sc & A1 & B1). destruct (O _ _ _ _ H5 S5) as (qu & A5 & B5). destruct (O _ _ _ _ H6 S6) as (fr & A6 & B6).
  assert (SG : exists sg, Forall2 (sh st') (v_segments q) sg /\ Forall2 (R Segment) (segments (p_path pc)) sg).
  { clear - H4 S4 RN. revert S4. generalize (segments (p_path pc)). induction H4 as [|v v' l l' H _ IH]; intros ss SS; inversion SS; subst; [exists []; split; constructor|].
    destruct (shown must R st st' Segment v v' y RN H) as (t & Et & Ht); [assumption|]. destruct (IH l'0) as (sg & X & Y); [assumption|]. exists (t :: sg). split; constructor; assumption. }
  destruct SG as (sg & A4 & B4).
  assert (AU : exists au, opt_rel2 (fun va a => opt_rel2 (sh st') (v_userinfo va) (ModelUri.userinfo a) /\ sh st' (v_host va) (ModelUri.host a) /\ opt_rel2 (sh st') (v_port va) (ModelUri.port a)) (v_authority q) au
     /\ opt_rel (auth_rel R) (p_authority pc) au).
  { destruct H2 as [|a b (K1 & K2 & K3)]; inversion S2 as [|x y (J1 & J2 & J3)]; subst; [exists None; split; constructor|].
    destruct (O _ _ _ _ K1 J1) as (u & X1 & Y1). destruct (O _ _ _ _ K3 J3) as (po & X3 & Y3).
    destruct (shown must R st st' Host _ _ _ RN K2 J2) as (h & X2 & Y2). exists (Some (mkauth u h po)). split; constructor; cbn; unfold auth_rel; cbn; auto. }
  destruct AU as (au & A2 & B2).
  exists (mkparts sc au (mkpath (absolute (p_path pc)) sg) qu fr). unfold shows, parts_rel. cbn. split.
  - split; [exact A1|]. split; [exact A2|]. split; [congruence|]. auto.
  - split; [exact B1|]. split; [exact B2|]. split; [reflexivity|]. auto.
Qed.

(* --- the specification relations are functions --- *)
Lemma reads8_fun s cs ok cs' ok' : Forall (fun u => (u < 2 ^ 8)%N) s -> reads8 s cs ok -> reads8 s cs' ok' -> cs = cs' /\ ok = ok'.
Proof. intros B H H'. apply (transcode_8_32 s cs ok B) in H. apply (transcode_8_32 s cs' ok' B) in H'. rewrite H in H'. injection H' as -> ->. auto. Qed.
Lemma label_encoded_fun u e e' : (N.of_nat (length u) < 2 ^ 32)%N -> (forall c, In c u -> (c < 2 ^ 32)%N) -> label_encoded u e -> label_encoded u e' -> e = e'.
Proof.
  intros L B [[A E]|[A (q & P & ->)]] [[A' E']|[A' (q' & P' & ->)]]; try contradiction.
  - rewrite <- (map_chr_code e), <- (map_chr_code e'). congruence.
  - apply ascii_iff in A. destruct (c35 u true L B) as (x & b & _ & _ & U); [right; exact A|]. rewrite (U q P), (U q' P'). reflexivity.
Qed.
Lemma host_encoded_fun s e e' : short_text s -> host_encoded s e -> host_encoded s e' -> e = e'.
Proof.
  intros SH (cs & ok & us & es & R & L & M & F) (cs' & ok' & us' & es' & R' & L' & M' & F').
  destruct (reads8_fun _ _ _ _ _ (codes_small s) R R') as [<- <-]. rewrite <- (labels_fun _ _ _ _ L L') in *.
  pose proof (reads8_scalar _ _ _ R) as SC. pose proof (reads8_length _ _ _ R) as LL. rewrite map_length in LL.
  assert (X : forall u, In u us -> (N.of_nat (length u) < 2 ^ 32)%N /\ forall c, In c u -> (c < 2 ^ 32)%N).
  { destruct L as (l & ls & -> & -> & _). intros u Hu. split.
    - pose proof (joined_label_length dot32 ls u l Hu) as J. unfold short_text in SH. lia.
    - intros c Hc. apply joined_in in SC as [SC _]. rewrite Forall_forall in SC. specialize (SC u Hu). rewrite Forall_forall in SC. specialize (SC c Hc).
      unfold scalar in SC. lia. }
  assert (E : es = es').
  { clear - F F' X. revert es' F'. induction F as [|u e us es H _ IH]; intros es' F'; inversion F'; subst; [reflexivity|].
    destruct (X u (or_introl eq_refl)) as [X1 X2]. f_equal; [eapply label_encoded_fun; eassumption|]. apply IH; [|assumption]. intros v Hv. apply X. right. exact Hv. }
  subst es'. destruct M as (l & ls & -> & -> & _), M' as (l' & ls' & E & -> & _). injection E as <- <-. reflexivity.
Qed.
Lemma encoded_fun f s e e' : (f = Host -> short_text s) -> encoded f s e -> encoded f s e' -> e = e'.
Proof.
  intros H. destruct f; cbn [encoded]; try apply encodes_fun. apply host_encoded_fun. auto.
Qed.
Lemma decoded_fun f s t t' : decoded f s t -> decoded f s t' -> t = t'.
Proof.
  destruct f; cbn [decoded]; try (intros H H'; eapply decodes_fun; eassumption).
  intros [[H N]|[H ->]] [[H' N']|[H' ->]]; try reflexivity.
  - eapply host_decoded_fun; eassumption.
  - pose proof (host_decoded_fun _ _ _ H H'). contradiction.
  - pose proof (host_decoded_fun _ _ _ H H'). subst. contradiction.
Qed.
Lemma encoded_nil f : encoded f [] [].
Proof. destruct f; cbn [encoded]; try constructor. apply host_encoded_ascii. constructor. Qed.
Lemma decoded_nil f : decoded f [] [].
Proof.
  destruct f; cbn [decoded]; try apply dec_nil. right. split; [|reflexivity]. exists [[]], [[]].
  split; [exists [], []; split; [reflexivity|split; [reflexivity|apply Forall_cons; [intros []|apply Forall_nil]]]|]. split; [apply Forall2_cons; [left; split; [intros (r & E); discriminate E|reflexivity]|apply Forall2_nil]|]. exists [], []. auto.
Qed.

(* --- round trips --- *)
Lemma text_app form a b x y : text form a x -> text form b y -> text form (a ++ b) (x ++ y).
Proof. induction 1; intros K; [exact K|]. cbn [app]. rewrite <- app_assoc. constructor; auto. Qed.
Lemma text_split form a : forall b z, text form (a ++ b) z -> exists x y, z = x ++ y /\ text form a x /\ text form b y.
Proof.
  induction a as [|c a IH]; intros b z T; cbn [app] in T; [exists [], z; repeat split; [constructor|exact T]|].
  inversion T; subst. destruct (IH _ _ H3) as (x & y & -> & X & Y). exists (w ++ x), y. rewrite app_assoc. repeat split; [constructor; assumption|exact Y].
Qed.
Lemma map_code_app_inv x : forall s y, map code s = x ++ y -> exists a b, s = a ++ b /\ map code a = x /\ map code b = y.
Proof.
  induction x as [|c x IH]; intros s y E; [exists [], s; auto|]. destruct s as [|d s]; [discriminate|]. cbn in E. injection E as E1 E2.
  destruct (IH _ _ E2) as (a & b & -> & A & B). exists (d :: a), b. cbn. rewrite A, E1. auto.
Qed.
(* the labels of a UTF-8 text are the UTF-8 texts of the labels *)
Lemma utf8_labels us : forall u s, text utf8_of (joined dot32 u us) (map code s) -> exists t ts, s = joined dot t ts /\ Forall2 (fun u t => text utf8_of u (map code t)) (u :: us) (t :: ts).
Proof.
  induction us as [|u' us IH]; intros u s T; cbn [joined] in T.
  - exists s, []. split; [reflexivity|]. repeat constructor. exact T.
  - apply text_split in T as (x & y & E & X & Y). apply map_code_app_inv in E as (a & b & -> & <- & <-). inversion Y as [|c w cs z Fw Tz E1 E2]; subst.
    apply utf8_ascii in Fw; [|reflexivity]. subst w. destruct b as [|d b]; [discriminate|]. cbn in E2. injection E2 as E2 E3. symmetry in E2. apply code_dot in E2. subst d. subst z.
    destruct (IH _ _ Tz) as (t & ts & -> & F). exists a, (t :: ts). split; [reflexivity|]. constructor; assumption.
Qed.
Lemma punycode_text u q : punycode_of u q -> (forall c, In c u -> (c < 2 ^ 32)%N) -> puny_text q u.
Proof.
  intros (lit & d & C & Hl & Hb & Hd) B. split; [|exact B]. left. exists lit, d. split; [exact C|]. split; [|auto]. apply lower_not_hyphen. exact Hl.
Qed.
Lemma no_dot_text u t : text utf8_of u (map code t) -> ~ In dot32 u -> ~ In dot t.
Proof.
  intros T N H. apply N. assert (X : In dot32 (map code t)) by (rewrite <- (proj2 (code_dot dot) eq_refl); apply in_map; exact H).
  clear - T X. induction T as [|c w cs us F _ IH]; [destruct X|]. apply in_app_or in X as [X|X]; [|right; auto]. left.
  destruct (N.ltb_spec c 0x80) as [L|L]; [apply utf8_ascii in F; [|exact L]; subst w; destruct X as [X|[]]; exact X|].
  apply utf8_multi in F; [|exact L]. rewrite Forall_forall in F. specialize (F _ X). unfold dot32 in F. lia.
Qed.
Lemma text_ascii u t : ascii_only u -> text utf8_of u t -> t = u.
Proof.
  intros A T. induction T as [|c w cs us F _ IH]; [reflexivity|]. inversion A; subst. apply utf8_ascii in F; [|assumption]. subst w. cbn. f_equal. auto.
Qed.
Lemma host_round s e : returns Host s -> host_encoded s e -> decoded Host e s.
Proof.
  intros [(cs & T) NX] (cs' & ok & us & es & R & L & M & F).
  assert (R0 : reads8 (map code s) cs true) by (apply reads8_true; exact T). destruct (reads8_fun _ _ _ _ _ (codes_small s) R R0) as [-> ->].
  pose proof (reads8_scalar _ _ _ R0) as SC. destruct L as (u & us' & -> & -> & ND).
  destruct (utf8_labels _ _ _ T) as (t & ts & -> & FT).
  assert (NT : Forall (fun x => ~ In dot x) (t :: ts)).
  { clear - FT ND. induction FT; constructor; inversion ND; subst; auto. eapply no_dot_text; eassumption. }
  assert (LS : labels dot (joined dot t ts) (t :: ts)) by (exists t, ts; auto).
  apply joined_in in SC as [SC _].
  assert (D : Forall2 label_decoded es (t :: ts)).
  { assert (NX' : forall l, In l (t :: ts) -> ascii_only (map code l) -> ~ has_prefix xn l) by (intros l Hl; apply (NX _ _ LS Hl)).
    clear - F FT SC NX'. revert F FT SC NX'. generalize (t :: ts) (u :: us'). clear. intros ts us F FT. revert es F. induction FT as [|u t us ts T _ IH]; intros es F SC NX; inversion F; subst; [constructor|]. inversion SC; subst.
    constructor; [|apply IH; auto; intros l Hl; apply NX; right; exact Hl].
    destruct H1 as [[A E]|[A (q & P & ->)]].
    - pose proof (text_ascii _ _ A T) as E2. left. assert (X : y = t) by (rewrite <- (map_chr_code y), <- (map_chr_code t); congruence). subst y. split; [|reflexivity].
      apply NX; [left; reflexivity|]. now rewrite E2.
    - right. exists q, u, u, true. split; [reflexivity|]. split; [|split; [apply reads32_scalars; assumption|exact T]]. apply punycode_text; [exact P|].
      intros c Hc. rewrite Forall_forall in H2. specialize (H2 c Hc). unfold scalar in H2. lia. }
  assert (HD : host_decoded e (joined dot t ts)) by (exists es, (t :: ts); split; [exact M|split; [exact D|exists t, ts; auto]]).
  cbn [decoded]. destruct (joined dot t ts) as [|c s] eqn:Es; [|left; split; [exact HD|discriminate]].
  right. split; [exact HD|]. destruct ts; [|destruct t; discriminate]. cbn in Es. subst t.
  destruct M as (l & ls & -> & -> & _). inversion D as [|? ? ? ? D1 D2]; subst. inversion D2; subst. cbn.
  inversion F as [|? ? ? ? G _]; subst. inversion FT as [|? ? ? ? T1 _]; subst.
  assert (u = []) by (inversion T1 as [|c w cs us Fw _ Ew]; [reflexivity|]; apply utf8_nonempty in Fw; destruct w; [contradiction|discriminate]). subst u.
  destruct G as [[_ G]|[G _]]; [destruct l; [reflexivity|discriminate]|elim G; constructor].
Qed.
Lemma field_percent f : f <> Host -> f <> Scheme -> f <> Port -> field_set f percent.
Proof. destruct f; intros; try contradiction; right; reflexivity. Qed.
(* scheme and port: escapes are not escaped themselves *)
Lemma c0_not_hex c : (c0_control_set c \/ c = " "%char) -> c <> percent /\ hexval c = None.
Proof.
  intros H. assert (X : c <> percent) by (intros ->; destruct H as [[H|H]|H]; [cbv in H; now apply H|cbv in H; discriminate H|discriminate H]). split; [exact X|].
  destruct c as [[] [] [] [] [] [] [] []]; try reflexivity; destruct H as [[H|H]|H]; try (cbv in H; discriminate H); cbv in H; elim H; reflexivity.
Qed.
Lemma plain_round (P : ascii -> Prop) s e : (forall c, P c -> c <> percent /\ hexval c = None) -> encodes P s e -> decodes s s -> decodes e s.
Proof.
  intros HP E. induction E as [|c s e Hc E IH|c s e Hc E IH]; intros D; [constructor| |].
  - eapply dec_escape; [apply (escape_escaped c e)|]. apply IH. inversion D as [|x b rest t He Hd|x y t Hn Hd]; subst; [|exact Hd].
    destruct He as (h & l & x & y & Eq & _). injection Eq as -> _. destruct (HP _ Hc) as [X _]. now elim X.
  - assert (NE : forall b rest, ~ escaped_at (c :: s) b rest).
    { intros b rest He. inversion D as [|x b' rest' t He' Hd|x y t Hn Hd]; subst; [|exact (Hn _ _ He)].
      destruct He' as (h & l & x & y & Eq & _). injection Eq as _ Es. apply decodes_length in Hd as [Hd _]. rewrite Es in Hd. cbn in Hd. lia. }
    apply dec_copy; [|apply IH; inversion D as [|x b rest t He Hd|x y t Hn Hd]; subst; [elim (NE _ _ He)|exact Hd]].
    intros b rest (h & l & x & y & Eq & Hh & Hl & Eb). injection Eq as -> Eq. subst e.
    assert (PC : forall z (r : str) u, encodes P u (z :: r) -> hexval z <> None -> exists u', u = z :: u' /\ encodes P u' r).
    { intros z r u H Z. inversion H; subst; [elim Z; reflexivity|]. eauto. }
    apply PC in E as (s1 & -> & E); [|congruence]. apply PC in E as (s2 & -> & E); [|congruence].
    apply (NE b s2). exists h, l, x, y. auto.
Qed.

(* --- the characters of a language --- *)
Fixpoint may_use (g : abnf) (c : ascii) : bool :=
  match g with
  | Rng lo hi => (lo <=? code c)%N && (code c <=? hi)%N
  | Lit l => existsb (fun x => Ascii.eqb (Rfc3986.lower x) (Rfc3986.lower c)) (ss l)
  | Cat a b | Alt a b => may_use a c || may_use b c
  | Rep _ _ a => may_use a c
  end.
Lemma uses g : forall s, L g s -> Forall (fun c => may_use g c = true) s.
Proof.
  induction g as [lo hi|l|a IHa b IHb|a IHa b IHb|mn mx a IHa]; intros s H; cbn [L] in H.
  - destruct H as (c & -> & [H1 H2]). constructor; [|constructor]. cbn. apply andb_true_intro. split; apply N.leb_le; assumption.
  - apply Forall_forall. intros c Hc. cbn. apply existsb_exists. assert (X : In (Rfc3986.lower c) (map Rfc3986.lower (ss l))) by (rewrite <- H; apply in_map; exact Hc).
    apply in_map_iff in X as (x & E & Hx). exists x. split; [exact Hx|]. apply Ascii.eqb_eq. exact E.
  - destruct H as (s1 & s2 & -> & H1 & H2). apply Forall_app. split; [eapply Forall_impl; [|apply IHa; exact H1]|eapply Forall_impl; [|apply IHb; exact H2]]; cbn; intros c E; rewrite E; [reflexivity|apply orb_true_r].
  - destruct H as [H|H]; [eapply Forall_impl; [|apply IHa; exact H]|eapply Forall_impl; [|apply IHb; exact H]]; cbn; intros c E; rewrite E; [reflexivity|apply orb_true_r].
  - destruct H as (l & -> & F & _). clear - F IHa. induction F as [|x l H _ IH]; [constructor|]. cbn [concat]. apply Forall_app. split; [exact (IHa x H)|exact IH].
Qed.
Lemma uses_only g (P : ascii -> Prop) (f : ascii -> bool) s : (forall c, f c = true -> P c) -> forallb (fun c => implb (may_use g c) (f c)) Peg.all_ascii = true -> L g s -> Forall P s.
Proof.
  intros HF SW H. eapply Forall_impl; [|apply uses; exact H]. cbv beta. intros c E. apply HF. pose proof (Peg.sweep _ SW c) as X. cbv beta in X. rewrite E in X. exact X.
Qed.
Definition tame (c : ascii) : bool := (32 <? code c)%N && (code c <? 127)%N && negb (Ascii.eqb c percent).
Lemma tame_spec c : tame c = true -> ~ (c0_control_set c \/ c = " "%char) /\ c <> percent.
Proof.
  unfold tame. rewrite !andb_true_iff, negb_true_iff, !N.ltb_lt, Ascii.eqb_neq. intros [[A B] C]. split; [|exact C]. unfold c0_control_set. intros [[H|H]|H]; [lia|lia|subst; cbv in A; discriminate A].
Qed.
Lemma scheme_tame s : L scheme s -> Forall (fun c => tame c = true) s.
Proof. apply uses_only with (f := tame); [auto|vm_compute; reflexivity]. Qed.
Lemma port_tame s : L port s -> Forall (fun c => tame c = true) s.
Proof. apply uses_only with (f := tame); [auto|vm_compute; reflexivity]. Qed.
Lemma host_ascii s : L host s -> ascii_only (map code s).
Proof.
  intros H. assert (X : Forall (fun c => (code c < 0x80)%N) s).
  { apply (uses_only host _ (fun c => (code c <? 0x80)%N)) with (s := s); [intros c; apply N.ltb_lt|vm_compute; reflexivity|exact H]. }
  unfold ascii_only. apply Forall_forall. intros x Hx. apply in_map_iff in Hx as (c & <- & Hc). rewrite Forall_forall in X. apply X, Hc.
Qed.
Lemma tame_same (P : ascii -> Prop) s e : (forall c, tame c = true -> ~ P c) -> Forall (fun c => tame c = true) s -> encodes P s e -> e = s.
Proof. intros HP F E. induction E; inversion F; subst; [reflexivity|elim (HP c); assumption|f_equal; auto]. Qed.
Lemma tame_plain s : Forall (fun c => tame c = true) s -> decodes s s.
Proof. intros F. apply decodes_plain. intros H. rewrite Forall_forall in F. apply F in H. apply tame_spec in H as [_ H]. now apply H. Qed.
Lemma encoded_enc f s e : f <> Host -> encoded f s e -> ModelPct.pctencode s (es_of f) = Ok e.
Proof.
  intros N E. rewrite pctencode_enc by apply es_small. f_equal. eapply encodes_fun; [apply enc_encodes|].
  assert (E' : encodes (field_set f) s e) by (destruct f; try contradiction; exact E). eapply encodes_ext; [|exact E']. intros c _. symmetry. apply needs_field_set. exact N.
Qed.
Lemma map_joined {A B} (f : A -> B) d ls : forall l, map f (joined d l ls) = joined (f d) (map f l) (map (map f) ls).
Proof. induction ls as [|l' ls IH]; intros l; cbn [joined map]; [reflexivity|]. rewrite map_app. cbn [map]. now rewrite IH. Qed.
Lemma host_encoded_same s e : ascii_only (map code s) -> host_encoded s e -> e = s.
Proof.
  intros A (cs & ok & us & es & R & L & M & F). destruct (reads8_ascii _ _ _ R) as [X _]. rewrite (X A) in *. clear X.
  destruct L as (u & us' & -> & E & ND), M as (e1 & es' & -> & -> & _).
  assert (G : Forall ascii_only (u :: us')) by (unfold ascii_only in A; rewrite E in A; apply joined_in in A as [A _]; exact A).
  assert (K : map (map code) (e1 :: es') = u :: us').
  { clear - F G. revert F G. generalize (e1 :: es') (u :: us'). clear. intros l m F. induction F as [|a b l m H _ IH]; intros G; [reflexivity|]. inversion G; subst. cbn [map]. rewrite IH by assumption.
    f_equal. destruct H as [[_ H]|[H _]]; [exact H|contradiction]. }
  cbn [map] in K. injection K as K1 K2. rewrite <- (map_chr_code (joined dot e1 es')), <- (map_chr_code s). f_equal. rewrite map_joined, K1, K2, E. reflexivity.
Qed.
Lemma field_round f s e : returns f s -> encoded f s e -> decoded f e s.
Proof.
  destruct f; cbn [returns encoded decoded].
  - intros D E. exact (plain_round _ s e c0_not_hex E D).
  - intros _ E. rewrite <- (app_nil_r e), <- (app_nil_r s). eapply decodes_encoded; [|exact E|constructor]. right. reflexivity.
  - intros R E. exact (host_round s e R E).
  - intros D E. exact (plain_round _ s e c0_not_hex E D).
  - intros _ E. rewrite <- (app_nil_r e), <- (app_nil_r s). eapply decodes_encoded; [|exact E|constructor]. right. reflexivity.
  - intros _ E. rewrite <- (app_nil_r e), <- (app_nil_r s). eapply decodes_encoded; [|exact E|constructor]. right. reflexivity.
  - intros _ E. rewrite <- (app_nil_r e), <- (app_nil_r s). eapply decodes_encoded; [|exact E|constructor]. right. reflexivity.
Qed.
Lemma parts_round pc qc rc : parts_all returns pc -> parts_rel encoded pc qc -> parts_rel decoded qc rc -> rc = pc.
Proof.
  intros (A1 & A2 & A3 & A4 & A5) (E1 & E2 & E3 & E4 & E5 & E6) (D1 & D2 & D3 & D4 & D5 & D6).
  assert (X : forall f s e t, returns f s -> encoded f s e -> decoded f e t -> t = s).
  { intros f s e t R E D. eapply decoded_fun; [exact D|]. eapply field_round; eassumption. }
  assert (O : forall f o o' o'', opt_all (returns f) o -> opt_rel (encoded f) o o' -> opt_rel (decoded f) o' o'' -> o'' = o).
  { intros f o o' o'' A E D. destruct E; inversion D; subst; [reflexivity|]. f_equal. eapply X; eassumption. }
  destruct pc as [sc au [ab sg] q fr], rc as [sc' au' [ab' sg'] q' fr']. cbn in *. f_equal.
  - eapply O; eassumption.
  - destruct E2 as [|a b (K1 & K2 & K3)]; inversion D2 as [|x y (J1 & J2 & J3)]; subst; [reflexivity|]. f_equal. destruct A2 as (B1 & B2 & B3).
    destruct a as [u h po], y as [u' h' po']. cbn in *. f_equal; [exact (O Userinfo _ _ _ B1 K1 J1)|exact (X Host _ _ _ B2 K2 J2)|exact (O Port _ _ _ B3 K3 J3)].
  - f_equal; [congruence|]. clear - A3 E4 D4 X. revert sg' D4. induction E4 as [|s e l m E _ IH]; intros sg' D; inversion D; subst; [reflexivity|]. inversion A3; subst. f_equal; [eapply X; eassumption|auto].
  - eapply O; eassumption.
  - eapply O; eassumption.
Qed.
Lemma shows_host st p pc a s : outside p -> shows st p pc -> v_authority p = Some a -> v_host a = Caller s -> exists b, p_authority pc = Some b /\ ModelUri.host b = s.
Proof.
  intros O (_ & H & _) Ea Eh. rewrite Ea in H. inversion H as [|x y (_ & K & _) Ex Ey]; subst. exists y. split; [reflexivity|]. rewrite Eh in K. cbn in K. congruence.
Qed.
Lemma round_trip grow store p pc : proper p -> shows store p pc -> parts_all returns pc ->
  exists st q qc, parts_encode grow store p = Ok (st, q) /\ shows st q qc /\ parts_rel encoded pc qc
  /\ forall grow2 st2 p2, proper p2 -> shows st2 p2 qc -> exists st3 r, parts_decode grow2 st2 p2 = Ok (st3, inl r) /\ shows st3 r pc.
Proof.
  intros P S R. destruct (encode_all grow store p P) as (st & q & E & _ & _ & V).
  destruct (shows_becomes _ _ _ _ _ _ _ encoded_nil V S) as (qc & Sq & Rq). exists st, q, qc. split; [exact E|]. split; [exact Sq|]. split; [exact Rq|].
  intros grow2 st2 p2 P2 S2. destruct (decode_all grow2 st2 p2 P2) as [(_ & st3 & r & E3 & _ & _ & V3)|(U & _)].
  - exists st3, r. split; [exact E3|]. destruct (shows_becomes _ _ _ _ _ _ _ decoded_nil V3 S2) as (rc & Sr & Rr). rewrite <- (parts_round pc qc rc R Rq Rr). exact Sr.
  - exfalso. destruct U as (a & s & Ea & Eh & U). destruct (shows_host st2 p2 qc a s (proj1 P2) S2 Ea Eh) as (b & Eb & Hb).
    destruct Rq as (_ & A & _). destruct R as (_ & RA & _). rewrite Eb in A. inversion A as [|x y (_ & K & _) Ex Ey]; subst. rewrite <- Ex in RA. cbn in RA. destruct RA as (_ & RH & _).
    pose proof (field_round Host _ _ RH K) as D. destruct D as [[D _]|[D _]]; exact (undecodable_not _ _ U D).
Qed.
Lemma well_formed_encoded pc qc : well_formed pc -> parts_rel encoded pc qc -> well_formed qc
  /\ p_scheme qc = p_scheme pc /\ (forall a b, p_authority pc = Some a -> p_authority qc = Some b -> ModelUri.host b = ModelUri.host a /\ ModelUri.port b = ModelUri.port a).
Proof.
  intros ((sch & Es & Ls) & WA & WS & WQ & WF) (E1 & E2 & E3 & E4 & E5 & E6).
  assert (SC : p_scheme qc = Some sch).
  { rewrite Es in E1. inversion E1 as [|a b X]; subst. f_equal. eapply tame_same; [|apply scheme_tame; exact Ls|exact X]. intros c T. exact (proj1 (tame_spec c T)). }
  assert (KK : forall f s e, f <> Host -> f <> Scheme -> f <> Port -> encoded f s e -> (L segment s -> L segment e) /\ (L query s -> L query e) /\ (L fragment s -> L fragment e) /\ (L userinfo s -> L userinfo e)).
  { intros f s e N1 N2 N3 E. apply encoded_enc in E; [|exact N1]. apply c34_keeps in E; [tauto|]. destruct f; try contradiction; vm_compute; split; reflexivity. }
  assert (AU : match p_authority qc with Some a => well_formed_authority a | None => True end
     /\ (forall a b, p_authority pc = Some a -> p_authority qc = Some b -> ModelUri.host b = ModelUri.host a /\ ModelUri.port b = ModelUri.port a)).
  { destruct E2 as [|a b (K1 & K2 & K3)]; [split; [exact I|discriminate]|]. destruct WA as (W1 & [W2 W2'] & W3).
    assert (EH : ModelUri.host b = ModelUri.host a) by (eapply host_encoded_same; [apply host_ascii; exact W2|exact K2]).
    assert (EP : ModelUri.port b = ModelUri.port a).
    { destruct K3 as [|x y K3]; [reflexivity|]. f_equal. eapply tame_same; [|apply port_tame; exact W3|exact K3]. intros c T. exact (proj1 (tame_spec c T)). }
    split; [|intros ? ? [= <-] [= <-]; auto]. unfold well_formed_authority. rewrite EH, EP. split; [|auto].
    destruct K1 as [|x y K1]; [exact I|]. refine (proj2 (proj2 (proj2 (KK Userinfo x y _ _ _ K1))) W1); discriminate. }
  split; [|split; [congruence|apply AU]]. split; [exists sch; auto|]. split; [apply AU|]. split; [|split].
  - clear - E4 WS KK. induction E4 as [|s e l m E _ IH]; constructor; inversion WS; subst; auto. eapply (KK Segment); [| | |exact E|assumption]; discriminate.
  - destruct E5 as [|x y K]; [exact I|]. refine (proj1 (proj2 (KK Query x y _ _ _ K)) WQ); discriminate.
  - destruct E6 as [|x y K]; [exact I|]. refine (proj1 (proj2 (proj2 (KK Fragment x y _ _ _ K))) WF); discriminate.
Qed.
Lemma ascii_text s : ascii_only s -> text utf8_of s s.
Proof. induction 1 as [|c u H _ IH]; [constructor|]. change (c :: u) with ([c] ++ u) at 2. constructor; [apply utf8_1; exact H|exact IH]. Qed.
Lemma valid_returns p : well_formed p -> no_xn p -> parts_all returns p.
Proof.
  intros ((sch & Es & Ls) & WA & _) NX. unfold parts_all. rewrite Es. split; [apply tame_plain, scheme_tame; exact Ls|].
  split; [|split; [apply Forall_forall; intros; exact I|split; destruct (p_query p), (p_fragment p); exact I]].
  destruct (p_authority p) as [a|] eqn:Ea; [|exact I]. destruct WA as (_ & [W2 _] & W3). cbn. split; [destruct (ModelUri.userinfo a); exact I|]. split.
  - split; [exists (map code (ModelUri.host a)); apply ascii_text, host_ascii; exact W2|]. intros ls l HL Hl _. eapply NX; eassumption.
  - destruct (ModelUri.port a) as [po|]; [|exact I]. cbn. apply tame_plain, port_tame. exact W3.
Qed.

(* --- the property theorems --- *)
Lemma becomes_in must (R : field -> str -> str -> Prop) st f v v' : becomes must R st f v v' -> v' = v \/ inside st v'.
Proof. destruct v as [|s|]; cbn; [auto| |contradiction]. intros [_ [[_ H]|[_ H]]]; auto. Qed.
Lemma c25_encode grow store p : proper p ->
  exists st q, parts_encode grow store p = Ok (st, q)
  /\ vc_alloc st <= S (vc_alloc store) /\ (length (vc_data st) <= vc_cap store -> vc_alloc st = vc_alloc store)
  /\ length (vc_data st) <= vc_cap st
  /\ views_rel (fun _ v v' => v' = v \/ inside st v') p q
  /\ consecutive (vc_alloc st) 0 (view_list q) (length (vc_data st)).
Proof.
  intros P. destruct (encode_all grow store p P) as (st & q & E & (O1 & O2 & O3) & C & V). exists st, q. repeat (split; [assumption|]). split; [|exact C].
  eapply views_mono; [|exact V]. intros f v v'. apply becomes_in.
Qed.
Lemma c25_decode grow store p : proper p ->
  exists st r, parts_decode grow store p = Ok (st, r)
  /\ match r with
     | inr _ => vc_data st = []
     | inl q =>
         vc_alloc st <= S (vc_alloc store) /\ (length (vc_data st) <= vc_cap store -> vc_alloc st = vc_alloc store)
         /\ length (vc_data st) <= vc_cap st
         /\ views_rel (fun _ v v' => v' = v \/ inside st v') p q
         /\ consecutive (vc_alloc st) 0 (view_list q) (length (vc_data st))
     end.
Proof.
  intros P. destruct (decode_all grow store p P) as [(_ & st & q & E & (O1 & O2 & O3) & C & V)|(_ & st & e & E & D)].
  - exists st, (inl q). repeat (split; [assumption|]). split; [|exact C]. eapply views_mono; [|exact V]. intros f v v'. apply becomes_in.
  - exists st, (inr e). auto.
Qed.
Lemma c25_readable st v : inside st v -> exists s, read st v = Ok s.
Proof. destruct v as [| |a o l]; cbn; try contradiction. intros [-> L]. rewrite Nat.eqb_refl. apply Nat.leb_le in L. rewrite L. cbn. eauto. Qed.
Lemma c26_encode grow store p st q : proper p -> parts_encode grow store p = Ok (st, q) -> views_rel (view_encoded st) p q.
Proof. intros P E. destruct (encode_all grow store p P) as (st' & q' & E' & _ & _ & V). rewrite E in E'. injection E' as <- <-. exact V. Qed.
Lemma c26_encode_text grow store p pc st q : proper p -> shows store p pc -> parts_encode grow store p = Ok (st, q) ->
  exists qc, shows st q qc /\ parts_rel encoded pc qc.
Proof. intros P S E. eapply shows_becomes; [apply encoded_nil| |exact S]. eapply c26_encode; eassumption. Qed.
Lemma c26_unique f s e e' : (N.of_nat (length s) < 2 ^ 32)%N -> encoded f s e -> encoded f s e' -> e = e'.
Proof. intros H. apply encoded_fun. intros _. exact H. Qed.
Lemma c26_encode_nothing grow store p st q : proper p ->
  views_all (fun f v => match v with Caller s => ~ must_encode f s | _ => True end) p ->
  parts_encode grow store p = Ok (st, q) -> q = p /\ vc_data st = [].
Proof.
  intros P N E. destruct (encode_all grow store p P) as (st' & q' & E' & _ & C & V). rewrite E in E'. injection E' as <- <-.
  apply becomes_nothing in V; [|exact N]. subst q. split; [reflexivity|]. eapply becomes_empty; [apply P|exact C].
Qed.
Lemma c26_decode grow store p : proper p ->
  ((exists st e, parts_decode grow store p = Ok (st, inr e)) <-> undecodable p)
  /\ forall st q, parts_decode grow store p = Ok (st, inl q) -> views_rel (view_decoded st) p q.
Proof.
  intros P. destruct (decode_all grow store p P) as [(N & st & q & E & _ & _ & V)|(U & st & e & E & _)].
  - split; [split; [intros (st' & e & E'); congruence|contradiction]|]. intros st' q' E'. rewrite E in E'. injection E' as <- <-. exact V.
  - split; [split; [auto|intros _; eauto]|]. intros st' q' E'. congruence.
Qed.
Lemma c26_decode_text grow store p pc st q : proper p -> shows store p pc -> parts_decode grow store p = Ok (st, inl q) ->
  exists qc, shows st q qc /\ parts_rel decoded pc qc.
Proof. intros P S E. eapply shows_becomes; [apply decoded_nil| |exact S]. eapply (proj2 (c26_decode grow store p P)); eassumption. Qed.
Lemma undecodable_must s : host_undecodable s -> must_decode Host s.
Proof. intros U. pose proof U as (es & l & L & Hl & Px & _). split; [exists es, l; auto|]. apply undecodable_not. exact U. Qed.
Lemma c26_decode_nothing grow store p : proper p ->
  views_all (fun f v => match v with Caller s => ~ must_decode f s | _ => True end) p ->
  exists st, parts_decode grow store p = Ok (st, inl p) /\ vc_data st = [].
Proof.
  intros P N. destruct (decode_all grow store p P) as [(_ & st & q & E & _ & C & V)|((a & s & Ea & Eh & U) & _)].
  - apply becomes_nothing in V; [|exact N]. subst q. exists st. split; [exact E|]. eapply becomes_empty; [apply P|exact C].
  - exfalso. destruct N as (_ & H & _). rewrite Ea in H. inversion H as [|x y (_ & K & _) Ex Ey]; subst. rewrite Eh in K. apply K. apply undecodable_must. exact U.
Qed.
Lemma c26_valid_unchanged sg fuel pc qc : parts_fit fuel pc -> parts_valid sg fuel pc = Ok true -> parts_rel encoded pc qc ->
  p_scheme qc = p_scheme pc
  /\ forall a b, p_authority pc = Some a -> p_authority qc = Some b -> ModelUri.host b = ModelUri.host a /\ ModelUri.port b = ModelUri.port a.
Proof. intros F V R. apply (PropSplitFacts.valid_spec sg fuel pc F) in V. apply (well_formed_encoded pc qc V R). Qed.
Lemma c24 grow store p pc : proper p -> shows store p pc -> parts_all returns pc ->
  exists st q qc, parts_encode grow store p = Ok (st, q) /\ shows st q qc
  /\ forall grow2 st2 p2, proper p2 -> shows st2 p2 qc -> exists st3 r, parts_decode grow2 st2 p2 = Ok (st3, inl r) /\ shows st3 r pc.
Proof. intros P S R. destruct (round_trip grow store p pc P S R) as (st & q & qc & A & B & _ & D). exists st, q, qc. auto. Qed.
Lemma c24_valid sg fuel grow store p pc : proper p -> shows store p pc -> parts_fit fuel pc -> parts_valid sg fuel pc = Ok true ->
  exists st q qc, parts_encode grow store p = Ok (st, q) /\ shows st q qc /\ (parts_fit fuel qc -> parts_valid sg fuel qc = Ok true)
  /\ (no_xn pc -> forall grow2 st2 p2, proper p2 -> shows st2 p2 qc -> exists st3 r, parts_decode grow2 st2 p2 = Ok (st3, inl r) /\ shows st3 r pc).
Proof.
  intros P S F V. apply (PropSplitFacts.valid_spec sg fuel pc F) in V. destruct (encode_all grow store p P) as (st & q & E & _ & _ & W).
  destruct (shows_becomes _ _ _ _ _ _ _ encoded_nil W S) as (qc & Sq & Rq). exists st, q, qc. split; [exact E|]. split; [exact Sq|]. split.
  - intros Fq. apply (PropSplitFacts.valid_spec sg fuel qc Fq). apply (well_formed_encoded pc qc V Rq).
  - intros NX. destruct (round_trip grow store p pc P S (valid_returns pc V NX)) as (st' & q' & qc' & E' & Sq' & Rq' & D). rewrite E in E'. injection E' as <- <-.
    assert (X : qc' = qc); [|subst; exact D]. clear - Sq Sq'. destruct Sq as (A1 & A2 & A3 & A4 & A5 & A6), Sq' as (B1 & B2 & B3 & B4 & B5 & B6).
    destruct qc as [sc au [ab sg] qq fr], qc' as [sc' au' [ab' sg'] qq' fr']. cbn in *.
    assert (O : forall o (x y : option str), opt_rel2 (fun v s => read st v = Ok s) o x -> opt_rel2 (fun v s => read st v = Ok s) o y -> y = x).
    { intros o x y X Y. destruct X; inversion Y; subst; [reflexivity|]. congruence. }
    f_equal; [eapply O; eassumption| |f_equal; [congruence|]|eapply O; eassumption|eapply O; eassumption].
    + destruct A2 as [|a b (K1 & K2 & K3)]; inversion B2 as [|? c (J1 & J2 & J3)]; subst; [reflexivity|]. f_equal. destruct b as [u h po], c as [u' h' po']. cbn in *.
      f_equal; [eapply O; eassumption|congruence|eapply O; eassumption].
    + clear - A4 B4. revert sg' B4. induction A4; intros sg' B; inversion B; subst; [reflexivity|]. f_equal; [congruence|auto].
Qed.
