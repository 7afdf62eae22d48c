(* C68: internationalised hosts. *)
From Verif Require Import Base ModelUri ModelParts SpecPct SpecPuny SpecIcu SpecStore SpecViews SpecIdn.
From Verif Require Import PctFacts PunyProps PunyLoop IcuUtf8 IcuRead8 IcuEnc IcuProps PartsHost PartsDec PartsProps.
From Verif Require ModelPuny.
Local Open Scope list_scope.

Definition low (c : N) : bool := (c <? 0x80)%N.
Lemma decoding_low n i bias out s final : decoding n i bias out s final -> (0x80 <= n)%N -> filter low final = filter low out.
Proof.
  induction 1 as [|n i bias pre post delta bias' n' i' word rest final Hv size Ha En Ei El Hd IH]; intros H; [reflexivity|].
  assert (L : (n <= n')%N) by (rewrite En; apply N.le_add_r). rewrite IH by lia. rewrite !filter_app. cbn [filter].
  replace (low n') with false; [reflexivity|]. symmetry. apply N.ltb_ge. lia.
Qed.
Lemma filter_all {A} (f : A -> bool) l : Forall (fun x => f x = true) l -> filter f l = l.
Proof. induction 1 as [|x l E _ IH]; [reflexivity|]. cbn. rewrite E, IH. reflexivity. Qed.
Lemma lit_low lit : (forall c, In c lit -> (code c < 0x80)%N) -> filter low (map code lit) = map code lit.
Proof. intros H. apply filter_all. apply Forall_forall. intros x Hx. apply in_map_iff in Hx as (c & <- & Hc). apply N.ltb_lt. apply H, Hc. Qed.
Lemma puny_literal q u : puny_text q u -> exists lit, literal q lit /\ filter low u = map code lit.
Proof.
  intros [[(lit & d & C & Hn & Hb & Hd)|(q' & -> & Hn & (lit & d & C & Hn' & Hb & Hd))] _];
  pose proof (decoding_low _ _ _ _ _ _ Hd ltac:(discriminate)) as E; rewrite lit_low in E by exact Hb.
  - exists lit. split; [|exact E]. destruct C as [(-> & _)|(-> & ->)]; [left; exists d; auto|right; auto].
  - exists []. assert (lit = []) by (destruct C as [(-> & _)|(_ & ->)]; [|reflexivity]; exfalso; apply Hn, in_or_app; right; left; reflexivity).
    subst lit. split; [|exact E]. left. exists q'. split; [reflexivity|exact Hn].
Qed.
Lemma reads32_low u cs ok : reads32 u cs ok -> filter low cs = filter low u.
Proof.
  induction 1 as [|c us cs ok S _ IH|c us cs ok S _ IH]; [reflexivity|cbn; rewrite IH; reflexivity|]. cbn [filter]. rewrite IH.
  replace (low c) with false; [reflexivity|]. symmetry. apply N.ltb_ge. destruct (N.le_gt_cases 0x80 c); [assumption|]. elim S. left. lia.
Qed.
Lemma filter_none {A} (f : A -> bool) l : Forall (fun x => f x = false) l -> filter f l = [].
Proof. induction 1 as [|x l E _ IH]; [reflexivity|]. cbn. rewrite E. exact IH. Qed.
Lemma text_low cs us : text utf8_of cs us -> filter low us = filter low cs.
Proof.
  induction 1 as [|c w cs us F _ IH]; [reflexivity|]. rewrite filter_app, IH. cbn [filter]. destruct (low c) eqn:E.
  - apply N.ltb_lt in E. rewrite (utf8_ascii _ _ F E). cbn [filter]. unfold low at 1. apply N.ltb_lt in E. rewrite E. reflexivity.
  - apply N.ltb_ge in E. rewrite filter_none; [reflexivity|]. pose proof (utf8_multi _ _ F E) as H. eapply Forall_impl; [|exact H]. intros x Hx. apply N.ltb_ge. exact Hx.
Qed.
Lemma filter_map {A B} (g : A -> B) (f : B -> bool) l : filter f (map g l) = map g (filter (fun x => f (g x)) l).
Proof. induction l as [|x l IH]; [reflexivity|]. cbn. rewrite IH. destruct (f (g x)); reflexivity. Qed.
Lemma map_code_inj' a b : map code a = map code b -> a = b.
Proof. intros E. rewrite <- (map_chr_code a), <- (map_chr_code b), E. reflexivity. Qed.
Lemma label_decoded_shown l t : label_decoded l t -> label_shown l t.
Proof.
  intros [[N ->]|(q & u & cs & ok & -> & P & R & T)]; [left; auto|right]. exists q. split; [reflexivity|]. split; [|exists cs; exact T].
  destruct (puny_literal q u P) as (lit & L & E). replace (ascii_part t) with lit; [exact L|]. apply map_code_inj'.
  unfold ascii_part. rewrite <- (filter_map code low). rewrite (text_low _ _ T), (reads32_low _ _ _ R), E. reflexivity.
Qed.
Lemma in_literal q lit c : literal q lit -> In c lit -> In c q.
Proof. intros [(d & -> & _)|(_ & ->)] H; [apply in_or_app; left; exact H|destruct H]. Qed.
Lemma shown_ascii l t c : label_shown l t -> In c t -> (code c < 0x80)%N -> In c l.
Proof.
  intros [[_ ->]|(q & -> & L & _)] H A; [exact H|]. apply in_or_app. right. eapply in_literal; [exact L|]. apply filter_In. split; [exact H|]. apply N.ltb_lt. exact A.
Qed.
Lemma shown_no_dot l t : label_shown l t -> ~ In dot l -> ~ In dot t.
Proof. intros S N H. apply N. eapply shown_ascii; [exact S|exact H|reflexivity]. Qed.
Lemma shown_no_dots ls ts : Forall2 label_shown ls ts -> Forall (fun x => ~ In dot x) ls -> Forall (fun x => ~ In dot x) ts.
Proof. induction 1 as [|l t ls ts S _ IH]; intros F; inversion F; subst; constructor; [eapply shown_no_dot; eassumption|auto]. Qed.

Lemma puny_empty q : puny_text q [] -> q = [] \/ q = [hyphen].
Proof.
  assert (X : forall lit d, decoding rfc_initial_n 0 rfc_initial_bias (map code lit) d [] -> lit = [] /\ d = []).
  { intros lit d H. pose proof (decoding_longer _ _ _ _ _ _ H) as L. destruct lit; [|cbn in L; lia]. split; [reflexivity|].
    apply decoding_inv in H as [[E _]|(pre & post & delta & b & word & rest & E & -> & Hv & _ & _ & Hd)]; [exact E|].
    apply decoding_longer in Hd. rewrite app_length in Hd. cbn in Hd. lia. }
  intros [[(lit & d & C & _ & _ & Hd)|(q' & -> & _ & (lit & d & C & _ & _ & Hd))] _]; apply X in Hd as [-> ->].
  - destruct C as [(_ & C)|(-> & _)]; [contradiction|left; reflexivity].
  - destruct C as [(_ & C)|(-> & _)]; [contradiction|right; reflexivity].
Qed.
Lemma reads32_empty u ok : reads32 u [] ok -> u = [].
Proof. inversion 1; reflexivity. Qed.
Lemma text8_empty cs : text utf8_of cs [] -> cs = [].
Proof. inversion 1 as [|c w cs' us F T E1 E2]; [reflexivity|]. apply utf8_nonempty in F. destruct w; [contradiction|discriminate]. Qed.

Lemma decoded_host_shown s t : decoded Host s t -> host_shown s t.
Proof.
  intros [[(es & ts & L & F & l & ls & -> & ->) NE]|[(es & ts & L & F & l & ls & -> & E) ->]].
  - left. exists es, (l :: ls). split; [exact L|]. assert (F' : Forall2 label_shown es (l :: ls)) by (eapply forall2_mono; [|exact F]; exact label_decoded_shown).
    split; [|exact F']. exists l, ls. split; [reflexivity|]. split; [reflexivity|]. eapply shown_no_dots; [exact F'|]. destruct L as (? & ? & _ & _ & N). exact N.
  - assert (X : l = [] /\ ls = []) by (destruct ls; [cbn in E; auto|destruct l; discriminate]). destruct X as [-> ->].
    inversion F as [|a b es' ts' D D2]; subst. inversion D2; subst. destruct L as (l' & ls' & EL & -> & _). injection EL as <- <-. cbn [joined].
    destruct D as [[N <-]|(q & u & cs & ok & -> & P & R & T)].
    + left. exists [[]], [[]]. assert (K : labels dot [] [[]]) by (exists [], []; split; [reflexivity|]; split; [reflexivity|]; constructor; [intros []|constructor]).
      split; [exact K|]. split; [exact K|]. constructor; [|constructor]. left. auto.
    + right. split; [reflexivity|]. apply text8_empty in T. subst cs. apply reads32_empty in R. subst u. apply puny_empty in P as [->| ->]; [left|right]; reflexivity.
Qed.

Lemma joined_all (P : ascii -> Prop) ts : forall t, P dot -> Forall (Forall P) (t :: ts) -> Forall P (joined dot t ts).
Proof. intros t D F. apply joined_in. auto. Qed.
Lemma in_joined (c : ascii) ls : forall l, In c (joined dot l ls) -> c = dot /\ ls <> [] \/ exists x, In x (l :: ls) /\ In c x.
Proof.
  induction ls as [|l' ls IH]; intros l H; cbn [joined] in H; [right; exists l; split; [left; reflexivity|exact H]|].
  apply in_app_or in H as [H|[<-|H]]; [right; exists l; split; [left; reflexivity|exact H]|left; split; [reflexivity|discriminate]|].
  destruct (IH _ H) as [[-> N]|(x & Hx & Hc)]; [left; split; [reflexivity|discriminate]|right; exists x; split; [right; exact Hx|exact Hc]].
Qed.
Lemma joined_has (c : ascii) ls x : forall l, In x (l :: ls) -> In c x -> In c (joined dot l ls).
Proof.
  induction ls as [|l' ls IH]; intros l H Hc; cbn [joined].
  - destruct H as [->|[]]. exact Hc.
  - destruct H as [->|H]; apply in_or_app; [left; exact Hc|right; right; apply IH; assumption].
Qed.
Lemma joined_dot l' ls : forall l, In dot (joined dot l (l' :: ls)).
Proof. intros l. cbn [joined]. apply in_or_app. right. left. reflexivity. Qed.
Lemma shown_host_ascii s t c : host_shown s t -> In c t -> (code c < 0x80)%N -> In c s.
Proof.
  intros [(ls & ts & L & M & F)|[-> _]] H A; [|exact H]. destruct L as (l & ls' & -> & -> & _), M as (t0 & ts' & -> & -> & _).
  destruct (in_joined _ _ _ H) as [[-> N]|(x & Hx & Hc)].
  - assert (E : length (l :: ls') = length (t0 :: ts')) by (clear - F; induction F; cbn; congruence). destruct ls' as [|l' ls']; [destruct ts'; [contradiction|discriminate]|]. apply joined_dot.
  - clear H. assert (X : exists y, In y (l :: ls') /\ label_shown y x).
    { clear - F Hx. induction F as [|a b ls ts S _ IH]; [destruct Hx|]. destruct Hx as [<-|Hx]; [exists a; split; [left; reflexivity|exact S]|].
      destruct (IH Hx) as (y & Hy & Sy). exists y. split; [right; exact Hy|exact Sy]. }
    destruct X as (y & Hy & Sy). eapply joined_has; [exact Hy|]. eapply shown_ascii; eassumption.
Qed.
Lemma utf8_app a b : utf8_text a -> utf8_text b -> utf8_text (a ++ b).
Proof. intros (x & X) (y & Y). exists (x ++ y). rewrite map_app. apply text_app; assumption. Qed.
Lemma utf8_ascii_text a : ascii_only (map code a) -> utf8_text a.
Proof. intros A. exists (map code a). apply ascii_text. exact A. Qed.
Lemma utf8_joined ts : forall t, Forall utf8_text (t :: ts) -> utf8_text (joined dot t ts).
Proof.
  induction ts as [|t' ts IH]; intros t F; inversion F as [|? ? F1 F2]; subst; [exact F1|]. cbn [joined]. apply utf8_app; [exact F1|].
  change (utf8_text ([dot] ++ joined dot t' ts)). apply utf8_app; [|apply IH; exact F2]. apply utf8_ascii_text. constructor; [reflexivity|constructor].
Qed.
Lemma ascii_app a b : ascii_only (map code (a ++ b)) -> ascii_only (map code a) /\ ascii_only (map code b).
Proof. unfold ascii_only. rewrite map_app. intros H. apply Forall_app in H. exact H. Qed.
Lemma ascii_labels ls : forall l, ascii_only (map code (joined dot l ls)) -> Forall (fun x => ascii_only (map code x)) (l :: ls).
Proof.
  induction ls as [|l' ls IH]; intros l H; cbn [joined] in H; [constructor; [exact H|constructor]|]. apply ascii_app in H as [H1 H2]. constructor; [exact H1|].
  inversion H2; subst. apply IH. assumption.
Qed.
Lemma shown_utf8 (ls ts : list str) : Forall2 label_shown ls ts -> Forall (fun x => ascii_only (map code x)) ls -> Forall utf8_text ts.
Proof.
  induction 1 as [|a b ls ts S _ IH]; intros A; [apply Forall_nil|]. inversion A; subst. apply Forall_cons; [|auto].
  destruct S as [[_ ->]|(q & _ & _ & U)]; [apply utf8_ascii_text; assumption|exact U].
Qed.
Lemma shown_host_utf8 s t : host_shown s t -> ascii_only (map code s) -> utf8_text t.
Proof.
  intros [(ls & ts & L & M & F)|[-> _]] A; [|apply utf8_ascii_text; exact A]. destruct L as (l & ls' & -> & -> & _), M as (t0 & ts' & -> & -> & _).
  apply utf8_joined. apply ascii_labels in A. exact (shown_utf8 _ _ F A).
Qed.

(* --- back again ------------------------------------------------------------------------------------------- *)
Lemma normal_back l t : normal_label l -> label_decoded l t -> exists u, text utf8_of u (map code t) /\ label_encoded u l.
Proof.
  intros [[A N]|(q & u & -> & P & S & NA)] [[NX ->]|(q' & u' & cs & ok & E & P' & R & T)].
  - exists (map code l). split; [apply ascii_text; exact A|]. left. auto.
  - subst l. elim N. exists q'. reflexivity.
  - elim NX. exists q. reflexivity.
  - apply app_inv_head in E. subst q'. assert (PT : puny_text q u).
    { apply punycode_text; [exact P|]. intros c Hc. pose proof (proj1 (Forall_forall _ _) S c Hc) as Sc. unfold scalar in Sc. lia. }
    rewrite (puny_text_fun _ _ _ P' PT) in R. pose proof (reads32_scalars u S) as R'. destruct (reads32_fun _ _ _ R _ _ R') as [-> ->].
    exists u. split; [exact T|]. right. split; [exact NA|]. exists q. auto.
Qed.
Lemma text_joined us : forall u t ts, Forall2 (fun u t => text utf8_of u (map code t)) (u :: us) (t :: ts) -> text utf8_of (joined dot32 u us) (map code (joined dot t ts)).
Proof.
  induction us as [|u' us IH]; intros u t ts F; inversion F as [|? ? ? ? T F2]; subst; inversion F2; subst; cbn [joined]; [exact T|].
  rewrite map_app. apply text_app; [exact T|]. change (map code (dot :: joined dot y l')) with ([dot32] ++ map code (joined dot y l')).
  change (text utf8_of (dot32 :: joined dot32 u' us) ([dot32] ++ map code (joined dot y l'))). apply text_cons; [apply utf8_1; reflexivity|]. apply IH. exact F2.
Qed.
Lemma text_no_dot u t : text utf8_of u (map code t) -> ~ In dot t -> ~ In dot32 u.
Proof.
  intros T N H. apply N. assert (X : In dot32 (map code t)).
  { clear - T H. induction T as [|c w cs us F _ IH]; [destruct H|]. apply in_or_app. destruct H as [->|H]; [left|right; auto]. rewrite (utf8_ascii _ _ F); [left; reflexivity|reflexivity]. }
  apply in_map_iff in X as (c & E & Hc). apply code_dot in E. subst c. exact Hc.
Qed.
Lemma host_back s t : normal_host s -> host_decoded s t -> host_encoded t s.
Proof.
  intros (ls & L & NF) (es & ts & L' & F & t0 & ts0 & -> & ->). rewrite (labels_fun _ _ _ _ L' L) in F. clear L' es.
  assert (NT : Forall (fun x => ~ In dot x) (t0 :: ts0)).
  { eapply shown_no_dots; [eapply forall2_mono; [exact label_decoded_shown|exact F]|]. destruct L as (? & ? & _ & _ & N). exact N. }
  assert (X : exists us, Forall2 (fun u t => text utf8_of u (map code t)) us (t0 :: ts0) /\ Forall2 label_encoded us ls /\ Forall (fun u => ~ In dot32 u) us).
  { clear L. revert NF NT. induction F as [|l t ls ts D _ IH]; intros NF NT; [exists []; repeat split; constructor|]. inversion NF; inversion NT; subst.
    destruct IH as (us & A & B & C); [assumption|assumption|]. destruct (normal_back l t ltac:(assumption) D) as (u & T & E). exists (u :: us).
    split; [constructor; assumption|]. split; [constructor; assumption|]. constructor; [|exact C]. eapply text_no_dot; eassumption. }
  destruct X as (us & A & B & C). destruct us as [|u us]; [inversion A|].
  exists (joined dot32 u us), true, (u :: us), ls. split; [apply text_reads8, text_joined; exact A|]. split; [exists u, us; auto|]. split; [exact L|exact B].
Qed.
Lemma normal_decodable s : normal_host s -> ~ host_undecodable s.
Proof.
  intros (ls & L & NF) (es & l & L' & Hl & HX & N). rewrite (labels_fun _ _ _ _ L' L) in Hl. rewrite Forall_forall in NF.
  destruct (NF l Hl) as [[_ NX]|(q & u & -> & P & S & _)]; [contradiction|]. apply (N u). change (skipn 4 (xn ++ q)) with q. apply punycode_text; [exact P|].
  intros c Hc. pose proof (proj1 (Forall_forall _ _) S c Hc) as Sc. unfold scalar in Sc. lia.
Qed.
Lemma normal_not_empty s : normal_host s -> host_decoded s [] -> s = [].
Proof.
  intros (ls & L & NF) (es & ts & L' & F & t0 & ts0 & -> & E). rewrite (labels_fun _ _ _ _ L' L) in F. clear L' es.
  assert (X : t0 = [] /\ ts0 = []) by (destruct ts0; [cbn in E; auto|destruct t0; discriminate]). destruct X as [-> ->].
  inversion F as [|a b es' ts' D D2]; subst. inversion D2; subst. destruct L as (l' & ls' & EL & -> & _). injection EL as <- <-. cbn [joined]. inversion NF; subst.
  destruct (normal_back a [] ltac:(assumption) D) as (u & T & En). apply text8_empty in T. subst u.
  destruct En as [[_ En]|[NA _]]; [destruct a; [reflexivity|discriminate]|]. elim NA. constructor.
Qed.
Lemma normal_encoded s t : normal_host s -> decoded Host s t -> host_encoded t s.
Proof.
  intros N [[D _]|[D ->]]; [apply host_back; assumption|]. apply normal_not_empty in D; [|exact N]. subst s. apply host_encoded_ascii. constructor.
Qed.
(* what encode makes of well-formed text without xn-- labels is normal *)
Lemma encode_normal s e : returns Host s -> host_encoded s e -> normal_host e.
Proof.
  intros [(cs & T) NX] (cs' & ok & us & es & R & L & M & F). exists es. split; [exact M|].
  assert (R0 : reads8 (map code s) cs true) by (apply text_reads8; exact T). destruct (reads8_fun _ _ _ _ _ (codes_small s) R R0) as [-> ->].
  pose proof (reads8_scalar _ _ _ R0) as SC. destruct L as (u & us' & -> & -> & ND).
  destruct (utf8_labels _ _ _ T) as (t & ts & -> & FT).
  assert (NT : Forall (fun x => ~ In dot x) (t :: ts)).
  { clear - FT ND. induction FT; constructor; inversion ND; subst; auto. eapply no_dot_text; eassumption. }
  assert (LS : labels dot (joined dot t ts) (t :: ts)) by (exists t, ts; auto).
  assert (NX' : forall l, In l (t :: ts) -> ascii_only (map code l) -> ~ has_prefix xn l) by (intros l Hl; apply (NX _ _ LS Hl)).
  apply joined_in in SC as [SC _]. clear - F FT SC NX'. revert F FT SC NX'. generalize (t :: ts) (u :: us'). clear. intros ts us F FT. revert es F.
  induction FT as [|u t us ts T _ IH]; intros es F SC NX; inversion F as [|a b c d G F2]; subst; [constructor|]. inversion SC; subst.
  constructor; [|apply IH; auto; intros l Hl; apply NX; right; exact Hl].
  destruct G as [[A E]|[A (q & P & ->)]].
  - left. pose proof (text_ascii _ _ A T) as E2. assert (X : b = t) by (apply map_code_inj'; congruence). subst b. split; [rewrite E; exact A|].
    apply NX; [left; reflexivity|]. rewrite E. exact A.
  - right. exists q, u. auto.
Qed.

(* --- the interface ----------------------------------------------------------------------------------------- *)
Lemma rel_authority R pc qc a : parts_rel R pc qc -> p_authority pc = Some a -> exists b, p_authority qc = Some b /\ R Host (host a) (host b).
Proof. intros (_ & H & _) E. rewrite E in H. destruct (p_authority qc) as [b|]; [|inversion H]. inversion H as [|? ? K]; subst. exists b. split; [reflexivity|apply K]. Qed.
Lemma host_view st p pc a : outside p -> shows st p pc -> p_authority pc = Some a -> exists va, v_authority p = Some va /\ (v_host va = Caller (host a) \/ (v_host va = Null /\ host a = [])).
Proof.
  intros (_ & O & _) (_ & H & _) E. rewrite E in H. destruct (v_authority p) as [va|]; [|inversion H]. inversion H as [|? ? (_ & K & _)]; subst. inversion O as [|? ? (_ & Q & _)]; subst.
  exists va. split; [reflexivity|]. destruct (v_host va); [right; cbn in K; injection K as <-; auto|left; cbn in K; congruence|contradiction].
Qed.
Lemma c68_decode grow store p pc a st q : proper p -> shows store p pc -> p_authority pc = Some a -> parts_decode grow store p = Ok (st, inl q) ->
  exists qc b, shows st q qc /\ p_authority qc = Some b /\ host_shown (host a) (host b).
Proof.
  intros P S E D. destruct (c26_decode_text grow store p pc st q P S D) as (qc & S' & R). destruct (rel_authority _ _ _ _ R E) as (b & Eb & Rb).
  exists qc, b. split; [exact S'|]. split; [exact Eb|]. apply decoded_host_shown. exact Rb.
Qed.
Lemma shows_short store p pc a : proper p -> shows store p pc -> p_authority pc = Some a -> short_text (host a).
Proof.
  intros P S E. destruct (host_view store p pc a (proj1 P) S E) as (va & Ea & [Eh|[_ ->]]); [|reflexivity].
  exact (short_host_short p (proj2 (proj2 P)) va _ Ea Eh).
Qed.
Lemma c68_back grow store p pc a : proper p -> shows store p pc -> p_authority pc = Some a -> normal_host (host a) ->
  exists st q qc, parts_decode grow store p = Ok (st, inl q) /\ shows st q qc
  /\ forall grow2 st2 p2, proper p2 -> shows st2 p2 qc ->
       exists st3 r rc c, parts_encode grow2 st2 p2 = Ok (st3, r) /\ shows st3 r rc /\ p_authority rc = Some c /\ host c = host a.
Proof.
  intros P S E N. destruct (decode_all grow store p P) as [(_ & st & q & D & _)|(U & _)].
  - destruct (c26_decode_text grow store p pc st q P S D) as (qc & S' & R). exists st, q, qc. split; [exact D|]. split; [exact S'|].
    intros grow2 st2 p2 P2 S2. destruct (encode_all grow2 st2 p2 P2) as (st3 & r & En & _). destruct (c26_encode_text grow2 st2 p2 qc st3 r P2 S2 En) as (rc & S3 & R3).
    destruct (rel_authority _ _ _ _ R E) as (b & Eb & Rb). destruct (rel_authority _ _ _ _ R3 Eb) as (c & Ec & Rc).
    exists st3, r, rc, c. split; [exact En|]. split; [exact S3|]. split; [exact Ec|].
    apply (host_encoded_fun (host b) (host c) (host a)); [exact (shows_short st2 p2 qc b P2 S2 Eb)|exact Rc|apply normal_encoded; assumption].
  - exfalso. destruct U as (va & s & Ea & Eh & U). destruct (host_view store p pc a (proj1 P) S E) as (va' & Ea' & H). assert (va' = va) by congruence. subst va'.
    destruct H as [H|[H _]]; rewrite Eh in H; [|discriminate]. injection H as ->. exact (normal_decodable _ N U).
Qed.
Lemma punycode_unique u q q' : punycode_of u q -> punycode_of u q' -> q = q'.
Proof.
  intros (lit & d & C & Hl & Hb & Hd) (lit' & d' & C' & Hl' & Hb' & Hd'). destruct (puny_text_unique lit d lit' d' u Hb Hb' Hl Hl' Hd Hd') as [<- <-].
  destruct C as [(-> & H1)|(-> & H1)], C' as [(-> & H2)|(-> & H2)]; congruence.
Qed.
Lemma label_encoded_any u e e' : label_encoded u e -> label_encoded u e' -> e = e'.
Proof.
  intros [[A E]|[A (q & P & ->)]] [[A' E']|[A' (q' & P' & ->)]]; try contradiction; [apply map_code_inj'; congruence|]. rewrite (punycode_unique u q q' P P'). reflexivity.
Qed.
Lemma c68_injective grow store p pc a st q qc b grow' store' p' pc' a' st' q' qc' b' :
  proper p -> shows store p pc -> p_authority pc = Some a -> normal_host (host a) -> parts_decode grow store p = Ok (st, inl q) -> shows st q qc -> p_authority qc = Some b ->
  proper p' -> shows store' p' pc' -> p_authority pc' = Some a' -> normal_host (host a') -> parts_decode grow' store' p' = Ok (st', inl q') -> shows st' q' qc' -> p_authority qc' = Some b' ->
  host b = host b' -> host a = host a'.
Proof.
  assert (X : forall grow store p pc a st q qc b, proper p -> shows store p pc -> p_authority pc = Some a -> normal_host (host a) -> parts_decode grow store p = Ok (st, inl q) -> shows st q qc -> p_authority qc = Some b -> host_encoded (host b) (host a)).
  { clear. intros grow store p pc a st q qc b P S E N D S' Eb. destruct (c26_decode_text grow store p pc st q P S D) as (qc2 & S2 & R). destruct (rel_authority _ _ _ _ R E) as (b2 & Eb2 & Rb).
    assert (EH : host b2 = host b).
    { destruct S' as (_ & H1 & _), S2 as (_ & H2 & _). rewrite Eb in H1. rewrite Eb2 in H2. destruct (v_authority q); [|inversion H1]. inversion H1 as [|? ? (_ & K1 & _)]; inversion H2 as [|? ? (_ & K2 & _)]; subst. congruence. }
    rewrite <- EH. apply normal_encoded; assumption. }
  intros P S E N D S1 Eb P' S' E' N' D' S1' Eb' EQ.
  pose proof (X _ _ _ _ _ _ _ _ _ P S E N D S1 Eb) as H. pose proof (X _ _ _ _ _ _ _ _ _ P' S' E' N' D' S1' Eb') as H'. rewrite <- EQ in H'.
  destruct H as (cs & ok & us & es & R & L & M & F), H' as (cs' & ok' & us' & es' & R' & L' & M' & F').
  destruct (reads8_fun _ _ _ _ _ (codes_small _) R R') as [<- <-]. rewrite (labels_fun _ _ _ _ L' L) in F'.
  pose proof (forall2_fun _ label_encoded_any _ _ _ F F') as EE.
  subst es'. destruct M as (x & xs & -> & -> & _), M' as (y & ys & EL & -> & _). congruence.
Qed.
Lemma ex_normal : normal_host (ss "www.xn--bcher-kva").
Proof.
  exists [ss "www"; xn ++ ss "bcher-kva"]. split.
  - exists (ss "www"), [xn ++ ss "bcher-kva"]. split; [reflexivity|]. split; [reflexivity|]. repeat constructor; cbn; intros H; repeat (destruct H as [H|H]; [discriminate H|]); destruct H.
  - constructor; [left; split; [repeat constructor|intros (r & E); discriminate E]|]. constructor; [|constructor].
    right. exists (ss "bcher-kva"), [0x62; 0xFC; 0x63; 0x68; 0x65; 0x72]%N. split; [reflexivity|]. split; [|split].
    + destruct (c35 [0x62; 0xFC; 0x63; 0x68; 0x65; 0x72]%N true) as (e & b & E & P & _); [reflexivity| | |].
      * intros c H. cbn in H. repeat (destruct H as [<-|H]; [reflexivity|]). destruct H.
      * right. exists 0xFC%N. split; [right; left; reflexivity|discriminate].
      * assert (X : ModelPuny.encode [0x62; 0xFC; 0x63; 0x68; 0x65; 0x72]%N true = Ok (ss "bcher-kva", true)) by (vm_compute; reflexivity). rewrite X in E.
        assert (e = ss "bcher-kva") by congruence. subst e. exact P.
    + repeat constructor.
    + intros A. inversion A as [|? ? _ A2]; subst. inversion A2 as [|? ? K _]; subst. discriminate K.
Qed.
