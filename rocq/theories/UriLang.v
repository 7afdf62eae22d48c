(* Soundness and completeness of the grammar's parsers against RFC 3986: everything but IPv6 and
   the structured rules. *)
From Verif Require Import Base ModelRule ModelUri Peg PegUri PegLang.
From Verif Require Rfc3986.
Import Rfc3986 (L, abnf, Rng, Lit, Cat, Alt, Rep, lower).
From Coq Require Import ZifyBool ZifyNat ZifyN.
Local Notation concat := List.concat.
Local Notation pseq := (Peg.pseq action).
Local Notation pchr := (Peg.pchr action).
Local Notation pstar := (Peg.pstar action).

Definition f_r c := b_unres c || is_sub_delim c.
Definition f_u c := f_r c || ch 0x3A c.
Definition f_n c := f_r c || ch 0x40 c.
Definition f_p c := f_r c || ch 0x3A c || ch 0x40 c.
Definition f_q c := f_p c || ch 0x2F c || ch 0x3F c.
Definition f_s c := b_alpha c || b_digit c || ch 0x2B c || ch 0x2D c || ch 0x2E c.

Lemma hex_cls : same_cls Rfc3986.HEXDIG b_hex = true. Proof. vm_compute. reflexivity. Qed.
Lemma L_hex m : L Rfc3986.HEXDIG m <-> exists c, m = [c] /\ b_hex c = true.
Proof. apply L_cls, hex_cls. Qed.
Lemma L_lit1 n x m : (n <? 256)%N = true -> same_cls (Lit (String x EmptyString)) (ch n) = true ->
  L (Lit (String x EmptyString)) m <-> m = [chr n].
Proof.
  intros Hn H. rewrite (L_cls _ _ H). split.
  - intros (c & -> & Hc). apply ch_spec in Hc; auto. congruence.
  - intros ->. exists (chr n). split; auto. now apply ch_spec.
Qed.
Lemma L_pct m : L Rfc3986.pct_encoded m <->
  exists h1 h2, m = ["%"%char; h1; h2] /\ b_hex h1 = true /\ b_hex h2 = true.
Proof.
  unfold Rfc3986.pct_encoded. cbn [L]. split.
  - intros (s1 & s2 & -> & H1 & s3 & s4 & -> & H3 & H4).
    apply (proj1 (L_lit1 37 "%" s1 eq_refl eq_refl)) in H1. apply L_hex in H3, H4. subst s1.
    destruct H3 as (c3 & -> & H3). destruct H4 as (c4 & -> & H4). exists c3, c4. auto.
  - intros (h1 & h2 & -> & H1 & H2). exists ["%"%char], [h1; h2]. split; auto. split.
    + apply (L_lit1 37 "%" _ eq_refl eq_refl). reflexivity.
    + exists [h1], [h2]. split; auto. split; apply L_hex; eauto.
Qed.

Lemma elem_lang g gc f : (forall m, L g m <-> L gc m \/ L Rfc3986.pct_encoded m) ->
  same_cls gc f = true -> forall m, L g m <-> elemL f m.
Proof. intros H Hc m. rewrite H, (L_cls _ _ Hc), L_pct. unfold elemL. tauto. Qed.

Ltac elem_eq :=
  let s := fresh "s" in let c := fresh "c" in
  intros [|c s]; [reflexivity|];
  unfold g_rchar, g_uchar, g_nchar, g_pchar; cbn [palts]; rewrite g_pct_eq;
  unfold g_unres, g_sub, g_colon, g_at, g_slash, g_ch, Peg.pchr, elem, f_q, f_p, f_u, f_n, f_r;
  destruct (ch 37 c) eqn:E37;
  [ apply ch_spec in E37; [subst c|reflexivity];
    cbn -[b_hex]; destruct s as [|h1 [|h2 s']]; try reflexivity;
    destruct (b_hex h1); try reflexivity; destruct (b_hex h2); reflexivity
  | destruct (b_unres c); [reflexivity|];
    destruct s as [|h1 [|h2 s']]; cbn [andb];
    destruct (is_sub_delim c); try reflexivity;
    destruct (ch 58 c); try reflexivity;
    destruct (ch 64 c); try reflexivity ].

Lemma e_rchar : is_elem g_rchar (Alt (Alt Rfc3986.unreserved Rfc3986.pct_encoded) Rfc3986.sub_delims) f_r.
Proof.
  split; [|split; [|reflexivity]].
  - elem_eq.
  - apply elem_lang with (gc := Alt Rfc3986.unreserved Rfc3986.sub_delims); [|vm_compute; reflexivity].
    intros m. cbn [L]. tauto.
Qed.
Lemma e_uchar : is_elem g_uchar (Alt (Alt (Alt Rfc3986.unreserved Rfc3986.pct_encoded) Rfc3986.sub_delims) (Lit ":")) f_u.
Proof.
  split; [|split; [|reflexivity]].
  - elem_eq.
  - apply elem_lang with (gc := Alt (Alt Rfc3986.unreserved Rfc3986.sub_delims) (Lit ":")); [|vm_compute; reflexivity].
    intros m. cbn [L]. tauto.
Qed.
Lemma e_nchar : is_elem g_nchar (Alt (Alt (Alt Rfc3986.unreserved Rfc3986.pct_encoded) Rfc3986.sub_delims) (Lit "@")) f_n.
Proof.
  split; [|split; [|reflexivity]].
  - elem_eq.
  - apply elem_lang with (gc := Alt (Alt Rfc3986.unreserved Rfc3986.sub_delims) (Lit "@")); [|vm_compute; reflexivity].
    intros m. cbn [L]. tauto.
Qed.
Lemma e_pchar : is_elem g_pchar Rfc3986.pchar f_p.
Proof.
  split; [|split; [|reflexivity]].
  - elem_eq.
  - apply elem_lang with (gc := Alt (Alt (Alt Rfc3986.unreserved Rfc3986.sub_delims) (Lit ":")) (Lit "@")); [|vm_compute; reflexivity].
    intros m. unfold Rfc3986.pchar. cbn [L]. tauto.
Qed.
Lemma e_qchar : is_elem g_qchar (Alt (Alt Rfc3986.pchar (Lit "/")) (Lit "?")) f_q.
Proof.
  split; [|split; [|reflexivity]].
  - intros s. unfold g_qchar. cbn [palts]. rewrite (proj1 e_pchar).
    destruct s as [|c s]; [reflexivity|]. unfold g_slash, g_ch, Peg.pchr, elem, f_q.
    destruct (f_p c) eqn:Ep; [reflexivity|]. cbn [orb]. destruct (ch 37 c) eqn:E37.
    + apply ch_spec in E37; [subst c|reflexivity]. cbn -[b_hex].
      destruct s as [|h1 [|h2 s']]; try reflexivity.
      destruct (b_hex h1); try reflexivity; destruct (b_hex h2); reflexivity.
    + destruct (ch 47 c); [reflexivity|]. destruct (ch 63 c); reflexivity.
  - apply elem_lang with (gc := Alt (Alt (Alt (Alt (Alt Rfc3986.unreserved Rfc3986.sub_delims) (Lit ":")) (Lit "@")) (Lit "/")) (Lit "?")); [|vm_compute; reflexivity].
    intros m. unfold Rfc3986.pchar. cbn [L]. tauto.
Qed.

(* choices between single characters are single-character parsers *)
Lemma schar_eq s : g_schar s = pchr f_s s.
Proof.
  destruct s as [|c s]; [reflexivity|]. unfold g_schar, f_s, g_alpha, g_digit, g_dot, g_ch, Peg.pchr. cbn [palts].
  destruct (b_alpha c), (b_digit c), (ch 43 c), (ch 45 c), (ch 46 c); reflexivity.
Qed.
Lemma fchar_eq s : g_fchar s = pchr f_u s.
Proof.
  destruct s as [|c s]; [reflexivity|]. unfold g_fchar, f_u, f_r, g_unres, g_sub, g_colon, g_ch, Peg.pchr. cbn [palts].
  destruct (b_unres c), (is_sub_delim c), (ch 58 c); reflexivity.
Qed.
Lemma prep_ext n (p q : Peg.parser action) : (forall s, p s = q s) -> forall s, Peg.prep _ n p s = Peg.prep _ n q s.
Proof.
  intros H. induction n as [|n IH]; intros s; cbn; auto. rewrite H.
  destruct (q s) as [[[m a] r]|]; auto. now rewrite IH.
Qed.
Lemma pstar_ext min max (p q : Peg.parser action) : (forall s, p s = q s) -> forall s, pstar min max p s = pstar min max q s.
Proof. intros H s. unfold Peg.pstar. now rewrite (prep_ext _ _ _ H). Qed.
Lemma sound_ext p q R : (forall s, p s = q s) -> sound q R -> sound p R.
Proof. intros H Hq s m a r E. rewrite H in E. eauto. Qed.
Lemma complete_ext p q R F : (forall s, p s = q s) -> complete q R F -> complete p R F.
Proof. intros H Hq m a r Hm Hr. rewrite H. auto. Qed.

Lemma pfirst_r : forall c, efirst f_r c = true -> efirst f_p c = true.
Proof.
  intros c. pose proof (sweep (fun c => implb (efirst f_r c) (efirst f_p c)) eq_refl c) as H.
  cbn in H. intros E. rewrite E in H. exact H.
Qed.

Lemma rlang_cat' g h (R2 : rel) m a : (forall m a, R2 m a -> rlang h m a) ->
  rseq (rlang g) R2 m a -> rlang (Cat g h) m a.
Proof.
  intros H (m1 & m2 & a1 & a2 & -> & -> & H1 & H2). apply rlang_cat.
  exists m1, m2, a1, a2. eauto.
Qed.
Lemma rlang_cat_inv' g h (R2 : rel) m a : (forall m a, rlang h m a -> R2 m a) ->
  rlang (Cat g h) m a -> rseq (rlang g) R2 m a.
Proof.
  intros H H1. apply rlang_cat in H1. destruct H1 as (m1 & m2 & a1 & a2 & -> & -> & H1 & H2).
  exists m1, m2, a1, a2. auto.
Qed.

(* scheme *)
Lemma s_scheme : sound g_scheme (rlang Rfc3986.scheme).
Proof.
  eapply sound_imp; [apply sound_seq with (R1 := rlang Rfc3986.ALPHA)
     (R2 := rlang (Rep 0 None (Alt (Alt (Alt (Alt Rfc3986.ALPHA Rfc3986.DIGIT) (Lit "+")) (Lit "-")) (Lit ".")))) |].
  - apply sound_chr. vm_compute. reflexivity.
  - eapply sound_ext; [apply pstar_ext, schar_eq|]. apply chr_star_sound. vm_compute. reflexivity.
  - intros m a. apply rlang_cat.
Qed.
Lemma c_scheme : complete g_scheme (rlang Rfc3986.scheme) (nohd f_s).
Proof.
  eapply complete_imp; [apply complete_seq with (R1 := rlang Rfc3986.ALPHA) (F1 := any)
     (R2 := rlang (Rep 0 None (Alt (Alt (Alt (Alt Rfc3986.ALPHA Rfc3986.DIGIT) (Lit "+")) (Lit "-")) (Lit ".")))) | |].
  - apply complete_chr. vm_compute. reflexivity.
  - eapply complete_ext; [apply pstar_ext, schar_eq|]. apply chr_star_complete. vm_compute. reflexivity.
  - intros; exact I.
  - intros m a H. apply rlang_cat. exact H.
  - auto.
Qed.
Lemma s_userinfo : sound g_userinfo (rlang Rfc3986.userinfo).
Proof. apply elem_star_sound with (f := f_u), e_uchar. Qed.
Lemma c_userinfo : complete g_userinfo (rlang Rfc3986.userinfo) (nohd (efirst f_u)).
Proof. apply elem_star_complete, e_uchar. Qed.
Lemma s_reg_name : sound g_reg_name (rlang Rfc3986.reg_name).
Proof. apply elem_star_sound with (f := f_r), e_rchar. Qed.
Lemma c_reg_name : complete g_reg_name (rlang Rfc3986.reg_name) (nohd (efirst f_r)).
Proof. apply elem_star_complete, e_rchar. Qed.
Lemma s_segment : sound g_segment (rlang Rfc3986.segment).
Proof. apply elem_star_sound with (f := f_p), e_pchar. Qed.
Lemma c_segment : complete g_segment (rlang Rfc3986.segment) (nohd (efirst f_p)).
Proof. apply elem_star_complete, e_pchar. Qed.
Lemma s_segment_nz : sound g_segment_nz (rlang Rfc3986.segment_nz).
Proof. apply elem_star_sound with (f := f_p), e_pchar. Qed.
Lemma c_segment_nz : complete g_segment_nz (rlang Rfc3986.segment_nz) (nohd (efirst f_p)).
Proof. apply elem_star_complete, e_pchar. Qed.
Lemma s_segment_nz_nc : sound g_segment_nz_nc (rlang Rfc3986.segment_nz_nc).
Proof. apply elem_star_sound with (f := f_n), e_nchar. Qed.
Lemma c_segment_nz_nc : complete g_segment_nz_nc (rlang Rfc3986.segment_nz_nc) (nohd (efirst f_n)).
Proof. apply elem_star_complete, e_nchar. Qed.
Lemma s_query : sound g_query (rlang Rfc3986.query).
Proof. apply elem_star_sound with (f := f_q), e_qchar. Qed.
Lemma c_query : complete g_query (rlang Rfc3986.query) (nohd (efirst f_q)).
Proof. apply elem_star_complete, e_qchar. Qed.
Lemma s_port : sound g_port (rlang Rfc3986.port).
Proof. apply chr_star_sound. vm_compute. reflexivity. Qed.
Lemma c_port : complete g_port (rlang Rfc3986.port) (nohd b_digit).
Proof. apply chr_star_complete. vm_compute. reflexivity. Qed.
Lemma s_h16 : sound g_h16 (rlang Rfc3986.h16).
Proof. apply chr_star_sound. vm_compute. reflexivity. Qed.
Lemma c_h16 : complete g_h16 (rlang Rfc3986.h16) (nohd b_hex).
Proof. apply chr_star_complete. vm_compute. reflexivity. Qed.
Lemma s_ch n x : same_cls (Lit (String x EmptyString)) (ch n) = true ->
  sound (g_ch n) (rlang (Lit (String x EmptyString))).
Proof. intros. now apply sound_chr. Qed.
Lemma c_ch n x : same_cls (Lit (String x EmptyString)) (ch n) = true ->
  complete (g_ch n) (rlang (Lit (String x EmptyString))) any.
Proof. intros. now apply complete_chr. Qed.

(* IPvFuture; the second star ends at a character outside f_u *)
Lemma s_ipvfuture : sound g_ipvfuture (rlang Rfc3986.IPvFuture).
Proof.
  eapply sound_imp; [apply sound_seq; [|apply sound_seq; [|apply sound_seq]] |].
  - apply sound_chr with (g := Lit "v"). vm_compute. reflexivity.
  - apply chr_star_sound with (g := Rfc3986.HEXDIG). vm_compute. reflexivity.
  - apply (s_ch 46 "."). vm_compute. reflexivity.
  - eapply sound_ext; [apply pstar_ext, fchar_eq|].
    apply chr_star_sound with (g := Alt (Alt Rfc3986.unreserved Rfc3986.sub_delims) (Lit ":")).
    vm_compute. reflexivity.
  - unfold Rfc3986.IPvFuture. intros m a H; revert H. repeat (apply rlang_cat'; intros ? ? H; revert H).
    auto.
Qed.
Lemma c_ipvfuture : complete g_ipvfuture (rlang Rfc3986.IPvFuture) (nohd f_u).
Proof.
  eapply complete_imp.
  - apply complete_seq with (F1 := any) (R1 := rlang (Lit "v")); [apply complete_chr; vm_compute; reflexivity| |intros; exact I].
    apply complete_seq with (F1 := nohd b_hex) (R1 := rlang (Rep 1 None Rfc3986.HEXDIG));
      [apply chr_star_complete; vm_compute; reflexivity| |].
    + apply complete_seq with (F1 := any) (R1 := rlang (Lit ".")); [apply (c_ch 46 "."); vm_compute; reflexivity| |intros; exact I].
      eapply complete_ext; [apply pstar_ext, fchar_eq|].
      apply chr_star_complete with (g := Alt (Alt Rfc3986.unreserved Rfc3986.sub_delims) (Lit ":")).
      vm_compute. reflexivity.
    + intros m a r (m1 & m2 & a1 & a2 & -> & -> & [H1 _] & _) _.
      apply (proj1 (L_lit1 46 "." _ eq_refl eq_refl)) in H1. subst m1. reflexivity.
  - unfold Rfc3986.IPvFuture. intros m a H. revert H.
    repeat (apply rlang_cat_inv'; intros ? ? H; revert H). auto.
  - auto.
Qed.

(* dec-octet and IPv4address *)
Lemma L_digit m : L Rfc3986.DIGIT m <-> exists c, m = [c] /\ b_digit c = true.
Proof. apply L_cls. vm_compute. reflexivity. Qed.
Lemma L_rng lo hi m : L (Rng lo hi) m <-> exists c, m = [c] /\ inr lo hi c = true.
Proof.
  cbn. unfold inr. split; intros (c & -> & Hc); exists c; split; auto; lia.
Qed.
Lemma L_25 m : L (Lit "25") m <-> m = ["2"%char; "5"%char].
Proof.
  cbn. split; [|now intros ->]. destruct m as [|c [|d [|e m]]]; cbn; try discriminate.
  intros H. inversion H as [[H1 H2]].
  assert (c = "2"%char).
  { apply ch_spec with (n := 50%N); [reflexivity|]. 
    pose proof (sweep (fun c => implb (Ascii.eqb (lower c) "2") (ch 50 c)) eq_refl c) as Hs. cbn in Hs.
    rewrite H1 in Hs. exact Hs. }
  assert (d = "5"%char).
  { apply ch_spec with (n := 53%N); [reflexivity|]. 
    pose proof (sweep (fun c => implb (Ascii.eqb (lower c) "5") (ch 53 c)) eq_refl d) as Hs. cbn in Hs.
    rewrite H2 in Hs. exact Hs. }
  congruence.
Qed.
(* the words of dec-octet by length *)
Definition octet (m : str) : Prop :=
  (exists a, m = [a] /\ b_digit a = true) \/
  (exists a b, m = [a; b] /\ inr 49 57 a = true /\ b_digit b = true) \/
  (exists a b c, m = [a; b; c] /\
     ((ch 49 a = true /\ b_digit b = true /\ b_digit c = true) \/
      (ch 50 a = true /\ inr 48 52 b = true /\ b_digit c = true) \/
      (ch 50 a = true /\ ch 53 b = true /\ inr 48 53 c = true))).
Lemma L_octet m : L Rfc3986.dec_octet m <-> octet m.
Proof.
  unfold Rfc3986.dec_octet. cbn [L].
  assert (E1 : forall x s, L (Lit "1") s -> s = [chr 49] \/ x = s) by
    (intros x s H; left; now apply (proj1 (L_lit1 49 "1" _ eq_refl eq_refl)) in H).
  split.
  - intros [[[[H|H]|H]|H]|H].
    + apply L_digit in H. left. exact H.
    + destruct H as (s1 & s2 & -> & H1 & H2). apply (L_rng 49 57) in H1. apply L_digit in H2.
      destruct H1 as (a & -> & H1). destruct H2 as (b & -> & H2). right; left. exists a, b. auto.
    + destruct H as (s1 & s2 & -> & H1 & l & -> & Hl & Hm & Hx).
      apply (proj1 (L_lit1 49 "1" _ eq_refl eq_refl)) in H1. subst s1.
      destruct l as [|x [|y [|z l]]]; cbn in Hm, Hx; try lia. inv Hl. inv H2.
      apply L_digit in H1, H3. destruct H1 as (b & -> & H1). destruct H3 as (c & -> & H3).
      right; right. exists (chr 49), b, c. auto.
    + destruct H as (s1 & s2 & -> & H1 & s3 & s4 & -> & H3 & H4).
      apply (proj1 (L_lit1 50 "2" _ eq_refl eq_refl)) in H1. subst s1. apply (L_rng 48 52) in H3. apply L_digit in H4.
      destruct H3 as (b & -> & H3). destruct H4 as (c & -> & H4).
      right; right. exists (chr 50), b, c. auto 6.
    + destruct H as (s1 & s2 & -> & H1 & H2). apply (proj1 (L_25 _)) in H1. subst s1.
      apply (L_rng 48 53) in H2. destruct H2 as (c & -> & H2).
      right; right. exists "2"%char, "5"%char, c. auto 6.
  - intros [(a & -> & Ha)|[(a & b & -> & Ha & Hb)|(a & b & c & -> & [(Ha & Hb & Hc)|[(Ha & Hb & Hc)|(Ha & Hb & Hc)]])]].
    + left; left; left; left. apply L_digit. eauto.
    + left; left; left; right. exists [a], [b]. split; auto. split; [apply (L_rng 49 57)|apply L_digit]; eauto.
    + left; left; right. exists [a], [b; c]. split; auto. apply ch_spec in Ha; [|reflexivity]. split.
      * apply (L_lit1 49 "1" _ eq_refl eq_refl). congruence.
      * exists [[b]; [c]]. cbn [concat app length]. split; auto. split; [|lia].
        constructor; [|constructor; [|constructor]]; apply L_digit; eauto.
    + left; right. exists [a], [b; c]. split; auto. apply ch_spec in Ha; [|reflexivity]. split.
      * apply (L_lit1 50 "2" _ eq_refl eq_refl). congruence.
      * exists [b], [c]. split; auto. split; [apply (L_rng 48 52)|apply L_digit]; eauto.
    + right. exists [a; b], [c]. split; auto. apply ch_spec in Ha; [|reflexivity].
      apply ch_spec in Hb; [|reflexivity]. split; [apply L_25; subst; reflexivity|]. apply (L_rng 48 53). eauto.
Qed.

Lemma digit_of n c : (48 <=? n)%N && (n <=? 57)%N = true -> ch n c = true -> b_digit c = true.
Proof. unfold ch, b_digit, inr. lia. Qed.

(* g_dec_octet as a decision on the first three characters *)
Lemma chr1 f s m a r : pchr f s = Some (m, a, r) -> exists x, m = [x] /\ a = [] /\ f x = true.
Proof. destruct s as [|x s]; cbn; [discriminate|]. destruct (f x) eqn:E; [|discriminate]. intros H; inv H; eauto. Qed.
Lemma chr2 f g s m a r : pseq (pchr f) (pchr g) s = Some (m, a, r) ->
  exists x y, m = [x; y] /\ a = [] /\ f x = true /\ g y = true.
Proof.
  unfold Peg.pseq, oseq. destruct (pchr f s) as [[[m1 a1] r1]|] eqn:E1; [|discriminate].
  destruct (pchr g r1) as [[[m2 a2] r2]|] eqn:E2; [|discriminate]. intros H; inv H.
  apply chr1 in E1, E2. destruct E1 as (x & -> & -> & Hx), E2 as (y & -> & -> & Hy). exists x, y. auto.
Qed.
Lemma chr3 f g h s m a r : pseq (pchr f) (pseq (pchr g) (pchr h)) s = Some (m, a, r) ->
  exists x y z, m = [x; y; z] /\ a = [] /\ f x = true /\ g y = true /\ h z = true.
Proof.
  unfold Peg.pseq at 1, oseq at 1. destruct (pchr f s) as [[[m1 a1] r1]|] eqn:E1; [|discriminate].
  destruct (pseq (pchr g) (pchr h) r1) as [[[m2 a2] r2]|] eqn:E2; [|discriminate]. intros H; inv H.
  apply chr1 in E1. apply chr2 in E2. destruct E1 as (x & -> & -> & Hx), E2 as (y & z & -> & -> & Hy & Hz).
  exists x, y, z. auto.
Qed.
Lemma wf_dec_octet : wf _ g_dec_octet.
Proof. unfold g_dec_octet; wf_tac. Qed.
Lemma dec_octet_some s m a r : g_dec_octet s = Some (m, a, r) -> octet m /\ a = [] /\ s = m ++ r.
Proof.
  intros H. pose proof (wf_dec_octet _ _ _ _ H) as Hw. cut (octet m /\ a = []); [tauto|].
  revert H. cut (sound g_dec_octet (fun m a => octet m /\ a = [])); [eauto|]. clear.
  apply sound_alts. repeat (apply Forall_cons || apply Forall_nil); intros s m a r H; unfold g_ch, g_digit in H.
  - apply chr3 in H. destruct H as (x & y & z & -> & -> & H1 & H2 & H3). split; auto. right; right. exists x, y, z. auto 6.
  - apply chr3 in H. destruct H as (x & y & z & -> & -> & H1 & H2 & H3). split; auto. right; right. exists x, y, z. auto 6.
  - apply chr3 in H. destruct H as (x & y & z & -> & -> & H1 & H2 & H3). split; auto. right; right. exists x, y, z. auto 6.
  - apply chr2 in H. destruct H as (x & y & -> & -> & H1 & H2). split; auto. right; left. exists x, y. auto 6.
  - apply chr1 in H. destruct H as (x & -> & -> & H1). split; auto. left. eauto.
Qed.
Ltac bgo := repeat first
  [ reflexivity
  | match goal with H : ?b = true |- _ => rewrite H end
  | match goal with H : ?b = false |- _ => rewrite H end
  | progress cbn -[ch inr b_digit]
  | match goal with |- context [ch ?n ?x] => destruct (ch n x) eqn:? end
  | match goal with |- context [inr ?n ?m ?x] => destruct (inr n m x) eqn:? end ].
Lemma dec_octet_complete m r : octet m -> nohd b_digit r -> g_dec_octet (m ++ r) = Some (m, [], r).
Proof.
  intros Hm Hr. unfold g_dec_octet, g_ch, g_digit. cbn [palts]. unfold Peg.pseq, oseq, Peg.pchr.
  destruct Hm as [(a & -> & Ha)|[(a & b & -> & Ha & Hb)|(a & b & c & -> & H)]]; cbn [app].
  - destruct r as [|y r]; cbn -[b_digit] in Hr.
    + bgo.
    + assert (ch 53 y = false) by (unfold ch, b_digit, inr in *; lia).
      assert (inr 48 52 y = false) by (unfold b_digit, inr in *; lia).
      bgo.
  - destruct r as [|z r]; cbn -[b_digit] in Hr.
    + bgo.
    + assert (inr 48 53 z = false) by (unfold b_digit, inr in *; lia). bgo.
  - destruct H as [(Ha & Hb & Hc)|[(Ha & Hb & Hc)|(Ha & Hb & Hc)]].
    + assert (ch 50 a = false) by (unfold ch in *; lia). bgo.
    + assert (ch 53 b = false) by (unfold ch, inr in *; lia). bgo.
    + bgo.
Qed.
Lemma dec_octet_any m r : octet m -> g_dec_octet (m ++ r) <> None.
Proof.
  intros Hm. assert (Hd : exists d t, m = d :: t /\ b_digit d = true).
  { destruct Hm as [(a & -> & Ha)|[(a & b & -> & Ha & Hb)|(a & b & c & -> & H)]]; eexists _, _; (split; [reflexivity|]); auto.
    - unfold b_digit, inr in *; lia.
    - unfold b_digit, ch, inr in *; lia. }
  destruct Hd as (d & t & -> & Hd). cbn [app]. unfold g_dec_octet. cbn [palts].
  repeat match goal with |- context [match ?p with Some _ => _ | None => _ end] =>
    match p with Peg.pseq _ _ _ _ => destruct p; [discriminate|] end end.
  unfold g_digit, Peg.pchr. rewrite Hd. discriminate.
Qed.
Lemma octet_digits m : octet m -> Forall (fun c => b_digit c = true) m /\ m <> [].
Proof.
  intros [(a & -> & Ha)|[(a & b & -> & Ha & Hb)|(a & b & c & -> & H)]]; (split; [|discriminate]);
    repeat constructor; auto; unfold b_digit, inr, ch in *; lia.
Qed.
Lemma s_dec_octet : sound g_dec_octet (rlang Rfc3986.dec_octet).
Proof. intros s m a r E. apply dec_octet_some in E. split; [apply L_octet|]; tauto. Qed.
Lemma c_dec_octet : complete g_dec_octet (rlang Rfc3986.dec_octet) (nohd b_digit).
Proof. intros m a r [Hm ->] Hr. apply dec_octet_complete; auto. now apply L_octet. Qed.

Lemma s_dot : sound g_dot (rlang (Lit ".")).
Proof. apply (s_ch 46 "."). vm_compute. reflexivity. Qed.
Lemma c_dot : complete g_dot (rlang (Lit ".")) any.
Proof. apply (c_ch 46 "."). vm_compute. reflexivity. Qed.
Lemma L_dot m : L (Lit ".") m <-> m = ["."%char].
Proof. apply (L_lit1 46 "." _ eq_refl eq_refl). Qed.

Lemma s_ipv4 : sound g_ipv4 (rlang Rfc3986.IPv4address).
Proof.
  eapply sound_imp; [repeat (apply sound_seq; [apply s_dec_octet || apply s_dot|]); apply s_dec_octet|].
  unfold Rfc3986.IPv4address. intros m a H. revert H. 
  repeat (apply rlang_cat'; intros ? ? H; revert H). auto.
Qed.
Lemma c_ipv4 : complete g_ipv4 (rlang Rfc3986.IPv4address) (nohd b_digit).
Proof.
  assert (Hd : forall R2 m a r, rseq (rlang (Lit ".")) R2 m a -> nohd b_digit (m ++ r)).
  { intros R2 m a r (m1 & m2 & a1 & a2 & -> & -> & [H1 _] & _). apply (proj1 (L_dot _)) in H1. subst. reflexivity. }
  eapply complete_imp with (F := nohd b_digit).
  - apply complete_seq with (F1 := nohd b_digit); [apply c_dec_octet| |intros; eapply Hd; eauto].
    apply complete_seq with (F1 := any); [apply c_dot| |intros; exact I].
    apply complete_seq with (F1 := nohd b_digit); [apply c_dec_octet| |intros; eapply Hd; eauto].
    apply complete_seq with (F1 := any); [apply c_dot| |intros; exact I].
    apply complete_seq with (F1 := nohd b_digit); [apply c_dec_octet| |intros; eapply Hd; eauto].
    apply complete_seq with (F1 := any); [apply c_dot| |intros; exact I].
    apply c_dec_octet.
  - unfold Rfc3986.IPv4address. intros m a H. revert H.
    repeat (apply rlang_cat_inv'; intros ? ? H; revert H). auto.
  - auto.
Qed.
(* a prefix in the language is enough for the parser to succeed *)
Lemma ipv4_any m r : L Rfc3986.IPv4address m -> g_ipv4 (m ++ r) <> None.
Proof.
  intros (m1 & t1 & -> & H1 & d1 & t2 & -> & D1 & m2 & t3 & -> & H2 & d2 & t4 & -> & D2 & m3 & t5 & -> & H3
          & d3 & m4 & -> & D3 & H4).
  apply (proj1 (L_dot _)) in D1, D2, D3. subst. apply L_octet in H1, H2, H3, H4.
  repeat rewrite <- app_assoc. cbn [app].
  unfold g_ipv4, g_dot, g_ch, Peg.pseq, oseq.
  rewrite (dec_octet_complete m1) by (auto; reflexivity). cbn [Peg.pchr].
  change (ch 46 ".") with true. cbn iota.
  rewrite (dec_octet_complete m2) by (auto; reflexivity). cbn [Peg.pchr].
  change (ch 46 ".") with true. cbn iota.
  rewrite (dec_octet_complete m3) by (auto; reflexivity). cbn [Peg.pchr].
  change (ch 46 ".") with true. cbn iota.
  pose proof (dec_octet_any m4 r H4). destruct (g_dec_octet (m4 ++ r)) as [[[? ?] ?]|]; [discriminate|congruence].
Qed.
Definition b_v4 c := b_digit c || ch 46 c.
Lemma ipv4_chars m : L Rfc3986.IPv4address m -> Forall (fun c => b_v4 c = true) m /\ m <> [].
Proof.
  intros (m1 & t1 & -> & H1 & d1 & t2 & -> & D1 & m2 & t3 & -> & H2 & d2 & t4 & -> & D2 & m3 & t5 & -> & H3
          & d3 & m4 & -> & D3 & H4).
  apply (proj1 (L_dot _)) in D1, D2, D3. subst. apply L_octet, octet_digits in H1, H2, H3, H4.
  assert (Hi : forall l, Forall (fun c => b_digit c = true) l -> Forall (fun c => b_v4 c = true) l).
  { intros l. apply Forall_impl. intros c Hc. unfold b_v4. now rewrite Hc. }
  split.
  - destruct H1 as [H1 _], H2 as [H2 _], H3 as [H3 _], H4 as [H4 _].
    repeat (apply Forall_app; split); auto; repeat constructor.
  - destruct H1 as [_ H1]. destruct m1; [congruence|discriminate].
Qed.
