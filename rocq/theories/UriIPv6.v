(* IPv6address: soundness and completeness of the PEG parser against RFC 3986. *)
From Verif Require Import Base ModelRule ModelUri Peg PegUri PegLang UriLang.
From Verif Require Rfc3986.
Import Rfc3986 (L, abnf, Rng, Lit, Cat, Alt, Rep, lower).
From Coq Require Import ZifyBool ZifyNat ZifyN.
Local Notation concat := List.concat.
Local Notation pseq := (Peg.pseq action).
Local Notation popt := (Peg.popt action).
Local Notation palts := (Peg.palts action).
Local Notation pchr := (Peg.pchr action).
Local Notation pstar := (Peg.pstar action).

Notation CO := ":"%char.
Notation RB := "]"%char.
Notation HC := (Cat Rfc3986.h16 (Lit ":")).
Notation GR := Rfc3986.h16.

Lemma L_colon m : L (Lit ":") m -> m = [CO].
Proof. apply (proj1 (L_lit1 58 ":" m eq_refl eq_refl)). Qed.
Lemma L_colon_i : L (Lit ":") [CO].
Proof. reflexivity. Qed.
Lemma L_cc m : L (Lit "::") m -> m = [CO; CO].
Proof.
  cbn. destruct m as [|c [|d [|e m]]]; cbn; try discriminate. intros H. inversion H as [[H1 H2]].
  assert (E : forall x, lower x = CO -> x = CO).
  { intros x Hx. apply (ch_spec 58); [reflexivity|].
    pose proof (sweep (fun c => implb (Ascii.eqb (lower c) ":") (ch 58 c)) eq_refl x) as Hs. cbn in Hs.
    rewrite Hx in Hs. exact Hs. }
  rewrite H1 in H2. rewrite (E _ H1), (E _ H2). reflexivity.
Qed.
Lemma L_h16_chars u : L GR u -> Forall (fun c => b_hex c = true) u /\ u <> [].
Proof.
  intros (l & -> & Hl & Hm & _). split.
  - clear Hm. induction Hl as [|x l Hx _ IH]; cbn; auto. apply L_hex in Hx.
    destruct Hx as (c & -> & Hc). constructor; auto.
  - destruct l as [|x l]; [cbn in Hm; lia|]. inv Hl. apply L_hex in H1. destruct H1 as (c & -> & _). discriminate.
Qed.
Lemma s_colon : sound g_colon (rlang (Lit ":")).
Proof. apply (s_ch 58 ":"). vm_compute. reflexivity. Qed.
Lemma c_colon : complete g_colon (rlang (Lit ":")) any.
Proof. apply (c_ch 58 ":"). vm_compute. reflexivity. Qed.

(* h16 ":" with the look-ahead *)
Lemma s_h16c : sound g_h16c (rlang HC).
Proof.
  eapply sound_imp; [apply sound_seq; [apply s_h16|apply sound_seq; [apply s_colon|]]|].
  - instantiate (1 := fun m a => m = [] /\ a = []). intros [|c s] m a r; cbn.
    + intros H; inv H; auto. + destruct (ch 58 c); [discriminate|]. intros H; inv H; auto.
  - intros m0 a0. apply rlang_cat'. intros m a (m1 & m2 & a1 & a2 & -> & -> & H & -> & ->). now rewrite !app_nil_r.
Qed.
Lemma c_h16c : complete g_h16c (rlang HC) (nohd (ch 58)).
Proof.
  eapply complete_imp with (F := nohd (ch 58)).
  - apply complete_seq with (F1 := nohd b_hex) (R1 := rlang GR)
      (R2 := rseq (rlang (Lit ":")) (fun m a => m = [] /\ a = [])).
    + apply c_h16.
    + apply complete_seq with (F1 := any); [apply c_colon| |intros; exact I].
      intros m a r [-> ->] Hr. destruct r as [|c r]; cbn; auto. cbn in Hr. now rewrite Hr.
    + intros m a r (m1 & m2 & a1 & a2 & -> & -> & [H1 _] & _) _. apply L_colon in H1. subst. reflexivity.
  - intros m0 a0. apply rlang_cat_inv'. intros m a [H ->]. exists m, [], [], []. rewrite app_nil_r. repeat split; auto.
  - auto.
Qed.
Lemma HC_head m r : L HC m -> nohd (ch 58) (m ++ r).
Proof.
  intros (u & v & -> & Hu & _). apply L_h16_chars in Hu. destruct Hu as [Hu Hn].
  destruct u as [|c u]; [congruence|]. inv Hu. cbn. unfold b_hex, b_digit, inr, ch in *. lia.
Qed.
Lemma c_times k : complete (g_times k) (rlang (Rep k (Some k) HC)) (nohd (ch 58)).
Proof.
  eapply complete_imp with (F := nohd (ch 58)) (R := rstar k (Some k) (rlang HC)).
  - apply complete_star_exact; [apply c_h16c|]. intros m a r [Hm _]. now apply HC_head.
  - intros m a. apply rlang_rep. - auto.
Qed.
Lemma s_times k : sound (g_times k) (rlang (Rep k (Some k) HC)).
Proof. eapply sound_imp; [apply sound_star, s_h16c|]. intros m a. apply rlang_rep. Qed.

(* [*k( h16 ":" ) h16] before "::" *)
Lemma h16_fail s : nohd b_hex s -> g_h16 s = None.
Proof.
  intros H. unfold g_h16, Peg.pstar. cbn [Peg.prep]. unfold g_hex. now rewrite fail_chr.
Qed.
Lemma h16c_fail_hd s : nohd b_hex s -> g_h16c s = None.
Proof. intros H. unfold g_h16c, Peg.pseq, oseq. now rewrite h16_fail. Qed.
Lemma h16c_fail_cc u s : L GR u -> g_h16c (u ++ CO :: CO :: s) = None.
Proof.
  intros Hu. unfold g_h16c, Peg.pseq at 1, oseq at 1.
  rewrite (c_h16 u [] (CO :: CO :: s)); [|split; auto|reflexivity]. reflexivity.
Qed.
Lemma s_upto k : sound (g_upto k) (rlang (Cat (Rep 0 (Some k) HC) GR)).
Proof.
  eapply sound_imp; [apply sound_seq; [apply sound_star, s_h16c|apply s_h16]|].
  intros m a (m1 & m2 & a1 & a2 & -> & -> & H1 & H2). apply rlang_rep in H1.
  apply rlang_cat. exists m1, m2, a1, a2. auto.
Qed.
Lemma c_upto k m s : L (Cat (Rep 0 (Some k) HC) GR) m ->
  g_upto k (m ++ CO :: CO :: s) = Some (m, [], CO :: CO :: s).
Proof.
  intros (m1 & u & -> & H1 & Hu). assert (Hr : rlang (Rep 0 (Some k) HC) m1 []) by (split; auto).
  apply rlang_rep in Hr. destruct Hr as (l & -> & Ha & Hl & Hmin & Hmax).
  unfold g_upto, Peg.pseq, oseq, Peg.pstar. rewrite <- app_assoc.
  rewrite (complete_prep g_h16c (rlang HC) (nohd (ch 58))); auto.
  - destruct (Nat.ltb_spec (length l) 0); [lia|].
    rewrite (c_h16 u [] (CO :: CO :: s)); [|split; auto|reflexivity].
    rewrite <- Ha. reflexivity.
  - apply c_h16c.
  - intros m a r [Hm _]. now apply HC_head.
  - apply L_h16_chars in Hu. destruct Hu as [Hu Hn]. destruct u as [|c u]; [congruence|]. inv Hu. cbn.
    unfold b_hex, b_digit, inr, ch in *. lia.
  - left. now apply h16c_fail_cc.
Qed.
Lemma upto_fail k s : g_upto k (CO :: s) = None.
Proof.
  unfold g_upto, Peg.pseq, oseq, Peg.pstar.
  destruct k; cbn [Peg.prep]; [|rewrite h16c_fail_hd by reflexivity];
    (destruct (Nat.ltb 0 0); [reflexivity|now rewrite h16_fail by reflexivity]).
Qed.

(* ls32 *)
Lemma s_ls32 : sound g_ls32 (rlang Rfc3986.ls32).
Proof.
  apply sound_alts. repeat (apply Forall_cons || apply Forall_nil).
  - eapply sound_imp; [apply sound_seq; [apply s_h16|apply sound_seq; [apply s_colon|apply s_h16]]|].
    intros m a H. assert (H' : rlang (Cat GR (Cat (Lit ":") GR)) m a).
    { revert H. apply rlang_cat'. intros ? ?. apply rlang_cat. }
    destruct H' as [H1 H2]. split; auto. left; auto.
  - eapply sound_imp; [apply s_ipv4|]. intros m a [H1 H2]. split; auto. right; auto.
Qed.
Lemma octet_h16 m : octet m -> L GR m.
Proof.
  intros Hm. pose proof (octet_digits _ Hm) as [Hd _].
  exists (map (fun c => [c]) m). rewrite map_length. repeat split.
  - clear. induction m; cbn; congruence.
  - clear -Hd. induction Hd; cbn; constructor; auto. apply L_hex. exists x. split; auto.
    unfold b_hex. now rewrite H.
  - destruct Hm as [(a & -> & _)|[(a & b & -> & _)|(a & b & c & -> & _)]]; cbn; lia.
  - destruct Hm as [(a & -> & _)|[(a & b & -> & _)|(a & b & c & -> & _)]]; cbn; lia.
Qed.
Lemma c_ls32 : complete g_ls32 (rlang Rfc3986.ls32) (nohd b_hex).
Proof.
  intros m a r [Hm ->] Hr. unfold g_ls32. cbn [palts]. destruct Hm as [Hm|Hm].
  - assert (E : pseq g_h16 (pseq g_colon g_h16) (m ++ r) = Some (m, [], r)).
    { apply (complete_seq g_h16 (pseq g_colon g_h16) (rlang GR) (rseq (rlang (Lit ":")) (rlang GR)) (nohd b_hex) (nohd b_hex)); auto.
      - apply c_h16.
      - apply complete_seq with (F1 := any); [apply c_colon|apply c_h16|intros; exact I].
      - intros m' a' r' (m1 & m2 & a1 & a2 & -> & -> & [H1 _] & _) _. apply L_colon in H1. subst. reflexivity.
      - destruct Hm as (m1 & m2 & -> & H1 & m3 & m4 & -> & H3 & H4).
        exists m1, (m3 ++ m4), [], []. repeat split; auto. exists m3, m4, [], []. repeat split; auto. }
    now rewrite E.
  - assert (E : pseq g_h16 (pseq g_colon g_h16) (m ++ r) = None).
    { destruct Hm as (m1 & t & -> & H1 & d & t2 & -> & D & _). apply (proj1 (L_dot _)) in D. subst d.
      rewrite <- app_assoc. unfold Peg.pseq, oseq.
      rewrite (c_h16 m1 []); [reflexivity| |reflexivity].
      split; auto. apply octet_h16. now apply L_octet. }
    rewrite E. rewrite (c_ipv4 m [] r); [auto|split; auto|].
    eapply nohd_imp; [|exact Hr]. intros c Hc. unfold b_hex. now rewrite Hc.
Qed.

(* ------------------------------------------------------------------------- *)
(* Counting: an address has k units (16-bit groups; an IPv4 address counts 2) after "::" *)
Definition b_6 c := b_hex c || ch 58 c || ch 46 c.
Fixpoint cnt (n : N) (s : str) : nat :=
  match s with [] => 0 | c :: s' => (if ch n c then 1 else 0) + cnt n s' end.
Lemma cnt_app n a b : cnt n (a ++ b) = cnt n a + cnt n b.
Proof. induction a; cbn [app cnt]; lia. Qed.
Definition w (s : str) : nat := cnt 58 s + (if Nat.eqb (cnt 46 s) 0 then 0 else 1).
Lemma w_app_le a b : w a <= w (a ++ b).
Proof. unfold w. rewrite !cnt_app. destruct (Nat.eqb_spec (cnt 46 a) 0), (Nat.eqb_spec (cnt 46 a + cnt 46 b) 0); lia. Qed.
Definition rank (s : str) : nat := match s with [] => 0 | _ => S (w s) end.
Lemma rank_app_le a b : rank a <= rank (a ++ b).
Proof. destruct a as [|c a]; cbn [rank app]; [lia|]. change (c :: a ++ b) with ((c :: a) ++ b). pose proof (w_app_le (c :: a) b). lia. Qed.

(* no "::" inside, and no ":" at the end *)
Fixpoint okpre (s : str) : bool :=
  match s with
  | [] => true
  | c :: s' => (if ch 58 c then match s' with [] => false | d :: _ => negb (ch 58 d) end else true) && okpre s'
  end.
Definition starts_nc (s : str) : Prop := match s with [] => False | c :: _ => ch 58 c = false end.

Lemma okpre_unique p1 p2 x y : okpre p1 = true -> okpre p2 = true ->
  p1 ++ CO :: CO :: x = p2 ++ CO :: CO :: y -> p1 = p2 /\ x = y.
Proof.
  assert (ok1 : forall s z v, okpre s = true -> s ++ CO :: CO :: z = CO :: CO :: v -> s = []).
  { intros [|c [|d s]] z v H E; auto; cbn in E; inversion E; subst; cbn in H; discriminate. }
  revert p2. induction p1 as [|c p1 IH]; intros p2 H1 H2 E.
  - assert (p2 = []) by (eapply ok1; eauto). subst. cbn in E. inversion E. auto.
  - destruct p2 as [|d p2].
    + assert (c :: p1 = []) by (eapply ok1; eauto). discriminate.
    + cbn [app] in E. inversion E; subst. cbn [okpre] in H1, H2.
      apply andb_prop in H1, H2. destruct H1 as [_ H1], H2 as [_ H2].
      destruct (IH _ H1 H2 H3) as [-> ->]. auto.
Qed.
Lemma okpre_prefix m' x pre t : okpre m' = true -> m' ++ x = pre ++ CO :: CO :: t -> exists y, pre = m' ++ y.
Proof.
  revert pre. induction m' as [|c m' IH]; intros pre H E; [exists pre; auto|].
  destruct pre as [|d pre].
  - exfalso. cbn [app] in E. inversion E; subst. cbn [okpre] in H. change (ch 58 CO) with true in H. cbn iota in H.
    destruct m' as [|e m']; [discriminate|]. cbn in H2. inversion H2; subst.
    change (ch 58 CO) with true in H. discriminate.
  - cbn [app] in E. inversion E; subst. cbn [okpre] in H. apply andb_prop in H. destruct H as [_ H].
    destruct (IH _ H H2) as [y ->]. exists y. reflexivity.
Qed.

Definition nocolon (u : str) := Forall (fun c => ch 58 c = false) u.
Lemma okpre_nocolon u : nocolon u -> okpre u = true /\ cnt 58 u = 0.
Proof. induction 1 as [|c u Hc _ IH]; cbn [okpre cnt]; auto. rewrite Hc. cbn. tauto. Qed.
Lemma okpre_group u v : nocolon u -> okpre v = true -> starts_nc v -> okpre (u ++ CO :: v) = true.
Proof.
  intros Hu Hv Hs. induction Hu as [|c u Hc _ IH]; cbn [app okpre].
  - change (ch 58 CO) with true. cbn iota. rewrite Hv. destruct v as [|d v]; [contradiction|]. cbn in Hs.
    now rewrite Hs.
  - rewrite Hc, IH. reflexivity.
Qed.
Lemma hex_facts u : L GR u -> nocolon u /\ starts_nc u /\ cnt 46 u = 0 /\ Forall (fun c => b_6 c = true) u /\ u <> [].
Proof.
  intros Hu. apply L_h16_chars in Hu. destruct Hu as [Hu Hn].
  assert (Hc : nocolon u /\ cnt 46 u = 0 /\ Forall (fun c => b_6 c = true) u).
  { clear Hn. induction Hu as [|c u Hc _ IH]; cbn [cnt]; [repeat split; constructor|].
    destruct IH as (I1 & I2 & I3). repeat split.
    - constructor; auto. unfold b_hex, b_digit, inr, ch in *; lia.
    - rewrite I2. replace (ch 46 c) with false; auto. unfold b_hex, b_digit, inr, ch in *; lia.
    - constructor; auto. unfold b_6. now rewrite Hc. }
  destruct Hc as (H1 & H2 & H3). repeat split; auto.
  destruct u; [congruence|]. inv H1. auto.
Qed.
(* a sequence of "h16:" in front of something *)
Lemma groups_facts a b s v : L (Rep a (Some b) HC) s -> okpre v = true -> starts_nc v ->
  Forall (fun c => b_6 c = true) v ->
  okpre (s ++ v) = true /\ starts_nc (s ++ v) /\ a + cnt 58 v <= cnt 58 (s ++ v) <= b + cnt 58 v
  /\ cnt 46 (s ++ v) = cnt 46 v /\ Forall (fun c => b_6 c = true) (s ++ v).
Proof.
  intros (l & -> & Hl & Ha & Hb) Hv Hs H6.
  cut (okpre (concat l ++ v) = true /\ starts_nc (concat l ++ v) /\ cnt 58 (concat l ++ v) = length l + cnt 58 v
   /\ cnt 46 (concat l ++ v) = cnt 46 v /\ Forall (fun c => b_6 c = true) (concat l ++ v)).
  { intros (H1 & H2 & H3 & H4 & H5). repeat split; auto; lia. }
  clear Ha Hb. induction Hl as [|x l Hx _ IH]; cbn [concat app length]; auto.
  destruct Hx as (u & c & -> & Hu & Hc). apply L_colon in Hc. subst c.
  destruct IH as (I1 & I2 & I3 & I4 & I5). apply hex_facts in Hu. destruct Hu as (U1 & U2 & U3 & U4 & U5).
  rewrite <- !app_assoc. cbn [app]. repeat split.
  - apply okpre_group; auto.
  - destruct u; [contradiction|]. exact U2.
  - rewrite cnt_app. destruct (okpre_nocolon _ U1) as [_ ->]. cbn [cnt]. change (ch 58 CO) with true. cbn iota. lia.
  - rewrite cnt_app, U3. cbn [cnt]. change (ch 46 CO) with false. cbn iota. lia.
  - apply Forall_app; split; auto.
Qed.
Lemma ls32_facts t : L Rfc3986.ls32 t ->
  okpre t = true /\ starts_nc t /\ w t = 1 /\ Forall (fun c => b_6 c = true) t /\ cnt 58 t <= 1.
Proof.
  intros [(u & x & -> & Hu & c & v & -> & Hc & Hv)|H].
  - apply L_colon in Hc. subst c. apply hex_facts in Hu, Hv.
    destruct Hu as (U1 & U2 & U3 & U4 & U5), Hv as (V1 & V2 & V3 & V4 & V5).
    destruct (okpre_nocolon _ V1) as [O1 O2]. destruct (okpre_nocolon _ U1) as [O3 O4]. cbn [app]. repeat split.
    + apply okpre_group; auto.
    + destruct u; [contradiction|]. exact U2.
    + unfold w. rewrite !cnt_app. cbn [cnt]. change (ch 58 CO) with true. change (ch 46 CO) with false. cbn iota.
      rewrite U3, V3, O2, O4. reflexivity.
    + apply Forall_app; split; auto.
    + rewrite !cnt_app. cbn [cnt]. change (ch 58 CO) with true. cbn iota. lia.
  - pose proof (ipv4_chars _ H) as [Hc Hn].
    assert (Hnc : nocolon t /\ Forall (fun c => b_6 c = true) t).
    { clear -Hc. induction Hc as [|c t Hc _ IH]; [repeat split; constructor|].
      destruct IH. split; constructor; auto; unfold b_6, b_v4, b_hex, b_digit, inr, ch in *; lia. }
    destruct Hnc as [N1 N2]. destruct (okpre_nocolon _ N1) as [O1 O2]. repeat split; auto.
    + destruct t; [congruence|]. inv N1. auto.
    + unfold w. rewrite O2.
      destruct H as (m1 & t1 & -> & _ & d & t2 & -> & D & _). apply (proj1 (L_dot _)) in D. subst d.
      rewrite !cnt_app. cbn [cnt]. change (ch 46 ".") with true. cbn iota.
      destruct (Nat.eqb_spec (cnt 46 m1 + (1 + 0 + cnt 46 t2)) 0); lia.
    + lia.
Qed.

(* k units *)
Definition units (k : nat) (t : str) : Prop :=
  match k with
  | O => t = []
  | S O => L GR t
  | S (S k) => L (Cat (Rep k (Some k) HC) Rfc3986.ls32) t
  end.
Lemma units_facts k t : units k t -> rank t = k /\ Forall (fun c => b_6 c = true) t.
Proof.
  destruct k as [|[|k]]; cbn [units].
  - intros ->. split; auto.
  - intros H. apply hex_facts in H. destruct H as (H1 & H2 & H3 & H4 & H5). split; auto.
    destruct t; [congruence|]. unfold rank, w. rewrite H3. destruct (okpre_nocolon _ H1) as [_ ->]. reflexivity.
  - intros (s & v & -> & Hs & Hv). apply ls32_facts in Hv. destruct Hv as (V1 & V2 & V3 & V4 & V5).
    destruct (groups_facts _ _ _ _ Hs V1 V2 V4) as (G1 & G2 & G3 & G4 & G5). split; auto.
    destruct (s ++ v) as [|c x] eqn:E; [contradiction|]. rewrite <- E in *. unfold rank. rewrite E at 1.
    unfold w in *. rewrite G4. lia.
Qed.

Record alt6 := { a6_p : Peg.parser action; a6_pre : str -> Prop; a6_units : nat }.
Definition alt6_ok (a : alt6) : Prop :=
  wf _ (a6_p a)
  /\ sound (a6_p a) (fun m ac => ac = [] /\ exists pre t, m = pre ++ CO :: CO :: t /\ a6_pre a pre /\ units (a6_units a) t)
  /\ (forall pre t r, a6_pre a pre -> units (a6_units a) t ->
        a6_p a (pre ++ CO :: CO :: t ++ RB :: r) = Some (pre ++ CO :: CO :: t, [], RB :: r))
  /\ (forall pre, a6_pre a pre -> okpre pre = true /\ w pre <= 6 /\ Forall (fun c => b_6 c = true) pre).

Lemma prefix_rb m' r' m r : Forall (fun c => b_6 c = true) m' -> Forall (fun c => b_6 c = true) m ->
  m' ++ r' = m ++ RB :: r -> exists x, m = m' ++ x.
Proof.
  revert m. induction m' as [|c m' IH]; intros m H1 H2 E; [exists m; auto|].
  inv H1. destruct m as [|d m].
  - cbn in E. inversion E; subst. cbn in H3. discriminate.
  - cbn in E. inversion E; subst. inv H2. destruct (IH m) as [x ->]; auto. exists x. reflexivity.
Qed.

Fixpoint desc (k : nat) (l : list alt6) : Prop :=
  match l with [] => True | a :: l' => a6_units a < k /\ desc (a6_units a) l' end.
Lemma desc_lt l : forall k a, desc k l -> In a l -> a6_units a < k.
Proof.
  induction l as [|b l IH]; cbn; [tauto|]. intros k a [H1 H2] [->|H]; auto. apply IH with (a := a) in H2; auto. lia.
Qed.
Lemma alts6_complete l : Forall alt6_ok l -> forall k, desc k l -> forall a pre t r, In a l ->
  a6_pre a pre -> units (a6_units a) t ->
  palts (map a6_p l) (pre ++ CO :: CO :: t ++ RB :: r) = Some (pre ++ CO :: CO :: t, [], RB :: r).
Proof.
  induction 1 as [|b l Hb Hl IH]; intros k Hd a pre t r Hin Hp Ht; [contradiction|].
  cbn [map palts]. destruct Hd as [_ Hd]. destruct Hin as [->|Hin].
  - destruct Hb as (_ & _ & Hc & _). rewrite Hc; auto.
  - destruct (a6_p b (pre ++ CO :: CO :: t ++ RB :: r)) as [[[m' a'] r']|] eqn:E.
    2:{ eapply IH; eauto. }
    exfalso. pose proof (desc_lt _ _ _ Hd Hin) as Hlt.
    destruct Hb as (Hw & Hs & _ & Hpre). pose proof (Hw _ _ _ _ E) as Eq.
    destruct (Hs _ _ _ _ E) as (_ & pre' & t' & -> & Hp' & Ht').
    destruct (Hpre _ Hp') as (P1 & _ & P2).
    rewrite Forall_forall in Hl. destruct (Hl _ Hin) as (_ & _ & _ & Hpa).
    destruct (Hpa _ Hp) as (Q1 & _ & Q2).
    apply units_facts in Ht, Ht'. destruct Ht as [R1 R2], Ht' as [R1' R2'].
    rewrite app_comm_cons, app_comm_cons, app_assoc in Eq. symmetry in Eq. apply prefix_rb in Eq.
    + destruct Eq as [x Ex]. rewrite <- app_assoc in Ex. cbn [app] in Ex.
      apply okpre_unique in Ex; auto. destruct Ex as [_ ->].
      pose proof (rank_app_le t' x). lia.
    + apply Forall_app; split; auto.
    + apply Forall_app; split; auto.
Qed.

(* the alternatives r3..r9 in the general form *)
Lemma s_cc : sound g_cc (rlang (Lit "::")).
Proof.
  intros s m a r H. apply chr2 in H. destruct H as (x & y & -> & -> & Hx & Hy).
  apply ch_spec in Hx, Hy; try reflexivity. subst. split; reflexivity.
Qed.
Lemma mk_alt6 (q tp : Peg.parser action) (Q : str -> Prop) k :
  wf _ q -> wf _ tp ->
  sound q (fun m a => a = [] /\ Q m) ->
  (forall m s, Q m -> q (m ++ CO :: CO :: s) = Some (m, [], CO :: CO :: s)) ->
  (forall s, q (CO :: s) = None) ->
  sound tp (fun m a => a = [] /\ units k m) ->
  (forall t r, units k t -> tp (t ++ RB :: r) = Some (t, [], RB :: r)) ->
  (forall m, Q m -> okpre m = true /\ w m <= 6 /\ Forall (fun c => b_6 c = true) m) ->
  alt6_ok {| a6_p := pseq (popt q) (pseq g_cc tp); a6_pre := fun m => m = [] \/ Q m; a6_units := k |}.
Proof.
  intros Wq Wt Sq Cq Fq St Ct HQ. unfold alt6_ok; cbn [a6_p a6_pre a6_units]. repeat split.
  - unfold g_cc. wf_tac.
  - destruct (sound_seq _ _ _ _ (sound_opt _ _ Sq) (sound_seq _ _ _ _ s_cc St) _ _ _ _ H)
      as (m1 & m2 & a1 & a2 & _ & -> & H1 & m3 & m4 & a3 & a4 & _ & -> & [_ ->] & [-> _]).
    destruct H1 as [[-> _]|[_ ->]]; reflexivity.
  - destruct (sound_seq _ _ _ _ (sound_opt _ _ Sq) (sound_seq _ _ _ _ s_cc St) _ _ _ _ H)
      as (m1 & m2 & a1 & a2 & -> & -> & H1 & m3 & m4 & a3 & a4 & -> & -> & [H3 _] & [_ H4]).
    apply L_cc in H3. subst m3. exists m1, m4. split; auto. split; auto.
    destruct H1 as [[_ H1]|[-> _]]; auto.
  - intros pre t r Hp Ht. unfold Peg.pseq at 1, oseq at 1.
    assert (E : popt q (pre ++ CO :: CO :: t ++ RB :: r) = Some (pre, [], CO :: CO :: t ++ RB :: r)).
    { unfold Peg.popt. destruct Hp as [->|Hp]; [cbn [app]; now rewrite Fq|now rewrite Cq]. }
    rewrite E. unfold Peg.pseq at 1, oseq at 1.
    assert (E2 : g_cc (CO :: CO :: t ++ RB :: r) = Some ([CO; CO], [], t ++ RB :: r)) by reflexivity.
    rewrite E2, Ct; auto.
  - destruct H as [->|H]; [reflexivity|apply HQ; auto].
  - destruct H as [->|H]; [cbn; lia|apply HQ; auto].
  - destruct H as [->|H]; [constructor|apply HQ; auto].
Qed.

Lemma upto_facts k m : k <= 6 -> L (Cat (Rep 0 (Some k) HC) GR) m ->
  okpre m = true /\ w m <= 6 /\ Forall (fun c => b_6 c = true) m.
Proof.
  intros Hk (s & v & -> & Hs & Hv). apply hex_facts in Hv. destruct Hv as (V1 & V2 & V3 & V4 & V5).
  destruct (okpre_nocolon _ V1) as [O1 O2].
  destruct (groups_facts _ _ _ _ Hs O1 V2 V4) as (G1 & G2 & G3 & G4 & G5).
  repeat split; auto. unfold w. rewrite G4, V3. cbn. lia.
Qed.
Lemma h16_facts m : L GR m -> okpre m = true /\ w m <= 6 /\ Forall (fun c => b_6 c = true) m.
Proof.
  intros H. apply hex_facts in H. destruct H as (V1 & V2 & V3 & V4 & V5).
  destruct (okpre_nocolon _ V1) as [O1 O2]. repeat split; auto. unfold w. rewrite O2, V3. cbn. lia.
Qed.
Lemma sw p g : sound p (rlang g) -> sound p (fun m a => a = [] /\ L g m).
Proof. intros H s m a r E. apply H in E. destruct E; auto. Qed.

(* tails *)
Lemma s_units k : sound (pseq (g_times k) g_ls32) (fun m a => a = [] /\ units (S (S k)) m).
Proof. apply sw. eapply sound_imp; [apply sound_seq; [apply s_times|apply s_ls32]|]. intros m a. apply rlang_cat. Qed.
Lemma ls32_nc m r : L Rfc3986.ls32 m -> nohd (ch 58) (m ++ r).
Proof. intros H. apply ls32_facts in H. destruct H as (_ & H & _). destruct m; [contradiction|]. exact H. Qed.
Lemma c_units k t r : units (S (S k)) t ->
  pseq (g_times k) g_ls32 (t ++ RB :: r) = Some (t, [], RB :: r).
Proof.
  intros H. apply (complete_seq (g_times k) g_ls32 (rlang (Rep k (Some k) HC)) (rlang Rfc3986.ls32) (nohd (ch 58)) (nohd b_hex)).
  - apply c_times. - apply c_ls32. - intros m a r' [Hm _] _. now apply ls32_nc.
  - apply rlang_cat. split; auto. - reflexivity.
Qed.
Lemma HC1 s : L HC s <-> L (Rep 1 (Some 1) HC) s.
Proof.
  cbn [L]. split.
  - intros H. exists [s]. cbn [concat length]. rewrite app_nil_r. repeat split; auto.
  - intros (l & -> & Hl & H1 & H2). destruct l as [|x [|y l]]; cbn [length] in *; try lia. cbn [concat].
    rewrite app_nil_r. inv Hl. auto.
Qed.
Lemma s_units1 : sound (pseq g_h16c g_ls32) (fun m a => a = [] /\ units 3 m).
Proof.
  intros s m a r E.
  destruct (sound_seq _ _ _ _ s_h16c s_ls32 _ _ _ _ E) as (m1 & m2 & a1 & a2 & -> & -> & [H1 ->] & [H2 ->]).
  split; auto. exists m1, m2. split; auto. split; auto. apply HC1. exact H1.
Qed.
Lemma c_units1 t r : units 3 t -> pseq g_h16c g_ls32 (t ++ RB :: r) = Some (t, [], RB :: r).
Proof.
  intros (m1 & m2 & -> & H1 & H2).
  apply (complete_seq g_h16c g_ls32 (rlang HC) (rlang Rfc3986.ls32) (nohd (ch 58)) (nohd b_hex)).
  - apply c_h16c. - apply c_ls32. - intros m a r' [Hm _] _. now apply ls32_nc.
  - exists m1, m2, [], []. repeat split; auto. apply HC1. exact H1. - reflexivity.
Qed.
Lemma s_units0 : sound g_ls32 (fun m a => a = [] /\ units 2 m).
Proof.
  intros s m a r E. apply s_ls32 in E. destruct E as [H1 ->]. split; auto.
  exists [], m. split; auto. split; auto. exists []. repeat split; auto.
Qed.
Lemma c_units0 t r : units 2 t -> g_ls32 (t ++ RB :: r) = Some (t, [], RB :: r).
Proof.
  intros (m1 & m2 & -> & (l & -> & _ & _ & Hl) & H2). destruct l; [|cbn in Hl; lia]. cbn [concat app].
  apply c_ls32; [split; auto|reflexivity].
Qed.

Definition alts6 : list alt6 :=
  [ {| a6_p := pseq g_cc (pseq (g_times 5) g_ls32); a6_pre := fun m => m = []; a6_units := 7 |};
    {| a6_p := pseq (popt g_h16) (pseq g_cc (pseq (g_times 4) g_ls32));
       a6_pre := fun m => m = [] \/ L GR m; a6_units := 6 |};
    {| a6_p := pseq (popt (g_upto 1)) (pseq g_cc (pseq (g_times 3) g_ls32));
       a6_pre := fun m => m = [] \/ L (Cat (Rep 0 (Some 1) HC) GR) m; a6_units := 5 |};
    {| a6_p := pseq (popt (g_upto 2)) (pseq g_cc (pseq (g_times 2) g_ls32));
       a6_pre := fun m => m = [] \/ L (Cat (Rep 0 (Some 2) HC) GR) m; a6_units := 4 |};
    {| a6_p := pseq (popt (g_upto 3)) (pseq g_cc (pseq g_h16c g_ls32));
       a6_pre := fun m => m = [] \/ L (Cat (Rep 0 (Some 3) HC) GR) m; a6_units := 3 |};
    {| a6_p := pseq (popt (g_upto 4)) (pseq g_cc g_ls32);
       a6_pre := fun m => m = [] \/ L (Cat (Rep 0 (Some 4) HC) GR) m; a6_units := 2 |};
    {| a6_p := pseq (popt (g_upto 5)) (pseq g_cc g_h16);
       a6_pre := fun m => m = [] \/ L (Cat (Rep 0 (Some 5) HC) GR) m; a6_units := 1 |};
    {| a6_p := pseq (popt (g_upto 6)) g_cc;
       a6_pre := fun m => m = [] \/ L (Cat (Rep 0 (Some 6) HC) GR) m; a6_units := 0 |} ].

Lemma wf_g_h16 : wf _ g_h16. Proof. unfold g_h16; wf_tac. Qed.
Lemma wf_g_h16c : wf _ g_h16c. Proof. unfold g_h16c, g_single_colon; wf_tac. Qed.
Lemma wf_g_upto k : wf _ (g_upto k). Proof. unfold g_upto. apply wf_seq; [apply wf_star, wf_g_h16c|apply wf_g_h16]. Qed.
Lemma wf_g_ls32 : wf _ g_ls32.
Proof. unfold g_ls32, g_ipv4. apply wf_alts. repeat constructor; repeat (apply wf_seq || apply wf_g_h16 || apply wf_dec_octet || apply wf_chr). Qed.
Lemma wf_g_times k : wf _ (g_times k). Proof. apply wf_star, wf_g_h16c. Qed.

Lemma alts6_ok : Forall alt6_ok alts6.
Proof.
  unfold alts6. repeat (apply Forall_cons || apply Forall_nil).
  - unfold alt6_ok; cbn [a6_p a6_pre a6_units]. repeat split.
    + apply wf_seq; [unfold g_cc; wf_tac|apply wf_seq; [apply wf_g_times|apply wf_g_ls32]].
    + destruct (sound_seq _ _ _ _ s_cc (s_units 5) _ _ _ _ H) as (m1 & m2 & a1 & a2 & -> & -> & [_ ->] & [-> _]). auto.
    + destruct (sound_seq _ _ _ _ s_cc (s_units 5) _ _ _ _ H) as (m1 & m2 & a1 & a2 & -> & -> & [H1 _] & [_ H2]).
      apply L_cc in H1. subst. exists [], m2. auto.
    + intros pre t r -> Ht. cbn [app]. unfold Peg.pseq at 1, oseq at 1.
      assert (E2 : g_cc (CO :: CO :: t ++ RB :: r) = Some ([CO; CO], [], t ++ RB :: r)) by reflexivity.
      rewrite E2, c_units; auto.
    + subst; auto. + subst; cbn; lia. + subst; constructor.
  - apply mk_alt6; auto using wf_g_h16, h16_facts.
    + apply wf_seq; [apply wf_g_times|apply wf_g_ls32].
    + apply sw, s_h16.
    + intros m s Hm. apply c_h16; [split; auto|reflexivity].
    + apply s_units. + intros; now apply c_units.
  - apply mk_alt6; auto using wf_g_upto, upto_fail.
    + apply wf_seq; [apply wf_g_times|apply wf_g_ls32].
    + apply sw, s_upto. + intros; now apply c_upto.
    + apply s_units. + intros; now apply c_units. + intros m; apply upto_facts; lia.
  - apply mk_alt6; auto using wf_g_upto, upto_fail.
    + apply wf_seq; [apply wf_g_times|apply wf_g_ls32].
    + apply sw, s_upto. + intros; now apply c_upto.
    + apply s_units. + intros; now apply c_units. + intros m; apply upto_facts; lia.
  - apply mk_alt6; auto using wf_g_upto, upto_fail.
    + apply wf_seq; [apply wf_g_h16c|apply wf_g_ls32].
    + apply sw, s_upto. + intros; now apply c_upto.
    + apply s_units1. + intros; now apply c_units1. + intros m; apply upto_facts; lia.
  - apply mk_alt6; auto using wf_g_upto, upto_fail, wf_g_ls32.
    + apply sw, s_upto. + intros; now apply c_upto.
    + apply s_units0. + intros; now apply c_units0. + intros m; apply upto_facts; lia.
  - apply mk_alt6; auto using wf_g_upto, upto_fail, wf_g_h16.
    + apply sw, s_upto. + intros; now apply c_upto.
    + apply sw, s_h16. + intros t r Ht. apply c_h16; [split; auto|reflexivity]. + intros m; apply upto_facts; lia.
  - unfold alt6_ok; cbn [a6_p a6_pre a6_units]. repeat split.
    + apply wf_seq; [apply wf_opt, wf_g_upto|unfold g_cc; wf_tac].
    + destruct (sound_seq _ _ _ _ (sound_opt _ _ (s_upto 6)) s_cc _ _ _ _ H) as (m1 & m2 & a1 & a2 & -> & -> & [[_ ->]|[_ ->]] & [_ ->]); auto.
    + destruct (sound_seq _ _ _ _ (sound_opt _ _ (s_upto 6)) s_cc _ _ _ _ H) as (m1 & m2 & a1 & a2 & -> & -> & H1 & [H2 _]).
      apply L_cc in H2. subst. exists m1, []. repeat split; auto. destruct H1 as [[H1 _]|[-> _]]; auto.
    + intros pre t r Hp ->. unfold Peg.pseq at 1, oseq at 1.
      assert (E : popt (g_upto 6) (pre ++ CO :: CO :: RB :: r) = Some (pre, [], CO :: CO :: RB :: r)).
      { unfold Peg.popt. destruct Hp as [->|Hp]; [cbn [app]; now rewrite upto_fail|now rewrite c_upto]. }
      cbn [app]. rewrite E. reflexivity.
    + destruct H as [->|H]; [reflexivity|eapply upto_facts; [|exact H]; lia].
    + destruct H as [->|H]; [cbn; lia|eapply upto_facts; [|exact H]; lia].
    + destruct H as [->|H]; [constructor|eapply upto_facts; [|exact H]; lia].
Qed.

Lemma g_ipv6_eq : g_ipv6 = palts (pseq (g_times 6) g_ls32 :: map a6_p alts6).
Proof. reflexivity. Qed.

(* the RFC language in the same form *)
Definition ipv6_shape (m : str) : Prop :=
  L (Cat (Rep 6 (Some 6) HC) Rfc3986.ls32) m \/
  exists a pre t, In a alts6 /\ m = pre ++ CO :: CO :: t /\ a6_pre a pre /\ units (a6_units a) t.

Lemma L_maybe g m : L (Rep 0 (Some 1) g) m <-> m = [] \/ L g m.
Proof.
  cbn [L]. split.
  - intros (l & -> & Hl & _ & H). destruct l as [|x [|y l]]; cbn [length] in *; try lia; cbn [concat]; auto.
    rewrite app_nil_r. inv Hl. auto.
  - intros [->|H]; [exists []|exists [m]]; cbn [concat length]; rewrite ?app_nil_r; repeat split; auto.
Qed.
Lemma dc_shape (Q T : abnf) m : L (Cat (Rep 0 (Some 1) Q) (Cat (Lit "::") T)) m <->
  exists pre t, m = pre ++ CO :: CO :: t /\ (pre = [] \/ L Q pre) /\ L T t.
Proof.
  split.
  - intros (p & x & -> & Hp & c & t & -> & Hc & Ht). apply L_cc in Hc. subst. apply L_maybe in Hp. exists p, t. auto.
  - intros (p & t & -> & Hp & Ht). exists p, (CO :: CO :: t). split; auto. split; [now apply L_maybe|].
    exists [CO; CO], t. split; auto. split; auto. reflexivity.
Qed.

Lemma L_ipv6 m : L Rfc3986.IPv6address m <-> ipv6_shape m.
Proof.
  unfold Rfc3986.IPv6address, ipv6_shape.
  assert (A : forall a b s, L (Alt a b) s <-> L a s \/ L b s) by (intros; reflexivity).
  rewrite !A, !dc_shape.
  assert (E0 : L (Cat (Rep 0 (Some 1) (Cat (Rep 0 (Some 6) HC) GR)) (Lit "::")) m <->
               exists pre t, m = pre ++ CO :: CO :: t /\ (pre = [] \/ L (Cat (Rep 0 (Some 6) HC) GR) pre) /\ t = []).
  { split.
    - intros (p & c & -> & Hp & Hc). apply L_cc in Hc. subst. apply L_maybe in Hp. exists p, []. auto.
    - intros (p & t & -> & Hp & ->). exists p, [CO; CO]. split; auto. split; [now apply L_maybe|reflexivity]. }
  rewrite E0. clear E0.
  assert (E2 : L (Cat (Lit "::") (Cat (Rep 5 (Some 5) HC) Rfc3986.ls32)) m <->
               exists pre t, m = pre ++ CO :: CO :: t /\ pre = [] /\ units 7 t).
  { split.
    - intros (c & t & -> & Hc & Ht). apply L_cc in Hc. subst. exists [], t. auto.
    - intros (p & t & -> & -> & Ht). exists [CO; CO], t. split; auto. split; [reflexivity|exact Ht]. }
  rewrite E2. clear E2.
  assert (E6 : forall t, L (Cat HC Rfc3986.ls32) t <-> units 3 t).
  { intros t. split; intros (x & y & -> & Hx & Hy); exists x, y; (split; [auto|split; auto]); now apply HC1. }
  assert (E7 : forall t, L Rfc3986.ls32 t <-> units 2 t).
  { intros t. split.
    - intros H. exists [], t. split; auto. split; auto. exists []. repeat split; auto.
    - intros (x & y & -> & (l & -> & _ & _ & Hl) & Hy). destruct l; [|cbn in Hl; lia]. exact Hy. }
  split.
  - intros [[[[[[[[H|H]|H]|H]|H]|H]|H]|H]|H]; [left; exact H| | | | | | | |];
      right; destruct H as (pre & t & -> & Hp & Ht);
      [eexists (nth 0 alts6 _)|eexists (nth 1 alts6 _)|eexists (nth 2 alts6 _)|eexists (nth 3 alts6 _)
      |eexists (nth 4 alts6 _)|eexists (nth 5 alts6 _)|eexists (nth 6 alts6 _)|eexists (nth 7 alts6 _)];
      exists pre, t; (split; [apply nth_In; cbn; lia|]); (split; [reflexivity|]); cbn [nth alts6 a6_pre a6_units]; auto.
    + split; auto. now apply E6. + split; auto. now apply E7.
  - intros [H|(a & pre & t & Hin & -> & Hp & Ht)]; [tauto|].
    unfold alts6 in Hin. cbn [In] in Hin.
    repeat destruct Hin as [<-|Hin]; [..|contradiction]; cbn [a6_pre a6_units] in Hp, Ht.
    + do 7 left. right. eauto.
    + do 6 left. right. eauto.
    + do 5 left. right. eauto.
    + do 4 left. right. eauto.
    + do 3 left. right. exists pre, t. rewrite E6. auto.
    + do 2 left. right. exists pre, t. rewrite E7. auto.
    + left. right. eauto.
    + right. eauto.
  Unshelve. all: exact {| a6_p := g_cc; a6_pre := fun _ => True; a6_units := 0 |}.
Qed.

Lemma G1_facts m : L (Cat (Rep 6 (Some 6) HC) Rfc3986.ls32) m ->
  okpre m = true /\ w m = 7 /\ Forall (fun c => b_6 c = true) m.
Proof.
  intros (s & v & -> & Hs & Hv). apply ls32_facts in Hv. destruct Hv as (V1 & V2 & V3 & V4 & V5).
  destruct (groups_facts _ _ _ _ Hs V1 V2 V4) as (G1 & G2 & G3 & G4 & G5). repeat split; auto.
  unfold w in *. rewrite G4. lia.
Qed.

Lemma s_ipv6 : sound g_ipv6 (rlang Rfc3986.IPv6address).
Proof.
  intros s m a r. rewrite g_ipv6_eq. cbn [palts].
  destruct (pseq (g_times 6) g_ls32 s) as [[[m1 a1] r1]|] eqn:E.
  - intros H; inv H. apply (s_units 6) in E. destruct E as [-> E]. split; auto. apply L_ipv6. left. exact E.
  - intros H. assert (Hs : sound (palts (map a6_p alts6)) (fun m a => a = [] /\ exists x pre t, In x alts6 /\ m = pre ++ CO :: CO :: t /\ a6_pre x pre /\ units (a6_units x) t)).
    { apply sound_alts. apply Forall_forall. intros p Hp. apply in_map_iff in Hp. destruct Hp as (x & <- & Hx).
      pose proof alts6_ok as Hok. rewrite Forall_forall in Hok. destruct (Hok _ Hx) as (_ & Hs & _).
      eapply sound_imp; [exact Hs|]. intros m0 a0 (-> & pre & t & H1 & H2 & H3). split; auto. exists x, pre, t. auto. }
    apply Hs in H. destruct H as (-> & x & pre & t & H1 & H2 & H3). split; auto. apply L_ipv6. right. exists x, pre, t. auto.
Qed.
Lemma c_ipv6 m r : L Rfc3986.IPv6address m -> g_ipv6 (m ++ RB :: r) = Some (m, [], RB :: r).
Proof.
  intros H. apply L_ipv6 in H. rewrite g_ipv6_eq. cbn [palts]. destruct H as [H|(a & pre & t & Hin & -> & Hp & Ht)].
  - now rewrite (c_units 6) by exact H.
  - destruct (pseq (g_times 6) g_ls32 ((pre ++ CO :: CO :: t) ++ RB :: r)) as [[[m' a'] r']|] eqn:E.
    + exfalso. pose proof alts6_ok as Hok. rewrite Forall_forall in Hok. destruct (Hok _ Hin) as (_ & _ & _ & Hpre).
      destruct (Hpre _ Hp) as (P1 & P2 & P3). apply units_facts in Ht. destruct Ht as [_ Ht].
      pose proof (wf_seq _ _ _ (wf_g_times 6) wf_g_ls32 _ _ _ _ E) as Eq.
      apply (s_units 6) in E. destruct E as [_ E]. apply G1_facts in E. destruct E as (E1 & E2 & E3).
      symmetry in Eq. apply prefix_rb in Eq; [|auto|apply Forall_app; split; auto].
      destruct Eq as [x Ex]. symmetry in Ex. apply okpre_prefix in Ex; auto. destruct Ex as [y ->].
      pose proof (w_app_le m' y). lia.
    + replace ((pre ++ CO :: CO :: t) ++ RB :: r) with (pre ++ CO :: CO :: t ++ RB :: r) by now rewrite <- app_assoc.
      eapply (alts6_complete alts6 alts6_ok 8); eauto. unfold alts6; cbn; lia.
Qed.
Lemma ipv6_chars m : L Rfc3986.IPv6address m -> Forall (fun c => b_6 c = true) m.
Proof.
  intros H. apply L_ipv6 in H. destruct H as [H|(a & pre & t & Hin & -> & Hp & Ht)].
  - apply G1_facts in H. tauto.
  - pose proof alts6_ok as Hok. rewrite Forall_forall in Hok. destruct (Hok _ Hin) as (_ & _ & _ & Hpre).
    destruct (Hpre _ Hp) as (P1 & P2 & P3). apply units_facts in Ht. destruct Ht as [_ Ht]. apply Forall_app; split; auto.
Qed.
