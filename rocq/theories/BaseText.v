(* base () of a transcode view's iterators where the input is well-formed *)
From Verif Require Import Base ModelIcu SpecIcu IcuUtf8 IcuRead8 IcuEnc IcuView IcuViewAll IcuProps ModelHist SpecHist HistFacts HistView SpecBase BaseFacts.
From Coq Require Import Lia.
Local Open Scope list_scope.

Record exact_tc (T : tcdr) (fin fout : N -> list N -> Prop) (idle : tc_st T -> Prop) : Prop := {
  ex_init : idle (tc_init T);
  ex_code : forall s c w, idle s -> fin c w -> exists s' y, feed T s w = Ok (s', y) /\ fout c y /\ idle s';
  ex_part : forall s c a b, idle s -> b <> [] -> fin c (a ++ b) -> exists s', feed T s a = Ok (s', []) }.

Lemma exact_8_32 : exact_tc t8_32 utf8_of utf32_of (fun s => s8_state s = 0%N).
Proof.
  split.
  - reflexivity.
  - intros [cp wf st] c w E U. cbn [s8_state] in E. subst st. do 2 eexists. split; [apply feed_good; exact U|]. split; [constructor; eapply utf8_scalar; exact U|reflexivity].
  - intros [cp wf st] c a b E Nb U. cbn [s8_state] in E. subst st. destruct (feed_incomplete a cp wf) as (s & F & _).
    + right. exact (complete_prefix _ _ _ Nb U).
    + eauto.
Qed.
Lemma step_none h wf u : (u < 2 ^ 16)%N -> ~ high_surrogate u -> ~ low_surrogate u -> exists h', t16_32_call (S16 h false wf) u = Ok (S16 h' false wf, [u]).
Proof.
  intros B Nh Nl. destruct (step16 [] (S16 h false wf) u ltac:(constructor) B) as (s' & w & E & R).
  destruct R as [(_ & Hh & _)|[(h' & -> & c & U & ->)|[(h' & _ & L & _)|[(h' & Hp & _)|(h' & Hp & _)]]]]; try contradiction.
  cbn [app] in U. destruct (utf16_shape _ _ U) as [(Eq & _)|(a & b & Eq & _)]; [|discriminate]. injection Eq as ->. exists h'. exact E.
Qed.
Lemma step_pair h wf u v : high_surrogate u -> low_surrogate v -> exists h', feed t16_32 (S16 h false wf) [u; v] = Ok (S16 h' false wf, [((u - 0xD800) * 1024 + (v - 0xDC00) + 0x10000)%N])
  /\ feed t16_32 (S16 h false wf) [u] = Ok (S16 (u - 0xD800) true wf, []).
Proof.
  intros Hu Lv. assert (Bu : (u < 2 ^ 16)%N) by (unfold high_surrogate in Hu; change (2 ^ 16)%N with 65536%N; lia). assert (Bv : (v < 2 ^ 16)%N) by (unfold low_surrogate in Lv; change (2 ^ 16)%N with 65536%N; lia).
  destruct (step16 [] (S16 h false wf) u ltac:(constructor) Bu) as (s1 & w1 & E1 & R1).
  destruct R1 as [(_ & _ & -> & ->)|[(h' & -> & c & U & ->)|[(h' & _ & L & _)|[(h' & Hp & _)|(h' & Hp & _)]]]]; try contradiction.
  2: { exfalso. destruct (utf16_shape _ _ U) as [(Eq & _ & Nh & _)|(a & b & Eq & _)]; [|discriminate]. injection Eq as ->. contradiction. }
  2: { exfalso. unfold high_surrogate, low_surrogate in *. lia. }
  destruct (step16 [u] (S16 (u - 0xD800) true wf) v ltac:(constructor; exact Hu) Bv) as (s2 & w2 & E2 & R2). cbn [s16_wf] in *.
  destruct R2 as [(Z & _)|[(h' & -> & c & U & ->)|[(h' & Z & _)|[(h' & _ & NL & _)|(h' & _ & NL & _)]]]]; try discriminate; try contradiction.
  exists h'. cbn [feed tc_op t16_32]. rewrite E1. cbn [bind]. rewrite E2. cbn [bind app]. split; [|reflexivity]. cbn [app] in U.
  destruct (utf16_shape _ _ U) as [(Eq & _)|(a & b & Eq & _ & _ & ->)]; [discriminate|]. injection Eq as <- <-. reflexivity.
Qed.
Lemma exact_16_32 : exact_tc t16_32 utf16_of utf32_of (fun s => s16_has s = false).
Proof.
  split.
  - reflexivity.
  - intros [h has wf] c w E U. cbn [s16_has] in E. subst has. pose proof (utf16_scalar _ _ U) as S. destruct (utf16_shape _ _ U) as [(-> & B & Nh & Nl)|(u & v & -> & Hu & Lv & Ec)].
    + destruct (step_none h wf c B Nh Nl) as (h' & F). exists (S16 h' false wf), [c]. cbn [feed tc_op t16_32]. rewrite F. cbn [bind app]. repeat split. exact S.
    + destruct (step_pair h wf u v Hu Lv) as (h' & F & _). rewrite <- Ec in F. do 2 eexists. split; [exact F|]. repeat split. exact S.
  - intros [h has wf] c a b E Nb U. cbn [s16_has] in E. subst has. destruct a as [|x a]; [eexists; reflexivity|]. destruct (utf16_shape _ _ U) as [(Eq & _)|(u & v & Eq & Hu & Lv & _)].
    + cbn [app] in Eq. injection Eq as _ Eq. destruct (app_eq_nil _ _ Eq) as [_ Z]. contradiction.
    + cbn [app] in Eq. injection Eq as -> Eq. destruct a as [|y a].
      * destruct (step_pair h wf u v Hu Lv) as (_ & _ & F). eauto.
      * cbn [app] in Eq. injection Eq as _ Eq. destruct (app_eq_nil _ _ Eq) as [_ Z]. contradiction.
Qed.
Lemma exact_enc O form : encoder O form -> exact_tc O utf32_of form (fun _ => True).
Proof.
  intros H. split; [exact Logic.I| |].
  - intros s c w _ [c' S]. destruct (enc_good _ _ H s c' S) as (o & y & E & F & _). exists o, y. cbn [feed]. rewrite E. cbn [bind]. rewrite app_nil_r. auto.
  - intros s c a b _ Nb U. destruct a as [|x a]; [eexists; reflexivity|]. remember ((x :: a) ++ b) as l eqn:Eq in U. destruct U as [c S]. cbn [app] in Eq. injection Eq as _ Eq. symmetry in Eq. destruct (app_eq_nil _ _ Eq) as [_ Z]. contradiction.
Qed.
Lemma exact_tri I O cap valid Inv fin fout idle : decoder I cap valid Inv -> encoder O fout -> exact_tc I fin utf32_of idle -> (forall c w, fin c w -> Forall valid w) ->
  exact_tc (triangulator cap I O) fin fout (fun s => idle (fst s) /\ Inv (fst s)).
Proof.
  intros D E X V. split.
  - cbn [tc_init triangulator fst]. split; [exact (ex_init _ _ _ _ X)|exact (dec_init _ _ _ _ D)].
  - intros [i o] c w [Hi Hv] F. cbn [fst] in *. destruct (ex_code _ _ _ _ X i c w Hi F) as (i1 & y & F1 & U & Hi1).
    destruct (tri_feed I O cap valid Inv fout D E w (V _ _ F) i o Hv) as (i' & o' & w1 & w' & Fi & Hv' & Ft & Tx & _). rewrite F1 in Fi. injection Fi as <- <-.
    destruct U as [c S]. inversion Tx as [|c0 x cs us Fc Tn]; subst. inversion Tn; subst. exists (i1, o'), (x ++ []). split; [exact Ft|]. rewrite app_nil_r. auto.
  - intros [i o] c a b [Hi Hv] Nb F. cbn [fst] in *. destruct (ex_part _ _ _ _ X i c a b Hi Nb F) as (i1 & F1). pose proof (V _ _ F) as Va. apply Forall_app in Va as [Va _].
    destruct (tri_feed I O cap valid Inv fout D E a Va i o Hv) as (i' & o' & w1 & w' & Fi & Hv' & Ft & Tx & _). rewrite F1 in Fi. injection Fi as <- <-.
    inversion Tx; subst. eexists. exact Ft.
Qed.

Section X.
Variables (T : tcdr) (fin fout : N -> list N -> Prop) (idle : tc_st T -> Prop).
Hypothesis HX : exact_tc T fin fout idle.
Hypothesis HF : functional fout.
Hypothesis HN : nonempty fout.

Lemma exact_text cs x y : text fin cs x -> text fout cs y -> forall s, idle s -> exists s', feed T s x = Ok (s', y) /\ idle s'.
Proof.
  intros A. revert y. induction A as [|c w cs us Fc A IH]; intros y B s Hs.
  - inversion B; subst. exists s. auto.
  - inversion B as [|c0 v cs0 vs Fv B']; subst. destruct (ex_code _ _ _ _ HX s c w Hs Fc) as (s1 & y1 & E1 & F1 & H1). rewrite (HF _ _ _ F1 Fv) in E1.
    destruct (IH vs B' s1 H1) as (s2 & E2 & H2). exists s2. rewrite feed_app, E1. cbn [bind]. rewrite E2. auto.
Qed.
(* every strict prefix of the text writes less than the whole *)
Lemma exact_less cs x y : text fin cs x -> text fout cs y -> forall s k, idle s -> (k < length x)%nat -> exists s' w, feed T s (firstn k x) = Ok (s', w) /\ (length w < length y)%nat.
Proof.
  intros A. revert y. induction A as [|c w cs us Fc A IH]; intros y B s k Hs Lk; [cbn in Lk; lia|].
  inversion B as [|c0 v cs0 vs Fv B']; subst. rewrite app_length in *. assert (Lv : (0 < length v)%nat). { pose proof (HN _ _ Fv). destruct v; [contradiction|cbn; lia]. }
  destruct (Nat.lt_ge_cases k (length w)) as [L|G].
  - rewrite firstn_app, (proj2 (Nat.sub_0_le _ _)) by lia. cbn [firstn]. rewrite app_nil_r.
    destruct (ex_part _ _ _ _ HX s c (firstn k w) (skipn k w) Hs) as (s' & E).
    + intros Z. apply (f_equal (@length N)) in Z. rewrite skipn_length in Z. cbn in Z. lia.
    + rewrite firstn_skipn. exact Fc.
    + exists s', []. split; [exact E|cbn; lia].
  - rewrite firstn_app, firstn_all2 by lia. destruct (ex_code _ _ _ _ HX s c w Hs Fc) as (s1 & y1 & E1 & F1 & H1). rewrite (HF _ _ _ F1 Fv) in E1.
    destruct (IH vs B' s1 (k - length w)%nat H1 ltac:(lia)) as (s2 & w2 & E2 & L2). exists s2, (v ++ w2). rewrite feed_app, E1. cbn [bind]. rewrite E2. split; [reflexivity|rewrite app_length; lia].
Qed.
Lemma exact_belongs cs x1 y1 c xc yc x2 i : text fin cs x1 -> text fout cs y1 -> fin c xc -> xc <> [] -> fout c yc -> (length y1 <= i < length y1 + length yc)%nat ->
  belongs T (x1 ++ xc ++ x2) i (length x1).
Proof.
  intros A B Fc Nc Fy L. assert (Lc : (0 < length xc)%nat) by (destruct xc; [contradiction|cbn; lia]).
  destruct (exact_text _ _ _ A B _ (ex_init _ _ _ _ HX)) as (s1 & E1 & H1). destruct (ex_code _ _ _ _ HX s1 c xc H1 Fc) as (s2 & y2 & E2 & F2 & H2). rewrite (HF _ _ _ F2 Fy) in E2.
  split; [rewrite !app_length; lia|]. exists (length y1). split.
  { exists s1, y1. rewrite firstn_app, Nat.sub_diag, firstn_all. cbn [firstn]. rewrite app_nil_r. auto. }
  split; [lia|]. split.
  - intros k n Lk (s & w & E & <-). rewrite firstn_app, (proj2 (Nat.sub_0_le _ _)) in E by lia. cbn [firstn] in E. rewrite app_nil_r in E.
    destruct (exact_less _ _ _ A B _ k (ex_init _ _ _ _ HX) Lk) as (s' & w' & E' & L'). rewrite E in E'. injection E' as <- <-. exact L'.
  - intros k n Lk W Ln. destruct (Nat.lt_ge_cases k (length x1)) as [Lx|Gx].
    { destruct W as (s & w & E & <-). rewrite firstn_app, (proj2 (Nat.sub_0_le _ _)) in E by lia. cbn [firstn] in E. rewrite app_nil_r in E.
      destruct (exact_less _ _ _ A B _ k (ex_init _ _ _ _ HX) Lx) as (s' & w' & E' & L'). rewrite E in E'. injection E' as <- <-. lia. }
    destruct (Nat.lt_ge_cases k (length x1 + length xc)) as [Lp|Gp].
    + destruct W as (s & w & E & <-). rewrite firstn_app, firstn_all2 in E by lia. rewrite firstn_app, (proj2 (Nat.sub_0_le (k - length x1) (length xc))) in E by lia. cbn [firstn] in E. rewrite app_nil_r in E.
      destruct (ex_part _ _ _ _ HX s1 c (firstn (k - length x1) xc) (skipn (k - length x1) xc) H1) as (s' & E').
      { intros Z. apply (f_equal (@length N)) in Z. rewrite skipn_length in Z. cbn in Z. lia. }
      { rewrite firstn_skipn. exact Fc. }
      rewrite feed_app, E1 in E. cbn [bind] in E. rewrite E' in E. cbn [bind] in E. injection E as _ <-. rewrite app_nil_r. lia.
    + exfalso. assert (W2 : writes T (x1 ++ xc ++ x2) (length x1 + length xc) (length (y1 ++ yc))).
      { exists s2, (y1 ++ yc). rewrite firstn_app_2, firstn_app, Nat.sub_diag, firstn_all. cbn [firstn]. rewrite app_nil_r, feed_app, E1. cbn [bind]. rewrite E2. auto. }
      pose proof (writes_mono _ _ _ _ _ _ Gp W2 W) as M. rewrite app_length in M. lia.
Qed.
End X.
