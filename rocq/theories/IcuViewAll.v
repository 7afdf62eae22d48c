(* Every transcoder between UTF-8, UTF-16 and UTF-32 fits the view's buffer *)
From Verif Require Import Base ModelIcu SpecIcu IcuUtf8 IcuRead8 IcuEnc IcuView.
Local Open Scope N_scope.
Local Open Scope list_scope.

Definition fits (form : N -> list N -> Prop) (cap : nat) (w : list N) : Prop := forall x, text form w x -> (length x <= cap)%nat.
Definition nonempty (form : N -> list N -> Prop) : Prop := forall c w, form c w -> w <> [].
Lemma nonempty_8 : nonempty utf8_of. Proof. intros c w H. eapply utf8_nonempty; exact H. Qed.
Lemma nonempty_16 : nonempty utf16_of. Proof. intros c w []; discriminate. Qed.
Lemma nonempty_32 : nonempty utf32_of. Proof. intros c w []; discriminate. Qed.
Lemma text_nonempty form w x : nonempty form -> text form w x -> w <> [] -> x <> [].
Proof. intros N []; [auto|]. intros _ E. apply app_eq_nil in E. destruct E as [E _]. eapply N; eassumption. Qed.
Lemma text_empty form x : text form [] x -> x = [].
Proof. inversion 1. reflexivity. Qed.

(* stronger facts about the decoders to UTF-32 *)
Record vdecoder (I : tcdr) (icap : nat) (valid : N -> Prop) (Inv : tc_st I -> Prop) (good : list N -> Prop) : Prop := {
  vd_init : Inv (tc_init I);
  vd_op : forall s u, Inv s -> valid u -> exists s' w s'' w', tc_op I s u = Ok (s', w) /\ Inv s' /\ (length w <= icap)%nat
     /\ (tc_wf I s' = true -> tc_wf I s = true)
     /\ tc_end I s' = Ok (s'', w') /\ (length w' <= icap)%nat /\ (w = [] -> w' <> []) /\ good (w ++ w') /\ good w /\ Forall scalar (w ++ w');
  vd_end : forall s, Inv s -> exists s' w s'' w', tc_end I s = Ok (s', w) /\ (length w <= icap)%nat
     /\ (tc_wf I s' = true -> tc_wf I s = true) /\ good w /\ Forall scalar w
     /\ tc_end I s' = Ok (s'', w') /\ (length w' <= icap)%nat /\ good w' /\ Forall scalar w' /\ tc_wf I s'' = tc_wf I s' }.

Definition good8 (w : list N) : Prop := (length w <= 1)%nat.
Definition good16 (w : list N) : Prop := (length w <= 1)%nat \/ exists a b, w = [a; b] /\ a < 0x10000 /\ b < 0x10000.

Lemma vdecoder_8 : vdecoder t8_32 1 (fun u => u < 256) okstate8 good8.
Proof.
  split.
  - exists []. constructor.
  - intros s u (p & I) H. destruct (step8 p s u I H) as (s' & w & E & R). exists s', w.
    pose proof (step8_inv _ _ _ _ _ R) as I'.
    destruct R as [(c & U & -> & ->)|[(st & cp & Q & -> & ->)|(_ & (cp & ->) & ->)]]; cbn [next_pending] in I'.
    + do 2 eexists. split; [exact E|]. split; [eexists; exact I'|]. split; [cbn; lia|]. split; [auto|].
      split; [reflexivity|]. split; [cbn; lia|]. split; [discriminate|]. split; [cbv; lia|]. split; [cbv; lia|].
      apply forall1. eapply utf8_scalar; exact U.
    + assert (Z : negb (st =? accept) = true) by (destruct Q; reflexivity).
      do 2 eexists. split; [exact E|]. split; [eexists; exact I'|]. split; [cbn; lia|]. split; [auto|].
      cbn [tc_end t8_32]. unfold t8_32_end. cbn [s8_state]. rewrite Z.
      split; [reflexivity|]. split; [cbn; lia|]. split; [discriminate|]. split; [cbv; lia|]. split; [cbv; lia|].
      apply forall1, fffd_scalar.
    + do 2 eexists. split; [exact E|]. split; [eexists; exact I'|]. split; [cbn; lia|]. split; [discriminate|].
      split; [reflexivity|]. split; [cbn; lia|]. split; [discriminate|]. split; [cbv; lia|]. split; [cbv; lia|].
      apply forall1, fffd_scalar.
  - intros s _. cbn [tc_end t8_32]. unfold t8_32_end at 1. destruct (negb (s8_state s =? accept)) eqn:Z.
    + do 4 eexists. split; [reflexivity|]. split; [cbn; lia|]. split; [discriminate|]. split; [cbv; lia|]. split; [apply forall1, fffd_scalar|].
      split; [reflexivity|]. split; [cbn; lia|]. split; [cbv; lia|]. split; [apply forall1, fffd_scalar|reflexivity].
    + do 4 eexists. split; [reflexivity|]. split; [cbn; lia|]. split; [auto|]. split; [cbv; lia|]. split; [apply Forall_nil|].
      unfold t8_32_end. rewrite Z. split; [reflexivity|]. split; [cbn; lia|]. split; [cbv; lia|]. split; [apply Forall_nil|reflexivity].
Qed.
Lemma vdecoder_16 : vdecoder t16_32 2 (fun u => u < 2 ^ 16) okstate16 good16.
Proof.
  split.
  - exists []. constructor.
  - intros s u (p & I) H. destruct (step16 p s u I H) as (s' & w & E & R). exists s', w.
    change (2 ^ 16) with 65536 in H.
    destruct R as [(-> & Hh & -> & ->)|[(h & -> & c & U & ->)|[(h & -> & L & -> & ->)|[(h & Hp & NL & Hh & -> & -> & ->)|(h & Hp & NL & -> & U & ->)]]]].
    + do 2 eexists. split; [exact E|]. split; [eexists; constructor; exact Hh|]. split; [cbn; lia|]. split; [auto|].
      split; [reflexivity|]. split; [cbn; lia|]. split; [discriminate|]. split; [left; cbn; lia|]. split; [left; cbn; lia|].
      apply forall1, fffd_scalar.
    + do 2 eexists. split; [exact E|]. split; [eexists; constructor|]. split; [cbn; lia|]. split; [auto|].
      split; [reflexivity|]. split; [cbn; lia|]. split; [discriminate|]. split; [left; cbn; lia|]. split; [left; cbn; lia|].
      apply forall1. eapply utf16_scalar; exact U.
    + do 2 eexists. split; [exact E|]. split; [eexists; constructor|]. split; [cbn; lia|]. split; [discriminate|].
      split; [reflexivity|]. split; [cbn; lia|]. split; [discriminate|]. split; [left; cbn; lia|]. split; [left; cbn; lia|].
      apply forall1, fffd_scalar.
    + do 2 eexists. split; [exact E|]. split; [eexists; constructor; exact Hh|]. split; [cbn; lia|]. split; [discriminate|].
      split; [reflexivity|]. split; [cbn; lia|]. split; [discriminate|].
      split; [right; exists fffd, fffd; repeat split|]. split; [left; cbn; lia|].
      apply Forall_cons; [apply fffd_scalar|]. apply forall1, fffd_scalar.
    + assert (G : good16 [fffd; u]) by (right; exists fffd, u; repeat split; exact H).
      do 2 eexists. split; [exact E|]. split; [eexists; constructor|]. split; [cbn; lia|]. split; [discriminate|].
      split; [reflexivity|]. split; [cbn; lia|]. split; [discriminate|]. split; [exact G|]. split; [exact G|].
      apply Forall_cons; [apply fffd_scalar|]. apply forall1. eapply utf16_scalar; exact U.
  - intros s _. cbn [tc_end t16_32]. unfold t16_32_end at 1. destruct (s16_has s) eqn:Z.
    + do 4 eexists. split; [reflexivity|]. split; [cbn; lia|]. split; [discriminate|]. split; [left; cbn; lia|]. split; [apply forall1, fffd_scalar|].
      split; [reflexivity|]. split; [cbn; lia|]. split; [left; cbn; lia|]. split; [apply Forall_nil|reflexivity].
    + do 4 eexists. split; [reflexivity|]. split; [cbn; lia|]. split; [auto|]. split; [left; cbn; lia|]. split; [apply Forall_nil|].
      unfold t16_32_end. rewrite Z. split; [reflexivity|]. split; [cbn; lia|]. split; [left; cbn; lia|]. split; [apply Forall_nil|reflexivity].
Qed.

Lemma viewable_decoder I icap valid Inv good cap : vdecoder I icap valid Inv good -> (forall w, good w -> (length w <= cap)%nat) ->
  viewable I cap valid Inv.
Proof.
  intros H G. split.
  - apply (vd_init _ _ _ _ _ H).
  - intros s u Hi Hv. destruct (vd_op _ _ _ _ _ H s u Hi Hv) as (s' & w & s'' & w' & E & Hi' & L & W & E' & L' & P & G1 & G2 & S).
    exists s', w, s'', w'. repeat (split; [auto|]). exact P.
  - intros s Hi. destruct (vd_end _ _ _ _ _ H s Hi) as (s' & w & s'' & w' & E & L & W & G1 & S & E' & L' & G2 & S' & W').
    exists s', w, s'', w'. repeat (split; [auto|]). exact W'.
Qed.
Lemma viewable_encoder O form cap : encoder O form -> nonempty form -> (forall c w, form c w -> (length w <= cap)%nat) ->
  viewable O cap (fun _ => True) (fun _ => True).
Proof.
  intros H NE L. split; [exact I| |].
  - intros o c _ _. destruct (scalar_cases c) as [S|S].
    + destruct (enc_good _ _ H o c S) as (o' & w & E & F & W). exists o', w, o', []. split; [exact E|]. split; [exact I|].
      split; [eapply L; exact F|]. split; [congruence|]. split; [apply (enc_end _ _ H)|]. rewrite app_nil_r. split; [eapply L; exact F|].
      intros ->. exfalso. eapply NE; [exact F|reflexivity].
    + destruct (enc_bad _ _ H o c S) as (o' & w & E & F & W). exists o', w, o', []. split; [exact E|]. split; [exact I|].
      split; [eapply L; exact F|]. split; [congruence|]. split; [apply (enc_end _ _ H)|]. rewrite app_nil_r. split; [eapply L; exact F|].
      intros ->. exfalso. eapply NE; [exact F|reflexivity].
  - intros o _. exists o, [], o, []. rewrite (enc_end _ _ H). cbn. repeat split; auto; lia.
Qed.

Section Tri.
Variables (I O : tcdr) (icap cap : nat) (valid : N -> Prop) (Inv : tc_st I -> Prop) (form : N -> list N -> Prop) (good : list N -> Prop).
Hypothesis HI : vdecoder I icap valid Inv good.
Hypothesis HO : encoder O form.
Hypothesis HN : nonempty form.
Hypothesis HG : forall w, good w -> Forall scalar w -> fits form cap w.
Lemma feed_scalars w o : Forall scalar w -> exists o' w', feed O o w = Ok (o', w') /\ text form w w' /\ tc_wf O o' = tc_wf O o.
Proof.
  intros S. destruct (enc_feed _ _ HO _ _ _ (reads32_scalars w S) o) as (o' & w' & E & T & W).
  exists o', w'. rewrite andb_true_r in W. auto.
Qed.
Lemma tri_viewable : viewable (triangulator icap I O) cap valid (fun s => Inv (fst s)).
Proof.
  split.
  - apply (vd_init _ _ _ _ _ HI).
  - intros [i o] u Hi Hv. cbn [fst] in Hi. destruct (vd_op _ _ _ _ _ HI i u Hi Hv) as (s' & w & s'' & w' & E & Hi' & L & W & E' & L' & P & G1 & G2 & S).
    pose proof S as S'. apply Forall_app in S'. destruct S' as [Sw Sw'].
    destruct (feed_scalars w o Sw) as (o1 & x & F1 & T1 & W1). destruct (feed_scalars w' o1 Sw') as (o2 & y & F2 & T2 & W2).
    exists (s', o1), x, (s'', o2), (y ++ []). cbn [tc_op tc_end tc_wf triangulator fst snd]. unfold tri_op, tri_end. cbn [fst snd].
    rewrite E. cbn [bind]. destruct (Nat.ltb_spec icap (length w)) as [|_]; [lia|]. rewrite F1. cbn [bind]. split; [reflexivity|].
    split; [exact Hi'|]. split; [apply (HG w G2 Sw); exact T1|]. split.
    { rewrite !andb_true_iff. intros [A B]. split; [auto|congruence]. }
    rewrite E'. cbn [bind]. destruct (Nat.ltb_spec icap (length w')) as [|_]; [lia|]. rewrite F2. cbn [bind]. rewrite (enc_end _ _ HO). cbn [bind].
    split; [reflexivity|]. rewrite app_nil_r. split; [apply (HG _ G1 S); apply text_app; assumption|].
    intros ->. destruct w as [|a w]; [|exfalso; eapply text_nonempty; [exact HN|exact T1|discriminate|reflexivity]].
    eapply text_nonempty; [exact HN|exact T2|auto].
  - intros [i o] Hi. cbn [fst] in Hi. destruct (vd_end _ _ _ _ _ HI i Hi) as (s' & w & s'' & w' & E & L & W & G1 & S & E' & L' & G2 & S' & W').
    destruct (feed_scalars w o S) as (o1 & x & F1 & T1 & W1). destruct (feed_scalars w' o1 S') as (o2 & y & F2 & T2 & W2).
    exists (s', o1), (x ++ []), (s'', o2), (y ++ []). cbn [tc_op tc_end tc_wf triangulator fst snd]. unfold tri_end. cbn [fst snd].
    rewrite E. cbn [bind]. destruct (Nat.ltb_spec icap (length w)) as [|_]; [lia|]. rewrite F1. cbn [bind]. rewrite (enc_end _ _ HO). cbn [bind].
    split; [reflexivity|]. rewrite !app_nil_r. split; [apply (HG w G1 S); exact T1|]. split.
    { rewrite !andb_true_iff. intros [A B]. split; [auto|congruence]. }
    rewrite E'. cbn [bind]. destruct (Nat.ltb_spec icap (length w')) as [|_]; [lia|]. rewrite F2. cbn [bind]. rewrite (enc_end _ _ HO). cbn [bind].
    split; [rewrite app_nil_r; reflexivity|]. split; [apply (HG w' G2 S'); exact T2|]. congruence.
Qed.
End Tri.

Lemma len_8 c w : utf8_of c w -> (length w <= 4)%nat /\ (c < 0x10000 -> (length w <= 3)%nat).
Proof. intros []; cbn; split; lia. Qed.
Lemma len_16 c w : utf16_of c w -> (length w <= 2)%nat /\ (c < 0x10000 -> (length w <= 1)%nat).
Proof. intros []; cbn; split; lia. Qed.
Lemma fits_8 w (form : N -> list N -> Prop) a : good8 w -> (forall c x, form c x -> (length x <= a)%nat) -> fits form a w.
Proof.
  intros G F x T. inversion T as [|c y cs us Fc Tc]; subst; [cbn; lia|]. destruct cs; [|cbv in G; lia].
  apply text_empty in Tc. subst us. rewrite app_nil_r. eapply F; exact Fc.
Qed.
Lemma fits_16 w (form : N -> list N -> Prop) a b : good16 w -> (forall c x, form c x -> (length x <= a)%nat /\ (c < 0x10000 -> (length x <= b)%nat)) -> (a <= 2 * b)%nat -> fits form (2 * b) w.
Proof.
  intros [G|(p & q & -> & Hp & Hq)] F AB x T.
  - inversion T as [|c y cs us Fc Tc]; subst; [cbn; lia|]. destruct cs; [|cbn in G; lia].
    apply text_empty in Tc. subst us. rewrite app_nil_r. destruct (F _ _ Fc) as [H _]. lia.
  - inversion T as [|c y cs us Fc Tc]; subst. inversion Tc as [|c' y' cs' us' Fc' Tc']; subst. apply text_empty in Tc'. subst us'.
    rewrite app_nil_r, app_length. destruct (F _ _ Fc) as [_ H1]. destruct (F _ _ Fc') as [_ H2]. specialize (H1 Hp). specialize (H2 Hq). lia.
Qed.

Definition ok8 (u : N) : Prop := u < 256.
Definition ok16 (u : N) : Prop := u < 2 ^ 16.
Definition okany (u : N) : Prop := True.
Lemma viewable_8_32 : viewable t8_32 max_output_32 ok8 okstate8.
Proof. eapply viewable_decoder; [apply vdecoder_8|]. intros w G. exact G. Qed.
Lemma viewable_16_32 : viewable t16_32 max_output_16_32 ok16 okstate16.
Proof. eapply viewable_decoder; [apply vdecoder_16|]. intros w [G|(a & b & -> & _)]; cbn in *; unfold max_output_16_32; lia. Qed.
Lemma viewable_32_32 : viewable t32_32 max_output_32 okany (fun _ => True).
Proof. eapply viewable_encoder; [apply encoder_32|apply nonempty_32|]. intros c w []. cbn. unfold max_output_32, longest_sequence_32. lia. Qed.
Lemma viewable_32_16 : viewable t32_16 max_output_16 okany (fun _ => True).
Proof. eapply viewable_encoder; [apply encoder_16|apply nonempty_16|]. intros c w H. apply len_16 in H. apply H. Qed.
Lemma viewable_32_8 : viewable t32_8 max_output_8 okany (fun _ => True).
Proof. eapply viewable_encoder; [apply encoder_8|apply nonempty_8|]. intros c w H. apply len_8 in H. apply H. Qed.
Lemma viewable_8_16 : viewable t8_16 max_output_16 ok8 (fun s => okstate8 (fst s)).
Proof. eapply tri_viewable; [apply vdecoder_8|apply encoder_16|apply nonempty_16|]. intros w G S. apply fits_8; [exact G|]. intros c x H. apply len_16 in H. apply H. Qed.
Lemma viewable_8_8 : viewable t8_8 max_output_8 ok8 (fun s => okstate8 (fst s)).
Proof. eapply tri_viewable; [apply vdecoder_8|apply encoder_8|apply nonempty_8|]. intros w G S. apply fits_8; [exact G|]. intros c x H. apply len_8 in H. apply H. Qed.
Lemma viewable_16_8 : viewable t16_8 max_output_16_8 ok16 (fun s => okstate16 (fst s)).
Proof. eapply tri_viewable; [apply vdecoder_16|apply encoder_8|apply nonempty_8|]. intros w G S. apply (fits_16 w utf8_of 4 3); [exact G|exact len_8|lia]. Qed.
Lemma viewable_16_16 : viewable t16_16 max_output_16 ok16 (fun s => okstate16 (fst s)).
Proof. eapply tri_viewable; [apply vdecoder_16|apply encoder_16|apply nonempty_16|]. intros w G S. apply (fits_16 w utf16_of 2 1); [exact G|exact len_16|lia]. Qed.

Lemma view_all T cap valid Inv l fuel out ok : viewable T cap valid Inv -> (cap < 16)%nat -> transcode T [] = Ok ([], true) ->
  Forall valid l -> transcode T l = Ok (out, ok) -> (length out < fuel)%nat -> view_iterate T cap l fuel = Ok (out, ok).
Proof.
  intros V C Z F E L. destruct l as [|u l].
  - rewrite Z in E. injection E as <- <-. destruct fuel; [lia|]. reflexivity.
  - eapply view_spec; eauto. discriminate.
Qed.
