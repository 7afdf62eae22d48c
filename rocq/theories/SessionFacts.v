(* One transcoder, several texts: proofs for C53. *)
From Verif Require Import Base ModelIcu ModelSession SpecIcu SpecSession IcuUtf8.
From Coq Require Import Lia.
Local Open Scope N_scope.
Local Open Scope list_scope.

(* R b s s': s behaves as s' does, with its flag and-ed with b *)
Record shadow (T : tcdr) (R : bool -> tc_st T -> tc_st T -> Prop) : Prop := {
  sh_op : forall b s s' u t' w, R b s s' -> tc_op T s' u = Ok (t', w) -> exists t, tc_op T s u = Ok (t, w) /\ R b t t';
  sh_end : forall b s s' t' w, R b s s' -> tc_end T s' = Ok (t', w) -> exists t, tc_end T s = Ok (t, w) /\ R b t t';
  sh_wf : forall b s s', R b s s' -> tc_wf T s = b && tc_wf T s';
  sh_partial : forall b s s', R b s s' -> tc_partial T s = tc_partial T s';
  sh_refl : forall s, R true s s;
  sh_trans : forall b c s t u, R b s t -> R c t u -> R (b && c) s u }.
(* after end_cp a transcoder is as good as new, unless a code point was under way *)
Definition restarts (T : tcdr) (R : bool -> tc_st T -> tc_st T -> Prop) : Prop :=
  forall s t w, tc_end T s = Ok (t, w) -> tc_partial T s = false -> R (tc_wf T t) t (tc_init T).
Definition restarts_always (T : tcdr) (R : bool -> tc_st T -> tc_st T -> Prop) : Prop :=
  forall s t w, tc_end T s = Ok (t, w) -> R (tc_wf T t) t (tc_init T).

Lemma sh_feed T R : shadow T R -> forall l b s s' t' w, R b s s' -> feed T s' l = Ok (t', w) -> exists t, feed T s l = Ok (t, w) /\ R b t t'.
Proof.
  intros H l. induction l as [|u l IH]; intros b s s' t' w Hr E; cbn [feed] in *.
  - injection E as <- <-. eauto.
  - destruct (tc_op T s' u) as [[t1' w1]| |] eqn:E1; cbn [bind] in E; try discriminate.
    destruct (feed T t1' l) as [[t2' w2]| |] eqn:E2; cbn [bind] in E; try discriminate. injection E as <- <-.
    destruct (sh_op T R H _ _ _ _ _ _ Hr E1) as (t1 & Q1 & R1). destruct (IH _ _ _ _ _ R1 E2) as (t2 & Q2 & R2).
    exists t2. rewrite Q1. cbn [bind]. rewrite Q2. cbn [bind]. auto.
Qed.
Lemma transcode_inv T l o k : transcode T l = Ok (o, k) ->
  exists t1 w t2 w', feed T (tc_init T) l = Ok (t1, w) /\ tc_end T t1 = Ok (t2, w') /\ o = w ++ w' /\ k = tc_wf T t2.
Proof.
  unfold transcode. destruct (feed T (tc_init T) l) as [[t1 w]| |]; cbn [bind]; try discriminate.
  destruct (tc_end T t1) as [[t2 w']| |] eqn:E; cbn [bind]; try discriminate. intros H. injection H as <- <-. exists t1, w, t2, w'. auto.
Qed.
Lemma session_ok T R : shadow T R -> restarts_always T R -> forall texts fresh b s,
  Forall2 (fun l r => transcode T l = Ok r) texts fresh -> R b s (tc_init T) -> tc_wf T (tc_init T) = true ->
  session T s texts = Ok (accumulated b fresh).
Proof.
  intros H A texts fresh b s F. revert b s. induction F as [|l [o k] texts fresh E F IH]; intros b s Hr W; cbn [session accumulated]; [reflexivity|].
  destruct (transcode_inv _ _ _ _ E) as (t1 & w & t2 & w' & E1 & E2 & -> & ->).
  destruct (sh_feed T R H _ _ _ _ _ _ Hr E1) as (s1 & Q1 & R1). destruct (sh_end T R H _ _ _ _ _ R1 E2) as (s2 & Q2 & R2).
  rewrite Q1. cbn [bind]. rewrite Q2. cbn [bind]. pose proof (sh_wf T R H _ _ _ R2) as F2.
  rewrite (IH (b && tc_wf T t2) s2); [cbn [bind]; now rewrite F2| |exact W].
  eapply sh_trans; [exact H|exact R2|]. eapply A. exact E2.
Qed.

(* the UTF-8 transcoders *)
Record stuck_spec (T : tcdr) (R : bool -> tc_st T -> tc_st T -> Prop) (stuck : tc_st T -> Prop) : Prop := {
  st_wf : forall s, stuck s -> tc_wf T s = false;
  st_enter : forall s t w, tc_end T s = Ok (t, w) -> tc_partial T s = true -> stuck t;
  st_op : forall s u, stuck s -> u < 2 ^ 8 -> exists t t' w, tc_op T s u = Ok (t, w) /\ tc_op T (tc_init T) 0xFF = Ok (t', w) /\ R false t t';
  st_end : forall s, stuck s -> exists t w, tc_end T s = Ok (t, w) /\ stuck t /\ transcode T [0xFF] = Ok (w, false);
  st_R : forall b s t, R b s t -> stuck t -> stuck s }.
Lemma session_8 T R stuck : shadow T R -> restarts T R -> stuck_spec T R stuck -> tc_wf T (tc_init T) = true ->
  forall texts fresh (k : bool) b s, Forall (Forall (fun u => u < 2 ^ 8)) texts -> Forall2 (fun l r => transcode T l = Ok r) (seen T k texts) fresh ->
  (if k then stuck s /\ b = false else R b s (tc_init T)) -> session T s texts = Ok (accumulated b fresh).
Proof.
  intros H A K W. induction texts as [|l texts IH]; intros fresh k b s B F J; cbn [session seen] in *.
  - inversion F; subst. reflexivity.
  - inversion B as [|? ? Bl B']; subst. destruct k.
    + destruct J as [J ->]. destruct l as [|u l].
      * inversion F as [|? [o c] ? fresh' E F']; subst. destruct (st_end T R stuck K s J) as (t & w & Q & J' & E').
        rewrite E' in E. injection E as <- <-. cbn [feed bind]. rewrite Q. cbn [bind]. rewrite (IH fresh' true false t B' F' (conj J' eq_refl)). cbn [bind accumulated app andb].
        now rewrite (st_wf T R stuck K t J').
      * inversion F as [|? [o c] ? fresh' E F']; subst. destruct (transcode_inv _ _ _ _ E) as (t1 & w & t2 & w' & E1 & E2 & -> & ->).
        inversion Bl as [|? ? Bu Bl']; subst. cbn [feed] in E1. destruct (st_op T R stuck K s u J Bu) as (p & p' & x & Q & Q' & Rp). rewrite Q' in E1. cbn [bind] in E1.
        destruct (feed T p' l) as [[t1' w1]| |] eqn:E3; cbn [bind] in E1; try discriminate. injection E1 as <- <-.
        destruct (sh_feed T R H _ _ _ _ _ _ Rp E3) as (s1 & Q1 & R1). destruct (sh_end T R H _ _ _ _ _ R1 E2) as (s2 & Q2 & R2).
        cbn [feed]. rewrite Q. cbn [bind]. rewrite Q1. cbn [bind]. rewrite Q2. cbn [bind]. rewrite (sh_wf T R H _ _ _ R2). cbn [andb].
        assert (P : partial_after T (0xFF :: l) = tc_partial T t1') by (unfold partial_after; cbn [feed]; rewrite Q'; cbn [bind]; rewrite E3; reflexivity).
        rewrite P in F'. rewrite (IH fresh' (tc_partial T t1') false s2 B' F'); [reflexivity|]. destruct (tc_partial T t1') eqn:X.
        -- split; [|reflexivity]. eapply st_R; [exact K|exact R2|]. eapply st_enter; eauto.
        -- exact (sh_trans T R H false _ _ _ _ R2 (A _ _ _ E2 X)).
    + inversion F as [|? [o c] ? fresh' E F']; subst. destruct (transcode_inv _ _ _ _ E) as (t1 & w & t2 & w' & E1 & E2 & -> & ->).
      destruct (sh_feed T R H _ _ _ _ _ _ J E1) as (s1 & Q1 & R1). destruct (sh_end T R H _ _ _ _ _ R1 E2) as (s2 & Q2 & R2).
      rewrite Q1. cbn [bind]. rewrite Q2. cbn [bind accumulated]. rewrite (sh_wf T R H _ _ _ R2).
      assert (P : partial_after T l = tc_partial T t1) by (unfold partial_after; now rewrite E1). rewrite P in F'.
      rewrite (IH fresh' (tc_partial T t1) (b && tc_wf T t2) s2 B' F'); [reflexivity|]. destruct (tc_partial T t1) eqn:X.
      * pose proof (st_enter T R stuck K _ _ _ E2 X) as Z. split; [eapply st_R; eauto|]. now rewrite (st_wf T R stuck K _ Z), andb_false_r.
      * eapply sh_trans; [exact H|exact R2|]. eapply A; eauto.
Qed.

(* --- the base transcoders --- *)
Definition R32 (b s s' : bool) : Prop := s = b && s'.
Definition R8 (b : bool) (s s' : s8) : Prop := s8_state s = s8_state s' /\ (s8_state s' <> accept -> s8_cp s = s8_cp s') /\ s8_wf s = b && s8_wf s'.
Definition R16 (b : bool) (s s' : s16) : Prop := s16_has s = s16_has s' /\ (s16_has s' = true -> s16_high s = s16_high s') /\ s16_wf s = b && s16_wf s'.
Lemma R32_call8 fuel b s s' u t' w : R32 b s s' -> t32_8_call fuel s' u = Ok (t', w) -> exists t, t32_8_call fuel s u = Ok (t, w) /\ R32 b t t'.
Proof.
  revert s s' u. induction fuel as [|n IH]; intros s s' u Hr E; cbn [t32_8_call] in *; [discriminate|].
  assert (Z : R32 b false false) by (unfold R32; now rewrite andb_false_r).
  destruct (u <? 0x80); [injection E as <- <-; eauto|]. destruct (u <? 0x800); [injection E as <- <-; eauto|].
  destruct (is_surrogate u); [exact (IH false false _ Z E)|]. destruct (u <? 0x10000); [injection E as <- <-; eauto|].
  destruct (u <=? max_code_point); [injection E as <- <-; eauto|]. exact (IH false false _ Z E).
Qed.
Lemma R32_call16 fuel b s s' u t' w : R32 b s s' -> t32_16_call fuel s' u = Ok (t', w) -> exists t, t32_16_call fuel s u = Ok (t, w) /\ R32 b t t'.
Proof.
  revert s s' u t' w. induction fuel as [|n IH]; intros s s' u t' w Hr E; cbn [t32_16_call] in *; [discriminate|].
  assert (Z : R32 b false false) by (unfold R32; now rewrite andb_false_r).
  destruct (is_surrogate u || (max_code_point <? u)).
  - destruct (t32_16_call n s' replacement_char) as [[x y]| |] eqn:Q; cbn [bind] in E; try discriminate. injection E as <- <-.
    destruct (IH _ _ _ _ _ Hr Q) as (t & Q' & _). rewrite Q'. cbn [bind]. eauto.
  - destruct (u <=? 0xFFFF); injection E as <- <-; eauto.
Qed.
Lemma R32_trans b c s t u : R32 b s t -> R32 c t u -> R32 (b && c) s u.
Proof. unfold R32. intros -> ->. now rewrite andb_assoc. Qed.
Lemma sh_32_8 : shadow t32_8 R32.
Proof.
  split; cbn [tc_st tc_op tc_end tc_wf tc_partial t32_8]; auto; try (intros; unfold R32; reflexivity).
  - intros. eapply R32_call8; eauto.
  - intros b s s' t' w Hr E. injection E as <- <-. eauto.
  - exact R32_trans.
Qed.
Lemma sh_32_16 : shadow t32_16 R32.
Proof.
  split; cbn [tc_st tc_op tc_end tc_wf tc_partial t32_16]; auto; try (intros; unfold R32; reflexivity).
  - intros. eapply R32_call16; eauto.
  - intros b s s' t' w Hr E. injection E as <- <-. eauto.
  - exact R32_trans.
Qed.
Lemma sh_32_32 : shadow t32_32 R32.
Proof.
  split; cbn [tc_st tc_op tc_end tc_wf tc_partial t32_32]; auto; try (intros; unfold R32; reflexivity).
  - unfold t32_32_call. intros b s s' u t' w Hr E. destruct (_ || _); injection E as <- <-; eexists; split; try reflexivity; auto. unfold R32. now rewrite andb_false_r.
  - intros b s s' t' w Hr E. injection E as <- <-. eauto.
  - exact R32_trans.
Qed.
Lemma sh_8 : shadow t8_32 R8.
Proof.
  split; cbn [tc_st tc_op tc_end tc_wf tc_partial t8_32].
  - unfold t8_32_call. intros b s s' u t' w (H1 & H2 & H3) E. rewrite H1.
    destruct (nth_error utf8d (N.to_nat u)) as [ty|]; [|discriminate].
    assert (C : (if negb (s8_state s' =? accept) then N.lor (N.land u 63) (N.shiftl (s8_cp s) 6 mod 2 ^ 32) else N.land (N.shiftr 255 ty) u)
      = (if negb (s8_state s' =? accept) then N.lor (N.land u 63) (N.shiftl (s8_cp s') 6 mod 2 ^ 32) else N.land (N.shiftr 255 ty) u)).
    { destruct (N.eqb_spec (s8_state s') accept) as [Q|Q]; cbn [negb]; [reflexivity|]. now rewrite (H2 Q). }
    rewrite C. destruct (nth_error utf8d (N.to_nat (256 + s8_state s' + ty))) as [st|]; [|discriminate].
    destruct (st =? accept); [injection E as <- <-; eexists; split; [reflexivity|]; split; [reflexivity|split; [reflexivity|exact H3]]|].
    destruct (st =? reject); injection E as <- <-; eexists; (split; [reflexivity|]); (split; [reflexivity|split; [reflexivity|]]); cbn; [now rewrite andb_false_r|exact H3].
  - unfold t8_32_end. intros b s s' t' w (H1 & H2 & H3) E. rewrite H1. destruct (N.eqb_spec (s8_state s') accept) as [Q|Q]; cbn [negb] in *; injection E as <- <-.
    + eexists; split; [reflexivity|]. split; [exact H1|split; [exact H2|exact H3]].
    + eexists; split; [reflexivity|]. split; [reflexivity|split; [intros _; exact (H2 Q)|]]. cbn. now rewrite andb_false_r.
  - intros b s s' (_ & _ & H). exact H.
  - intros b s s' (H & _ & _). now rewrite H.
  - intros s. repeat split.
  - intros b c s t u (A1 & A2 & A3) (B1 & B2 & B3). split; [congruence|split].
    + intros Q. rewrite A2 by congruence. auto.
    + rewrite A3, B3. apply andb_assoc.
Qed.
Lemma sh_16 : shadow t16_32 R16.
Proof.
  split; cbn [tc_st tc_op tc_end tc_wf tc_partial t16_32].
  - unfold t16_32_call. intros b s s' u t' w (H1 & H2 & H3) E. rewrite H1. destruct (s16_has s') eqn:Q; cbn [negb] in *.
    + rewrite (H2 eq_refl). destruct (is_low_surrogate u); [injection E as <- <-; eexists; split; [reflexivity|]; repeat split; auto|].
      destruct (is_high_surrogate u).
      * destruct (adjusted_high u); cbn [bind] in *; try discriminate. injection E as <- <-. eexists; split; [reflexivity|]. repeat split. cbn. now rewrite andb_false_r.
      * injection E as <- <-; eexists; split; [reflexivity|]; repeat split. cbn. now rewrite andb_false_r.
    + destruct (is_high_surrogate u).
      * destruct (adjusted_high u); cbn [bind] in *; try discriminate. injection E as <- <-. eexists; split; [reflexivity|]. repeat split. exact H3.
      * destruct (is_low_surrogate u); injection E as <- <-; eexists; (split; [reflexivity|]); repeat split; auto; cbn; try discriminate; try (now rewrite andb_false_r); congruence.
  - unfold t16_32_end. intros b s s' t' w (H1 & H2 & H3) E. rewrite H1. destruct (s16_has s') eqn:Q; injection E as <- <-; eexists; (split; [reflexivity|]).
    + repeat split. cbn. now rewrite andb_false_r.
    + split; [congruence|split; [congruence|exact H3]].
  - intros b s s' (_ & _ & H). exact H.
  - intros b s s' (H & _ & _). exact H.
  - intros s. repeat split.
  - intros b c s t u (A1 & A2 & A3) (B1 & B2 & B3). split; [congruence|split].
    + intros Q. rewrite A2 by congruence. auto.
    + rewrite A3, B3. apply andb_assoc.
Qed.
Lemma ra_32_8 : restarts_always t32_8 R32. Proof. intros s t w E. cbn. unfold R32. now rewrite andb_true_r. Qed.
Lemma ra_32_16 : restarts_always t32_16 R32. Proof. intros s t w E. cbn. unfold R32. now rewrite andb_true_r. Qed.
Lemma ra_32_32 : restarts_always t32_32 R32. Proof. intros s t w E. cbn. unfold R32. now rewrite andb_true_r. Qed.
Lemma ra_16 : restarts_always t16_32 R16.
Proof.
  intros s t w E. cbn [tc_end t16_32] in E. unfold t16_32_end in E. cbn [tc_wf tc_init t16_32]. destruct (s16_has s) eqn:Q; injection E as <- <-; repeat split; cbn; auto; try discriminate.
  now rewrite andb_true_r.
Qed.
Lemma rs_8 : restarts t8_32 R8.
Proof.
  intros s t w E P. cbn [tc_end tc_partial t8_32] in E, P. unfold t8_32_end in E. rewrite P in E. injection E as <- <-. apply negb_false_iff, N.eqb_eq in P.
  split; [exact P|split]; cbn; [intros Q; now elim Q|now rewrite andb_true_r].
Qed.
Definition stuck8 (s : s8) : Prop := s8_state s = reject /\ s8_wf s = false.
Lemma cls_small u : u < 256 -> cls u < 12.
Proof.
  intros H. assert (B : forallb (fun k => cls (N.of_nat k) <? 12) (seq 0 256) = true) by (vm_compute; reflexivity).
  rewrite forallb_forall in B. specialize (B (N.to_nat u)). rewrite in_seq, N2Nat.id in B. apply N.ltb_lt. apply B. lia.
Qed.
Lemma reject_row c : c < 12 -> nth_error utf8d (N.to_nat (256 + reject + c)) = Some reject.
Proof.
  intros H. assert (B : forallb (fun k => match nth_error utf8d (N.to_nat (256 + reject + N.of_nat k)) with Some x => x =? reject | None => false end) (seq 0 12) = true) by (vm_compute; reflexivity).
  rewrite forallb_forall in B. specialize (B (N.to_nat c)). rewrite in_seq, N2Nat.id in B. specialize (B ltac:(lia)).
  destruct (nth_error utf8d _); [|discriminate]. apply N.eqb_eq in B. now subst.
Qed.
Lemma stuck_call s u : stuck8 s -> u < 2 ^ 8 -> exists cp, t8_32_call s u = Ok (S8 cp false accept, [fffd]).
Proof.
  intros [A B] H. change (2 ^ 8) with 256 in H. unfold t8_32_call. rewrite cls_table by exact H. rewrite A. rewrite reject_row by now apply cls_small.
  change (reject =? accept) with false. change (reject =? reject) with true. cbv iota. cbv zeta. eexists. reflexivity.
Qed.
Lemma init_call : exists cp, t8_32_call (tc_init t8_32) 0xFF = Ok (S8 cp false accept, [fffd]).
Proof. eexists. vm_compute. reflexivity. Qed.
Lemma ss_8 : stuck_spec t8_32 R8 stuck8.
Proof.
  split; cbn [tc_st tc_op tc_end tc_wf tc_partial t8_32].
  - intros s H. apply H.
  - intros s t w E P. unfold t8_32_end in E. rewrite P in E. injection E as <- <-. split; reflexivity.
  - intros s u Hs Hu. destruct (stuck_call s u Hs Hu) as [cp E]. destruct init_call as [cp' E']. eexists _, _, _. split; [exact E|]. split; [exact E'|]. repeat split. cbn. intros Q; now elim Q.
  - intros s [A B]. unfold t8_32_end. rewrite A. change (reject =? accept) with false. cbn [negb]. eexists _, _. split; [reflexivity|]. split; [split; reflexivity|]. vm_compute. reflexivity.
  - intros b s t (A & _ & C) [B D]. split; [congruence|]. rewrite C, D. apply andb_false_r.
Qed.

(* --- triangulators --- *)
Section Tri.
Variables (cap : nat) (I O : tcdr) (RI : bool -> tc_st I -> tc_st I -> Prop) (RO : bool -> tc_st O -> tc_st O -> Prop).
Definition RT (b : bool) (s s' : tc_st I * tc_st O) : Prop := exists x y, b = x && y /\ RI x (fst s) (fst s') /\ RO y (snd s) (snd s').
Lemma sh_tri : shadow I RI -> shadow O RO -> shadow (triangulator cap I O) RT.
Proof.
  intros HI HO. split; cbn [tc_st tc_op tc_end tc_wf tc_partial triangulator].
  - unfold tri_op. intros b s s' u t' w (x & y & -> & Hx & Hy) E. destruct (tc_op I (fst s') u) as [[i z]| |] eqn:Q; cbn [bind] in E; try discriminate.
    destruct (sh_op I RI HI _ _ _ _ _ _ Hx Q) as (i' & -> & Hi). cbn [bind]. destruct (Nat.ltb cap (length z)); [discriminate|].
    destruct (feed O (snd s') z) as [[o v]| |] eqn:Q2; cbn [bind] in E; try discriminate. injection E as <- <-.
    destruct (sh_feed O RO HO _ _ _ _ _ _ Hy Q2) as (o' & -> & Ho). cbn [bind]. eexists. split; [reflexivity|]. exists x, y. auto.
  - unfold tri_end. intros b s s' t' w (x & y & -> & Hx & Hy) E. destruct (tc_end I (fst s')) as [[i z]| |] eqn:Q; cbn [bind] in E; try discriminate.
    destruct (sh_end I RI HI _ _ _ _ _ Hx Q) as (i' & -> & Hi). cbn [bind]. destruct (Nat.ltb cap (length z)); [discriminate|].
    destruct (feed O (snd s') z) as [[o v]| |] eqn:Q2; cbn [bind] in E; try discriminate. destruct (tc_end O o) as [[o2 v2]| |] eqn:Q3; cbn [bind] in E; try discriminate. injection E as <- <-.
    destruct (sh_feed O RO HO _ _ _ _ _ _ Hy Q2) as (o' & -> & Ho). cbn [bind]. destruct (sh_end O RO HO _ _ _ _ _ Ho Q3) as (o'' & -> & Ho2). cbn [bind]. eexists. split; [reflexivity|]. exists x, y. auto.
  - intros b s s' (x & y & -> & Hx & Hy). rewrite (sh_wf I RI HI _ _ _ Hx), (sh_wf O RO HO _ _ _ Hy).
    destruct x, y, (tc_wf I (fst s')), (tc_wf O (snd s')); reflexivity.
  - intros b s s' (x & y & -> & Hx & _). exact (sh_partial I RI HI _ _ _ Hx).
  - intros s. exists true, true. split; [reflexivity|split; [apply (sh_refl I RI HI)|apply (sh_refl O RO HO)]].
  - intros b c s t u (x & y & -> & Hx & Hy) (x' & y' & -> & Hx' & Hy'). exists (x && x'), (y && y').
    split; [destruct x, y, x', y'; reflexivity|]. split; [eapply sh_trans; eauto|eapply (sh_trans O RO HO); eauto].
Qed.
Hypothesis RO_any : forall s, RO (tc_wf O s) s (tc_init O).
Lemma ra_tri : restarts_always I RI -> restarts_always (triangulator cap I O) RT.
Proof.
  intros A s t w E. cbn [tc_st tc_end tc_wf tc_init triangulator] in *. unfold tri_end in E. destruct (tc_end I (fst s)) as [[i z]| |] eqn:Q; cbn [bind] in E; try discriminate.
  destruct (Nat.ltb cap (length z)); [discriminate|]. destruct (feed O (snd s) z) as [[o v]| |]; cbn [bind] in E; try discriminate.
  destruct (tc_end O o) as [[o2 v2]| |]; cbn [bind] in E; try discriminate. injection E as <- <-. exists (tc_wf I i), (tc_wf O o2). cbn [fst snd]. split; [reflexivity|split; [eapply A; exact Q|apply RO_any]].
Qed.
Lemma rs_tri : restarts I RI -> restarts (triangulator cap I O) RT.
Proof.
  intros A s t w E P. cbn [tc_st tc_end tc_wf tc_init tc_partial triangulator] in *. unfold tri_end in E. destruct (tc_end I (fst s)) as [[i z]| |] eqn:Q; cbn [bind] in E; try discriminate.
  destruct (Nat.ltb cap (length z)); [discriminate|]. destruct (feed O (snd s) z) as [[o v]| |]; cbn [bind] in E; try discriminate.
  destruct (tc_end O o) as [[o2 v2]| |]; cbn [bind] in E; try discriminate. injection E as <- <-. exists (tc_wf I i), (tc_wf O o2). cbn [fst snd]. split; [reflexivity|split; [eapply A; eauto|apply RO_any]].
Qed.
End Tri.
(* the output side takes U+FFFD in any state, and end_cp adds nothing there *)
Lemma ss_tri O RO f : shadow O RO -> (forall s, RO (tc_wf O s) s (tc_init O)) -> (exists o, feed O (tc_init O) [fffd] = Ok (o, f)) -> (forall s, tc_end O s = Ok (s, [])) ->
  stuck_spec (triangulator 1 t8_32 O) (RT t8_32 O R8 RO) (fun s => stuck8 (fst s)).
Proof.
  intros HO Any (o0 & F0) End. split; cbn [tc_st tc_op tc_end tc_wf tc_init tc_partial triangulator].
  - intros s [_ H]. change (tc_wf t8_32 (fst s)) with (s8_wf (fst s)). now rewrite H.
  - intros s t w E P. unfold tri_end in E. destruct (tc_end t8_32 (fst s)) as [[i z]| |] eqn:Q; cbn [bind] in E; try discriminate.
    destruct (Nat.ltb 1 (length z)); [discriminate|]. destruct (feed O (snd s) z) as [[o v]| |]; cbn [bind] in E; try discriminate.
    destruct (tc_end O o) as [[o2 v2]| |]; cbn [bind] in E; try discriminate. injection E as <- <-. cbn [fst]. eapply (st_enter _ _ _ ss_8); eauto.
  - intros s u Hs Hu. destruct (st_op _ _ _ ss_8 (fst s) u Hs Hu) as (t & t' & w & E & E' & Hr). unfold tri_op. cbn [fst snd]. rewrite E, E'. cbn [bind].
    assert (w = [fffd]) as ->. { destruct init_call as [cp Q]. change (tc_op t8_32) with t8_32_call in E'. rewrite Q in E'. congruence. }
    change (Nat.ltb 1 (length [fffd])) with false. cbv iota. rewrite F0. destruct (sh_feed O RO HO _ _ _ _ _ _ (Any (snd s)) F0) as (o & -> & Ho). cbn [bind].
    eexists _, _, _. split; [reflexivity|split; [reflexivity|]]. exists false, (tc_wf O (snd s)). cbn [fst snd andb]. auto.
  - intros s Hs. destruct (st_end _ _ _ ss_8 (fst s) Hs) as (t & w & E & Ht & Ew). unfold tri_end. rewrite E. cbn [bind].
    assert (w = [fffd]) as ->. { assert (Z : transcode t8_32 [0xFF] = Ok ([fffd], false)) by (vm_compute; reflexivity). rewrite Z in Ew. now injection Ew. }
    change (Nat.ltb 1 (length [fffd])) with false. cbv iota. destruct (sh_feed O RO HO _ _ _ _ _ _ (Any (snd s)) F0) as (o & -> & Ho). cbn [bind]. rewrite End. cbn [bind].
    eexists _, _. split; [reflexivity|]. split; [exact Ht|]. unfold transcode. cbn [tc_st tc_init triangulator feed]. cbn [tc_op triangulator]. unfold tri_op. cbn [fst snd].
    destruct init_call as [cp Q]. change (tc_op t8_32) with t8_32_call. rewrite Q. cbn [bind]. change (Nat.ltb 1 (length [fffd])) with false. cbv iota. rewrite F0. cbn [bind tc_end triangulator].
    unfold tri_end. cbn [fst snd]. change (tc_end t8_32 (S8 cp false accept)) with (@Ok (s8 * list N) (S8 cp false accept, [])). cbn [bind length feed]. change (Nat.ltb 1 0) with false. cbv iota.
    rewrite End. cbn [bind tc_wf triangulator fst snd]. rewrite !app_nil_r. reflexivity.
  - intros b s t (x & y & E & Hx & _) Ht. exact (st_R _ _ _ ss_8 x _ _ Hx Ht).
Qed.

Lemma any_32_8 s : R32 (tc_wf t32_8 s) s (tc_init t32_8). Proof. unfold R32; cbn. now rewrite andb_true_r. Qed.
Lemma any_32_16 s : R32 (tc_wf t32_16 s) s (tc_init t32_16). Proof. unfold R32; cbn. now rewrite andb_true_r. Qed.

Lemma reuse T texts fresh : In T [t16_8; t16_16; t16_32; t32_8; t32_16; t32_32] ->
  Forall2 (fun l r => transcode T l = Ok r) texts fresh -> session T (tc_init T) texts = Ok (accumulated true fresh).
Proof.
  intros HT F. cbn [In] in HT. repeat (destruct HT as [<-|HT]); try destruct HT.
  - eapply (session_ok t16_8); [apply (sh_tri 2 t16_32 t32_8 R16 R32 sh_16 sh_32_8)|apply (ra_tri 2 t16_32 t32_8 R16 R32 any_32_8 ra_16)|exact F|exists true, true; repeat split; discriminate|reflexivity].
  - eapply (session_ok t16_16); [apply (sh_tri 2 t16_32 t32_16 R16 R32 sh_16 sh_32_16)|apply (ra_tri 2 t16_32 t32_16 R16 R32 any_32_16 ra_16)|exact F|exists true, true; repeat split; discriminate|reflexivity].
  - eapply (session_ok t16_32); [apply sh_16|apply ra_16|exact F|repeat split|reflexivity].
  - eapply (session_ok t32_8); [apply sh_32_8|apply ra_32_8|exact F|repeat split|reflexivity].
  - eapply (session_ok t32_16); [apply sh_32_16|apply ra_32_16|exact F|repeat split|reflexivity].
  - eapply (session_ok t32_32); [apply sh_32_32|apply ra_32_32|exact F|repeat split|reflexivity].
Qed.
Lemma reuse8 T texts fresh : In T [t8_8; t8_16; t8_32] -> Forall (Forall (fun u => u < 2 ^ 8)) texts ->
  Forall2 (fun l r => transcode T l = Ok r) (seen T false texts) fresh -> session T (tc_init T) texts = Ok (accumulated true fresh).
Proof.
  intros HT B F. cbn [In] in HT. repeat (destruct HT as [<-|HT]); try destruct HT.
  - assert (X : exists o, feed t32_8 (tc_init t32_8) [fffd] = Ok (o, [0xEF; 0xBF; 0xBD])) by (exists true; vm_compute; reflexivity).
    refine (session_8 t8_8 _ _ (sh_tri 1 t8_32 t32_8 R8 R32 sh_8 sh_32_8) (rs_tri 1 t8_32 t32_8 R8 R32 any_32_8 rs_8) (ss_tri t32_8 R32 _ sh_32_8 any_32_8 X (fun s => eq_refl)) eq_refl texts fresh false true _ B F _).
    exists true, true; repeat split.
  - assert (X : exists o, feed t32_16 (tc_init t32_16) [fffd] = Ok (o, [0xFFFD])) by (exists true; vm_compute; reflexivity).
    refine (session_8 t8_16 _ _ (sh_tri 1 t8_32 t32_16 R8 R32 sh_8 sh_32_16) (rs_tri 1 t8_32 t32_16 R8 R32 any_32_16 rs_8) (ss_tri t32_16 R32 _ sh_32_16 any_32_16 X (fun s => eq_refl)) eq_refl texts fresh false true _ B F _).
    exists true, true; repeat split.
  - refine (session_8 t8_32 _ _ sh_8 rs_8 ss_8 eq_refl texts fresh false true _ B F _). repeat split.
Qed.
Lemma seen_whole T texts : Forall (fun l => partial_after T l = false) (removelast texts) -> seen T false texts = texts.
Proof.
  induction texts as [|l texts IH]; intros H; [reflexivity|]. cbn [seen]. f_equal. destruct texts as [|m texts]; [reflexivity|].
  cbn [removelast] in H. inversion H as [|? ? Hl H']; subst. rewrite Hl. apply IH. exact H'.
Qed.
(* the transcoders from UTF-8 always give an answer for the texts seen *)
Lemma seen_bytes T k texts : Forall (Forall (fun u => u < 2 ^ 8)) texts -> Forall (Forall (fun u => u < 2 ^ 8)) (seen T k texts).
Proof.
  assert (X : 0xFF < 2 ^ 8) by reflexivity.
  intros B. revert k. induction B as [|l texts Bl B IH]; intros k; [constructor|]. cbn [seen]. destruct k; [destruct l as [|u l]|]; constructor; auto.
  inversion Bl; subst. constructor; auto.
Qed.
(* partial() after end_cp *)
Lemma after_end T l s w t w' : In T [t16_8; t16_16; t16_32; t32_8; t32_16; t32_32] -> feed T (tc_init T) l = Ok (s, w) -> tc_end T s = Ok (t, w') -> tc_partial T t = false.
Proof.
  intros HT _ E. cbn [In] in HT. repeat (destruct HT as [<-|HT]); try destruct HT; try reflexivity.
  1,2: cbn [tc_end t16_8 t16_16 triangulator] in E; unfold tri_end in E; destruct (tc_end t16_32 (fst s)) as [[i z]| |] eqn:Q; cbn [bind] in E; try discriminate;
    destruct (Nat.ltb 2 (length z)); try discriminate; destruct (feed _ (snd s) z) as [[o v]| |]; cbn [bind] in E; try discriminate; destruct (tc_end _ o) as [[o2 v2]| |]; cbn [bind] in E; try discriminate;
    injection E as <- <-; pose proof (ra_16 _ _ _ Q) as R; exact (sh_partial _ _ sh_16 _ _ _ R).
  exact (sh_partial _ _ sh_16 _ _ _ (ra_16 _ _ _ E)).
Qed.
(* a text a fresh transcoder finds well formed leaves no code point under way *)
Lemma wf_not_partial T l o : In T [t8_8; t8_16; t8_32] -> transcode T l = Ok (o, true) -> partial_after T l = false.
Proof.
  intros HT E. destruct (transcode_inv _ _ _ _ E) as (t1 & w & t2 & w' & E1 & E2 & _ & K). unfold partial_after. rewrite E1.
  destruct (tc_partial T t1) eqn:P; [|reflexivity]. exfalso. cbn [In] in HT. repeat (destruct HT as [<-|HT]); try destruct HT.
  - assert (X : exists o, feed t32_8 (tc_init t32_8) [fffd] = Ok (o, [0xEF; 0xBF; 0xBD])) by (exists true; vm_compute; reflexivity).
    pose proof (ss_tri t32_8 R32 _ sh_32_8 any_32_8 X (fun s => eq_refl)) as S. pose proof (st_enter _ _ _ S _ _ _ E2 P) as Z.
    pose proof (st_wf _ _ _ S _ Z) as Y. change (triangulator 1 t8_32 t32_8) with t8_8 in Y. congruence.
  - assert (X : exists o, feed t32_16 (tc_init t32_16) [fffd] = Ok (o, [0xFFFD])) by (exists true; vm_compute; reflexivity).
    pose proof (ss_tri t32_16 R32 _ sh_32_16 any_32_16 X (fun s => eq_refl)) as S. pose proof (st_enter _ _ _ S _ _ _ E2 P) as Z.
    pose proof (st_wf _ _ _ S _ Z) as Y. change (triangulator 1 t8_32 t32_16) with t8_16 in Y. congruence.
  - pose proof (st_enter _ _ _ ss_8 _ _ _ E2 P) as Z. pose proof (st_wf _ _ _ ss_8 _ Z) as Y. congruence.
Qed.
Lemma accumulated_true l : Forall (fun r => snd r = true) l -> accumulated true l = l.
Proof. induction 1 as [|[o k] l H _ IH]; [reflexivity|]. cbn in H. subst. cbn [accumulated andb]. now rewrite IH. Qed.
