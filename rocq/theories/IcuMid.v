(* What the transcoders tell in the middle of their input *)
From Verif Require Import Base ModelIcu SpecIcu SpecMid IcuUtf8 IcuRead8 IcuEnc IcuView IcuByte IcuProps.
Local Open Scope N_scope.
Local Open Scope list_scope.

(* a transcoder that ends without doing anything and answers f instead of well_formed() *)
Definition obs (f : forall T : tcdr, tc_st T -> bool) (T : tcdr) : tcdr :=
  {| tc_st := tc_st T; tc_init := tc_init T; tc_op := tc_op T; tc_end s := Ok (s, []); tc_wf := f T; tc_partial := tc_partial T |}.
Lemma feed_obs f T l : forall s, feed (obs f T) s l = feed T s l.
Proof.
  induction l as [|u l IH]; intros s; [reflexivity|]. cbn [feed]. cbn [tc_op obs].
  destruct (tc_op T s u) as [[s1 w1]| |]; cbn [bind]; try reflexivity. rewrite IH. reflexivity.
Qed.
Section Sim.
Variable f : forall T : tcdr, tc_st T -> bool.
Variables T8 T16 T32 : tcdr.
Notation B := (byte_transcoder T8 T16 T32).
Notation B' := (byte_transcoder (obs f T8) (obs f T16) (obs f T32)).
Definition conv (s : txs T8 T16 T32) : txs (obs f T8) (obs f T16) (obs f T32) :=
  Txs (tx_state s) (tx_buf s)
    (match tx_var s with Vmono => Vmono | V8 t => @V8 (obs f T8) (obs f T16) (obs f T32) t
     | V16 t => @V16 (obs f T8) (obs f T16) (obs f T32) t | V32 t => @V32 (obs f T8) (obs f T16) (obs f T32) t end).
Definition cmap (r : outcome (txs T8 T16 T32 * list N)) := do (s, w) <- r; Ok (conv s, w).
Lemma run8_start_conv b s : run8_start (obs f T8) (obs f T16) (obs f T32) b (conv s) = cmap (run8_start T8 T16 T32 b s).
Proof.
  unfold run8_start. cbn [conv tx_state tx_buf tx_var]. destruct (is_run_mode (tx_state s)); [reflexivity|].
  destruct (tx_var s); try reflexivity. rewrite (feed_obs f T8). cbn [tc_init obs].
  destruct (feed T8 (tc_init T8) _) as [[t w]| |]; reflexivity.
Qed.
Lemma run16_start_conv s : run16_start (obs f T8) (obs f T16) (obs f T32) (conv s) = do t <- run16_start T8 T16 T32 s; Ok (conv t).
Proof.
  unfold run16_start. cbn [conv tx_state tx_buf tx_var]. destruct (is_run_mode (tx_state s)); [reflexivity|].
  destruct (tx_var s); reflexivity.
Qed.
Ltac both := repeat match goal with |- context [bind ?x _] => match x with bom_byte _ => destruct x | next_byte _ => destruct x | set_byte _ _ => destruct x | set_run_mode _ => destruct x end; cbn [bind]; try reflexivity end.
Lemma bom_step_conv s u : bom_step (obs f T8) (obs f T16) (obs f T32) (conv s) u = cmap (bom_step T8 T16 T32 s u).
Proof.
  unfold bom_step. cbn [conv tx_state tx_buf tx_var]. destruct (bom_byte (tx_state s)); cbn [bind]; try reflexivity.
  destruct (u =? a). { destruct (next_byte _); reflexivity. }
  rewrite <- run8_start_conv. reflexivity.
Qed.
Lemma run16_conv s u : run16 (obs f T8) (obs f T16) (obs f T32) (conv s) u = cmap (run16 T8 T16 T32 s u).
Proof.
  unfold run16. cbn [conv tx_state tx_buf tx_var]. destruct (_ || _)%bool; [|reflexivity]. destruct (tx_var s); try reflexivity.
  cbn [tc_op obs]. destruct (tc_op T16 _ _) as [[t w]| |]; cbn [bind]; reflexivity.
Qed.
Lemma run32_conv s u : run32 (obs f T8) (obs f T16) (obs f T32) (conv s) u = cmap (run32 T8 T16 T32 s u).
Proof.
  unfold run32. cbn [conv tx_state tx_buf tx_var]. destruct (_ || _)%bool; [|reflexivity]. destruct (tx_var s); try reflexivity.
  cbn [tc_op obs]. destruct (tc_op T32 _ _) as [[t w]| |]; cbn [bind]; reflexivity.
Qed.
Lemma call_conv s u : tx_call (obs f T8) (obs f T16) (obs f T32) (conv s) u = cmap (tx_call T8 T16 T32 s u).
Proof.
  unfold tx_call. cbv zeta. change (tx_state (conv s)) with (tx_state s). change (tx_buf (conv s)) with (tx_buf s).
  destruct (tx_state s =? st_start).
  { unfold start_state. cbv zeta. cbn [conv tx_state tx_buf tx_var]. do 4 (destruct (_ =? _); [reflexivity|]). rewrite <- run8_start_conv. reflexivity. }
  destruct (tx_state s =? st_utf8_bom_byte2).
  { destruct (bom_byte _); cbn [bind]; try reflexivity. rewrite <- run8_start_conv. reflexivity. }
  destruct (tx_state s =? st_utf16_be_bom_byte1).
  { destruct (bom_byte _); cbn [bind]; try reflexivity. destruct (u =? a).
    - set (s1 := Txs (tx_state s) (buf_set (tx_buf s) (byte_no (tx_state s)) u) (tx_var s)).
      change (Txs (tx_state s) (buf_set (tx_buf s) (byte_no (tx_state s)) u) (tx_var (conv s))) with (conv s1).
      rewrite run16_start_conv. destruct (run16_start T8 T16 T32 s1); reflexivity.
    - rewrite <- run8_start_conv. reflexivity. }
  destruct (tx_state s =? st_utf32_or_16_le_bom_byte2).
  { destruct (negb _); [|apply bom_step_conv]. rewrite run16_start_conv. destruct (run16_start T8 T16 T32 s); reflexivity. }
  destruct (_ || _ || _ || _)%bool; [apply bom_step_conv|].
  destruct (_ || _)%bool.
  { destruct (u =? _); [|rewrite <- run8_start_conv; reflexivity]. destruct (set_byte _ _); cbn [bind]; try reflexivity. destruct (set_run_mode _); reflexivity. }
  destruct (_ || _ || _ || _ || _ || _ || _ || _)%bool. { destruct (next_byte _); reflexivity. }
  destruct (tx_state s =? st_run_8).
  { cbn [conv tx_var]. destruct (tx_var s); try reflexivity. cbn [tc_op obs]. destruct (tc_op T8 _ _) as [[t w]| |]; reflexivity. }
  destruct (_ || _)%bool; [apply run16_conv|]. destruct (_ || _)%bool; [apply run32_conv|]. reflexivity.
Qed.
Lemma feed_conv l : forall s, feed B' (conv s) l = cmap (feed B s l).
Proof.
  induction l as [|u l IH]; intros s; [reflexivity|]. cbn [feed]. cbn [tc_op byte_transcoder]. rewrite call_conv.
  destruct (tx_call T8 T16 T32 s u) as [[s1 w1]| |]; cbn [bind cmap]; try reflexivity.
  change (feed (byte_transcoder (obs f T8) (obs f T16) (obs f T32)) (conv s1) l) with (feed B' (conv s1) l). rewrite IH.
  unfold cmap. change (txs T8 T16 T32) with (tc_st B). destruct (feed B s1 l) as [[s2 w2]| |]; reflexivity.
Qed.
Definition look (s : txs T8 T16 T32) : bool :=
  match tx_var s with Vmono => true | V8 t => f T8 t | V16 t => f T16 t | V32 t => f T32 t end.
Lemma seen l s w : feed B (tc_init B) l = Ok (s, w) -> tx_var s <> Vmono -> transcode B' l = Ok (w, look s).
Proof.
  intros E M. unfold transcode. change (tc_init B') with (conv (tc_init B)). rewrite feed_conv, E. cbn [bind cmap].
  cbn [tc_end byte_transcoder]. unfold tx_end. unfold look. cbn [conv tx_var]. destruct (tx_var s); [now elim M|..]; cbn [tc_end obs bind tc_wf byte_transcoder tx_wf tx_var]; rewrite app_nil_r; reflexivity.
Qed.
Lemma seen_inner T l : transcode (obs f T) l = do (s, w) <- feed T (tc_init T) l; Ok (w, f T s).
Proof.
  unfold transcode. rewrite feed_obs. cbn [tc_init obs]. destruct (feed T (tc_init T) l) as [[s w]| |]; cbn; try reflexivity. now rewrite app_nil_r.
Qed.
End Sim.

(* --- well_formed() --- *)
Record sticky (T : tcdr) : Prop := {
  st_op : forall s u s' w, tc_op T s u = Ok (s', w) -> tc_wf T s = false -> tc_wf T s' = false;
  st_end : forall s s' w, tc_end T s = Ok (s', w) -> tc_wf T s = false -> tc_wf T s' = false }.
Lemma sticky_feed T l : sticky T -> forall s s' w, feed T s l = Ok (s', w) -> tc_wf T s = false -> tc_wf T s' = false.
Proof.
  intros K. induction l as [|u l IH]; intros s s' w E F; cbn [feed] in E.
  - injection E as <- _. exact F.
  - destruct (tc_op T s u) as [[s1 w1]| |] eqn:E1; cbn [bind] in E; try discriminate.
    destruct (feed T s1 l) as [[s2 w2]| |] eqn:E2; cbn [bind] in E; try discriminate. injection E as <- _.
    eapply IH; [exact E2|]. eapply st_op; [exact K|exact E1|exact F].
Qed.
Lemma scalar_dec c : scalar c \/ ~ scalar c.
Proof. unfold scalar. lia. Qed.
Lemma sticky_enc O form : encoder O form -> sticky O.
Proof.
  intros H. split.
  - intros s u s' w E F. destruct (scalar_dec u) as [S|S].
    + destruct (enc_good _ _ H s u S) as (o & x & E1 & _ & W). rewrite E in E1. injection E1 as <- _. congruence.
    + destruct (enc_bad _ _ H s u S) as (o & x & E1 & _ & W). rewrite E in E1. injection E1 as <- _. exact W.
  - intros s s' w E F. rewrite (enc_end _ _ H) in E. injection E as <- _. exact F.
Qed.
Lemma sticky_8 : sticky t8_32.
Proof.
  split.
  - intros [cp wf st] u s' w E F. cbn [tc_wf t8_32 s8_wf] in *. subst wf. cbn [tc_op t8_32] in E. unfold t8_32_call in E. cbn [s8_state s8_cp s8_wf] in E.
    destruct (nth_error utf8d (N.to_nat u)); [|discriminate]. cbv zeta in E. destruct (nth_error utf8d _); [|discriminate].
    destruct (_ =? accept); [injection E as <- _; reflexivity|]. destruct (_ =? reject); injection E as <- _; reflexivity.
  - intros [cp wf st] s' w E F. cbn [tc_wf t8_32 s8_wf tc_end] in *. subst wf. unfold t8_32_end in E. destruct (negb _); injection E as <- _; reflexivity.
Qed.
Lemma sticky_16 : sticky t16_32.
Proof.
  split.
  - intros [h has wf] u s' w E F. cbn [tc_wf t16_32 s16_wf] in *. subst wf. cbn [tc_op t16_32] in E. unfold t16_32_call in E. cbn [s16_high s16_has s16_wf] in E.
    destruct (negb has); [destruct (is_high_surrogate u)|destruct (is_low_surrogate u); [|destruct (is_high_surrogate u)]].
    + destruct (adjusted_high u); cbn [bind] in E; try discriminate. injection E as <- _. reflexivity.
    + destruct (is_low_surrogate u); injection E as <- _; reflexivity.
    + injection E as <- _. reflexivity.
    + destruct (adjusted_high u); cbn [bind] in E; try discriminate. injection E as <- _. reflexivity.
    + injection E as <- _. reflexivity.
  - intros [h has wf] s' w E F. cbn [tc_wf t16_32 s16_wf tc_end] in *. subst wf. unfold t16_32_end in E. cbn [s16_has] in E. destruct has; injection E as <- _; reflexivity.
Qed.
Lemma sticky_tri cap I O : sticky I -> sticky O -> sticky (triangulator cap I O).
Proof.
  intros KI KO. split.
  - intros [i o] u [i' o'] w E F. cbn [tc_op triangulator tc_wf fst snd] in *. unfold tri_op in E. cbn [fst snd] in E.
    destruct (tc_op I i u) as [[i1 w1]| |] eqn:EI; cbn [bind] in E; try discriminate. destruct (Nat.ltb _ _); [discriminate|].
    destruct (feed O o w1) as [[o1 w2]| |] eqn:EO; cbn [bind] in E; try discriminate. injection E as <- <- _.
    apply andb_false_iff in F. apply andb_false_iff. destruct F as [F|F]; [left; eapply st_op; eauto|right; eapply sticky_feed; eauto].
  - intros [i o] [i' o'] w E F. cbn [tc_end triangulator tc_wf fst snd] in *. unfold tri_end in E. cbn [fst snd] in E.
    destruct (tc_end I i) as [[i1 w1]| |] eqn:EI; cbn [bind] in E; try discriminate. destruct (Nat.ltb _ _); [discriminate|].
    destruct (feed O o w1) as [[o1 w2]| |] eqn:EO; cbn [bind] in E; try discriminate.
    destruct (tc_end O o1) as [[o2 w3]| |] eqn:EE; cbn [bind] in E; try discriminate. injection E as <- <- _.
    apply andb_false_iff in F. apply andb_false_iff. destruct F as [F|F]; [left; eapply (st_end I); eauto|right].
    eapply (st_end O); eauto. eapply sticky_feed; eauto.
Qed.
(* from what could still come, to well_formed () *)
Lemma text_of T form cs : encoder T form -> Forall scalar cs -> exists out, text form cs out.
Proof.
  intros H. induction 1 as [|c cs S _ [out IH]]; [exists []; constructor|].
  destruct (enc_good _ _ H (tc_init T) c S) as (o & w & _ & F & _). exists (w ++ out). now constructor.
Qed.
Lemma begins_wf T reads (fin form : N -> list N -> Prop) bound l s w : converts T reads form bound -> sticky T ->
  (forall l cs, text fin cs l -> reads l cs true) -> (forall l cs, text fin cs l -> Forall (fun u => u < bound) l) ->
  (forall l cs, text fin cs l -> exists out, text form cs out) ->
  feed T (tc_init T) l = Ok (s, w) -> begins fin l -> tc_wf T s = true.
Proof.
  intros C K R U X E (more & cs & H). destruct (X _ _ H) as (out & TO).
  assert (Y : transcode T (l ++ more) = Ok (out, true)) by (apply C; eauto).
  destruct (tc_wf T s) eqn:F; [reflexivity|]. exfalso. unfold transcode in Y. rewrite feed_app, E in Y. cbn [bind] in Y.
  destruct (feed T s more) as [[s1 w1]| |] eqn:E1; cbn [bind] in Y; try discriminate.
  destruct (tc_end T s1) as [[s2 w2]| |] eqn:E2; cbn [bind] in Y; try discriminate. injection Y as _ Y.
  rewrite (st_end T K s1 s2 w2 E2) in Y; [discriminate|]. eapply sticky_feed; eauto.
Qed.
Lemma wf_begins T reads (fin form : N -> list N -> Prop) bound l s w : converts T reads form bound ->
  (forall l cs, reads l cs true -> text fin cs l) -> Forall (fun u => u < bound) l ->
  feed T (tc_init T) l = Ok (s, w) ->
  (exists more s' w', Forall (fun u => u < bound) more /\ feed T s more = Ok (s', w') /\ tc_end T s' = Ok (s', []) /\ tc_wf T s' = true) -> begins fin l.
Proof.
  intros C R F E (more & s' & w' & Fm & E1 & E2 & W). exists more.
  assert (Y : transcode T (l ++ more) = Ok (w ++ w', true)).
  { unfold transcode. rewrite feed_app, E. cbn [bind]. rewrite E1. cbn [bind]. rewrite E2. cbn [bind]. now rewrite app_nil_r, W. }
  apply C in Y; [|apply Forall_app; auto]. destruct Y as (cs & Q & _). eauto.
Qed.
Lemma tri_inner cap I O l : forall i o s w, feed (triangulator cap I O) (i, o) l = Ok (s, w) -> exists w', feed I i l = Ok (fst s, w').
Proof.
  induction l as [|u l IH]; intros i o s w E; cbn [feed] in E.
  - injection E as <- _. exists []. reflexivity.
  - cbn [tc_op triangulator] in E. unfold tri_op in E. cbn [fst snd] in E.
    destruct (tc_op I i u) as [[i1 w1]| |] eqn:EI; cbn [bind] in E; try discriminate. destruct (Nat.ltb _ _); [discriminate|].
    destruct (feed O o w1) as [[o1 w2]| |] eqn:EO; cbn [bind] in E; try discriminate.
    change (tc_st I * tc_st O)%type with (tc_st (triangulator cap I O)) in E.
    destruct (feed (triangulator cap I O) (i1, o1) l) as [[s2 w3]| |] eqn:E3; cbn [bind] in E; try discriminate. injection E as <- _.
    destruct (IH _ _ _ _ E3) as (w' & E4). cbn [feed]. rewrite EI. cbn [bind]. rewrite E4. eexists. reflexivity.
Qed.
(* UTF-8 *)
Definition states8 : list N := [0; 24; 36; 48; 60; 72; 84; 96].
Lemma table_ok : forallb (fun i => existsb (N.eqb (nth i utf8d 0)) (12 :: states8)) (seq 256 (length utf8d - 256)) = true.
Proof. vm_compute. reflexivity. Qed.
Lemma op_state s u s' w : t8_32_call s u = Ok (s', w) -> In (s8_state s') states8.
Proof.
  unfold t8_32_call. destruct (nth_error utf8d (N.to_nat u)) as [ty|]; [|discriminate]. cbv zeta.
  destruct (nth_error utf8d (N.to_nat (256 + s8_state s + ty))) as [st|] eqn:E; [|discriminate].
  pose proof (nth_error_In _ _ E) as _.
  assert (L : (N.to_nat (256 + s8_state s + ty) < length utf8d)%nat) by (apply nth_error_Some; congruence).
  pose proof table_ok as T. rewrite forallb_forall in T. specialize (T (N.to_nat (256 + s8_state s + ty))).
  assert (I : In (N.to_nat (256 + s8_state s + ty)) (seq 256 (length utf8d - 256))) by (apply in_seq; lia).
  specialize (T I). rewrite (nth_error_nth _ _ 0 E) in T. apply existsb_exists in T. destruct T as (x & Hx & Ex). apply N.eqb_eq in Ex. subst x.
  destruct (N.eqb_spec st accept) as [->|NA]; [intros Q; injection Q as <- _; cbn; auto|].
  destruct (N.eqb_spec st reject) as [->|NR]; intros Q; injection Q as <- _; cbn [s8_state]; [cbn; auto|].
  destruct Hx as [<-|Hx]; [now elim NR|exact Hx].
Qed.
Lemma feed_state l : forall s s' w, feed t8_32 s l = Ok (s', w) -> In (s8_state s) states8 -> In (s8_state s') states8.
Proof.
  induction l as [|u l IH]; intros s s' w E H; cbn [feed] in E.
  - injection E as <- _. exact H.
  - destruct (tc_op t8_32 s u) as [[s1 w1]| |] eqn:E1; cbn [bind] in E; try discriminate.
    destruct (feed t8_32 s1 l) as [[s2 w2]| |] eqn:E2; cbn [bind] in E; try discriminate. injection E as <- _.
    eapply IH; [exact E2|]. eapply op_state. exact E1.
Qed.
Definition tail8 (st : N) : list N :=
  match st with 24 => [0x80] | 36 => [0x80; 0x80] | 48 => [0xA0; 0x80] | 60 => [0x80; 0x80] | 72 => [0x90; 0x80; 0x80] | 84 => [0x80; 0x80; 0x80] | 96 => [0x80; 0x80; 0x80] | _ => [] end.
Lemma tail8_ok s : In (s8_state s) states8 -> s8_wf s = true ->
  exists s' w, feed t8_32 s (tail8 (s8_state s)) = Ok (s', w) /\ t8_32_end s' = Ok (s', []) /\ s8_wf s' = true.
Proof.
  destruct s as [cp wf st]. cbn [s8_state s8_wf]. intros H ->. unfold states8 in H. cbn [In] in H.
  repeat (destruct H as [<-|H]); [..|destruct H]; eexists; eexists; (split; [reflexivity|split; reflexivity]).
Qed.
Lemma tail8_bytes st : In st states8 -> Forall (fun u => u < 2 ^ 8) (tail8 st).
Proof. unfold states8. cbn [In]. intros H. repeat (destruct H as [<-|H]); [..|destruct H]; repeat constructor. Qed.
Lemma up_8 l s w : Forall (fun u => u < 2 ^ 8) l -> feed t8_32 (tc_init t8_32) l = Ok (s, w) -> tc_wf t8_32 s = true -> begins utf8_of l.
Proof.
  intros F E W. eapply (wf_begins t8_32 reads8 utf8_of utf32_of (2 ^ 8)); [apply conv_8_32|intros; now apply reads8_true|exact F|exact E|].
  assert (H : In (s8_state s) states8) by (eapply feed_state; [exact E|cbn; auto]).
  destruct (tail8_ok s H W) as (s' & w' & E1 & E2 & W'). exists (tail8 (s8_state s)), s', w'. split; [now apply tail8_bytes|auto].
Qed.
(* UTF-16 *)
Lemma up_16 l s w : Forall (fun u => u < 2 ^ 16) l -> feed t16_32 (tc_init t16_32) l = Ok (s, w) -> tc_wf t16_32 s = true -> begins utf16_of l.
Proof.
  intros F E W. eapply (wf_begins t16_32 reads16 utf16_of utf32_of (2 ^ 16)); [apply conv_16_32|intros; now apply reads16_true|exact F|exact E|].
  destruct s as [h has wf]. cbn [tc_wf t16_32 s16_wf] in W. subst wf. destruct has.
  - exists [0xDC00]. eexists. eexists. split; [repeat constructor|]. split; [reflexivity|]. split; reflexivity.
  - exists [], (S16 h false true), []. split; [constructor|]. split; [reflexivity|]. split; reflexivity.
Qed.
Lemma text_reads32 l cs : text utf32_of cs l <-> reads32 l cs true.
Proof. rewrite text32, reads32_true. split; intros [-> H]; auto. Qed.
Lemma up_32 T form l s w : converts T reads32 form (2 ^ 32) -> encoder T form -> Forall (fun u => u < 2 ^ 32) l ->
  feed T (tc_init T) l = Ok (s, w) -> tc_wf T s = true -> begins utf32_of l.
Proof.
  intros C K F E W. eapply (wf_begins T reads32 utf32_of form (2 ^ 32)); [exact C|intros; now apply text_reads32|exact F|exact E|].
  exists [], s, []. split; [constructor|]. split; [reflexivity|]. split; [apply (enc_end _ _ K)|exact W].
Qed.
Lemma text_scalars8 l cs : text utf8_of cs l -> Forall scalar cs.
Proof. induction 1 as [|c w cs us F T IH]; constructor; auto. destruct F; auto; unfold scalar; lia. Qed.
Lemma text_scalars16 l cs : text utf16_of cs l -> Forall scalar cs.
Proof. induction 1 as [|c w cs us F T IH]; constructor; auto. destruct F; auto; unfold scalar; lia. Qed.
Lemma text_scalars32 l cs : text utf32_of cs l -> Forall scalar cs.
Proof. intros T. apply text32 in T. tauto. Qed.
Inductive well_reader : tcdr -> (N -> list N -> Prop) -> N -> Prop :=
| wr_8_8 : well_reader t8_8 utf8_of (2 ^ 8) | wr_8_16 : well_reader t8_16 utf8_of (2 ^ 8) | wr_8_32 : well_reader t8_32 utf8_of (2 ^ 8)
| wr_16_8 : well_reader t16_8 utf16_of (2 ^ 16) | wr_16_16 : well_reader t16_16 utf16_of (2 ^ 16) | wr_16_32 : well_reader t16_32 utf16_of (2 ^ 16)
| wr_32_8 : well_reader t32_8 utf32_of (2 ^ 32) | wr_32_16 : well_reader t32_16 utf32_of (2 ^ 32) | wr_32_32 : well_reader t32_32 utf32_of (2 ^ 32).
Lemma wf_all T fin bound l s w : well_reader T fin bound -> Forall (fun u => u < bound) l -> feed T (tc_init T) l = Ok (s, w) ->
  (tc_wf T s = true <-> begins fin l).
Proof.
  intros V F E.
  assert (R8 : forall l cs, text utf8_of cs l -> reads8 l cs true) by (intros; now apply reads8_true).
  assert (R16 : forall l cs, text utf16_of cs l -> reads16 l cs true) by (intros; now apply reads16_true).
  assert (R32 : forall l cs, text utf32_of cs l -> reads32 l cs true) by (intros; now apply text_reads32).
  assert (O8 : forall cs, Forall scalar cs -> exists out, text utf8_of cs out) by (intros cs; apply (text_of t32_8); apply encoder_8).
  assert (O16 : forall cs, Forall scalar cs -> exists out, text utf16_of cs out) by (intros cs; apply (text_of t32_16); apply encoder_16).
  assert (O32 : forall cs, Forall scalar cs -> exists out, text utf32_of cs out) by (intros cs; apply (text_of t32_32); apply encoder_32).
  assert (K8 := sticky_enc _ _ encoder_8). assert (K16 := sticky_enc _ _ encoder_16). assert (K32 := sticky_enc _ _ encoder_32).
  assert (S8 := sticky_8). assert (S16 := sticky_16).
  destruct V; split; intros H.
  - destruct s as [i o]. cbn [tc_wf triangulator t8_8 fst snd] in H. apply andb_true_iff in H. destruct (tri_inner _ _ _ _ _ _ _ _ E) as (w' & E').
    eapply up_8; [exact F|exact E'|apply H].
  - eapply (begins_wf t8_8 reads8 utf8_of utf8_of); [apply conv_8_8|apply sticky_tri; assumption|exact R8|intros; eapply text_units8; eassumption| |exact E|exact H].
    intros l0 cs T. apply O8. eapply text_scalars8; exact T.
  - destruct s as [i o]. cbn [tc_wf triangulator t8_16 fst snd] in H. apply andb_true_iff in H. destruct (tri_inner _ _ _ _ _ _ _ _ E) as (w' & E').
    eapply up_8; [exact F|exact E'|apply H].
  - eapply (begins_wf t8_16 reads8 utf8_of utf16_of); [apply conv_8_16|apply sticky_tri; assumption|exact R8|intros; eapply text_units8; eassumption| |exact E|exact H].
    intros l0 cs T. apply O16. eapply text_scalars8; exact T.
  - eapply up_8; [exact F|exact E|exact H].
  - eapply (begins_wf t8_32 reads8 utf8_of utf32_of); [apply conv_8_32|assumption|exact R8|intros; eapply text_units8; eassumption| |exact E|exact H].
    intros l0 cs T. apply O32. eapply text_scalars8; exact T.
  - destruct s as [i o]. cbn [tc_wf triangulator t16_8 fst snd] in H. apply andb_true_iff in H. destruct (tri_inner _ _ _ _ _ _ _ _ E) as (w' & E').
    eapply up_16; [exact F|exact E'|apply H].
  - eapply (begins_wf t16_8 reads16 utf16_of utf8_of); [apply conv_16_8|apply sticky_tri; assumption|exact R16|intros; eapply text_units16; eassumption| |exact E|exact H].
    intros l0 cs T. apply O8. eapply text_scalars16; exact T.
  - destruct s as [i o]. cbn [tc_wf triangulator t16_16 fst snd] in H. apply andb_true_iff in H. destruct (tri_inner _ _ _ _ _ _ _ _ E) as (w' & E').
    eapply up_16; [exact F|exact E'|apply H].
  - eapply (begins_wf t16_16 reads16 utf16_of utf16_of); [apply conv_16_16|apply sticky_tri; assumption|exact R16|intros; eapply text_units16; eassumption| |exact E|exact H].
    intros l0 cs T. apply O16. eapply text_scalars16; exact T.
  - eapply up_16; [exact F|exact E|exact H].
  - eapply (begins_wf t16_32 reads16 utf16_of utf32_of); [apply conv_16_32|assumption|exact R16|intros; eapply text_units16; eassumption| |exact E|exact H].
    intros l0 cs T. apply O32. eapply text_scalars16; exact T.
  - eapply (up_32 t32_8 utf8_of); [apply conv_32_8|apply encoder_8|exact F|exact E|exact H].
  - eapply (begins_wf t32_8 reads32 utf32_of utf8_of); [apply conv_32_8|assumption|exact R32|intros; eapply text_units32; eassumption| |exact E|exact H].
    intros l0 cs T. apply O8. eapply text_scalars32; exact T.
  - eapply (up_32 t32_16 utf16_of); [apply conv_32_16|apply encoder_16|exact F|exact E|exact H].
  - eapply (begins_wf t32_16 reads32 utf32_of utf16_of); [apply conv_32_16|assumption|exact R32|intros; eapply text_units32; eassumption| |exact E|exact H].
    intros l0 cs T. apply O16. eapply text_scalars32; exact T.
  - eapply (up_32 t32_32 utf32_of); [apply conv_32_32|apply encoder_32|exact F|exact E|exact H].
  - eapply (begins_wf t32_32 reads32 utf32_of utf32_of); [apply conv_32_32|assumption|exact R32|intros; eapply text_units32; eassumption| |exact E|exact H].
    intros l0 cs T. apply O32. eapply text_scalars32; exact T.
Qed.

(* --- bytes --- *)
Ltac bb_inv H := let l := fresh "l" in let E := fresh "E" in
  match type of H with begins_bytes ?x => remember x as l eqn:E end;
  destruct H as [l0 HM|r0 H|r0 H|r0 NP H|r0 H|r0 H|l0 NP H];
  unfold bom8, bom16be, bom16le, bom32be, bom32le in E; cbn [app] in E; try discriminate E.
Lemma no_marks l : l = [] \/ ends_in_bom l -> l = [] \/ unfinished l.
Proof. intros [H|H]; [auto|right; now apply unfinished_ends]. Qed.
Ltac no_mark HM := exfalso; apply no_marks in HM; subst; unfold unfinished in HM; cbn [In] in HM;
  destruct HM as [HM|HM]; [discriminate HM|]; repeat (destruct HM as [HM|HM]; [try discriminate HM; injection HM; intros; congruence|]); exact HM.
Lemma bb_is_8 r : begins_bytes (bom8 ++ r) <-> begins utf8_of r.
Proof.
  split; [intros H|apply bb_8]. bb_inv H.
  - no_mark HM.
  - injection E as <-. exact H.
  - elim (NP bom8); [cbn; tauto|]. exists r. exact E.
Qed.
Lemma bb_is_16be r : begins_bytes (bom16be ++ r) <-> begins utf16_of (units16 be16 r).
Proof.
  split; [intros H|apply bb_16be]. bb_inv H.
  - no_mark HM.
  - injection E as <-. exact H.
  - elim (NP bom16be); [cbn; tauto|]. exists r. exact E.
Qed.
Lemma bb_is_32be r : begins_bytes (bom32be ++ r) <-> begins utf32_of (units32 be32 r).
Proof.
  split; [intros H|apply bb_32be]. bb_inv H.
  - no_mark HM.
  - injection E as <-. exact H.
  - elim (NP bom32be); [cbn; tauto|]. exists r. exact E.
Qed.
Lemma bb_is_32le r : begins_bytes (bom32le ++ r) <-> begins utf32_of (units32 le32 r).
Proof.
  split; [intros H|apply bb_32le]. bb_inv H.
  - no_mark HM.
  - elim NP. injection E as ->. exists r. reflexivity.
  - injection E as <-. exact H.
  - elim (NP bom32le); [cbn; tauto|]. exists r. exact E.
Qed.
Lemma bb_is_16le b r : b <> 0 -> begins_bytes (bom16le ++ b :: r) <-> begins utf16_of (units16 le16 (b :: r)).
Proof.
  intros Hb. split; [intros H|apply bb_16le; intros [c E]; injection E; intros; congruence]. bb_inv H.
  - no_mark HM.
  - injection E as ->. exact H.
  - injection E; intros; congruence.
  - elim (NP bom16le); [cbn; tauto|]. exists (b :: r). exact E.
Qed.
Lemma bb_is_plain l : (forall m, In m all_boms -> ~ prefix_of m l /\ ~ prefix_of l m) -> begins_bytes l <-> begins utf8_of l.
Proof.
  intros N. split; [intros H|apply bb_plain; intros m Hm; apply (N m Hm)].
  destruct H as [l HM|r H|r H|r NP H|r H|r H|l NP H];
    [|elim (proj1 (N bom8 ltac:(cbn; tauto))); exists r; reflexivity|elim (proj1 (N bom16be ltac:(cbn; tauto))); exists r; reflexivity
    |elim (proj1 (N bom16le ltac:(cbn; tauto))); exists r; reflexivity|elim (proj1 (N bom32be ltac:(cbn; tauto))); exists r; reflexivity
    |elim (proj1 (N bom32le ltac:(cbn; tauto))); exists r; reflexivity|exact H].
  destruct HM as [->|(_ & m & c & Hm & _ & E)]; [elim (proj2 (N bom8 ltac:(cbn; tauto))); exists bom8; reflexivity|].
  elim (proj2 (N m Hm)). exists c. exact E.
Qed.
Section Bytes.
Variables T8 T16 T32 : tcdr.
Variable form : N -> list N -> Prop.
Notation B := (byte_transcoder T8 T16 T32).
Hypothesis P8 : forall l s w, Forall (fun u => u < 2 ^ 8) l -> feed T8 (tc_init T8) l = Ok (s, w) ->
  (tc_partial T8 s = false <-> exists cs ok, reads8 l cs ok /\ text form cs w).
Hypothesis P16 : forall l s w, Forall (fun u => u < 2 ^ 16) l -> feed T16 (tc_init T16) l = Ok (s, w) ->
  (tc_partial T16 s = false <-> exists cs ok, reads16 l cs ok /\ text form cs w).
Hypothesis P32 : forall l s w, Forall (fun u => u < 2 ^ 32) l -> feed T32 (tc_init T32) l = Ok (s, w) ->
  (tc_partial T32 s = false <-> exists cs ok, reads32 l cs ok /\ text form cs w).
Hypothesis W8 : forall l s w, Forall (fun u => u < 2 ^ 8) l -> feed T8 (tc_init T8) l = Ok (s, w) -> (tc_wf T8 s = true <-> begins utf8_of l).
Hypothesis W16 : forall l s w, Forall (fun u => u < 2 ^ 16) l -> feed T16 (tc_init T16) l = Ok (s, w) -> (tc_wf T16 s = true <-> begins utf16_of l).
Hypothesis W32 : forall l s w, Forall (fun u => u < 2 ^ 32) l -> feed T32 (tc_init T32) l = Ok (s, w) -> (tc_wf T32 s = true <-> begins utf32_of l).
Hypothesis NM : forall l s w, Forall (fun u => u < 256) l -> feed B (tc_init B) l = Ok (s, w) -> l <> [] -> ~ unfinished l -> tx_var s <> Vmono.

Lemma inner (T : tcdr) l x s w :
  (forall f, transcode (byte_transcoder (obs f T8) (obs f T16) (obs f T32)) l = transcode (obs f T) x) ->
  feed B (tc_init B) l = Ok (s, w) -> tx_var s <> Vmono ->
  exists t, feed T (tc_init T) x = Ok (t, w) /\ tc_wf B s = tc_wf T t /\ tc_partial B s = tc_partial T t.
Proof.
  intros H E M. pose proof (H tc_wf) as H1. pose proof (H tc_partial) as H2.
  rewrite (seen tc_wf _ _ _ _ _ _ E M), seen_inner in H1. rewrite (seen tc_partial _ _ _ _ _ _ E M), seen_inner in H2.
  destruct (feed T (tc_init T) x) as [[t v]| |]; cbn [bind] in H1, H2; try discriminate. injection H1 as <- H1. injection H2 as H2.
  exists t. split; [reflexivity|]. cbn [tc_wf tc_partial byte_transcoder]. unfold tx_wf, tx_partial, look in *.
  destruct (tx_var s); [now elim M|..]; auto.
Qed.
Definition ways (l : list N) (s : tc_st B) (w : list N) : Prop :=
  (exists r, l = bom8 ++ r /\ exists t, feed T8 (tc_init T8) r = Ok (t, w) /\ tc_wf B s = tc_wf T8 t /\ tc_partial B s = tc_partial T8 t)
  \/ (exists r, l = bom16be ++ r /\ exists t, feed T16 (tc_init T16) (units16 be16 r) = Ok (t, w) /\ tc_wf B s = tc_wf T16 t /\ tc_partial B s = tc_partial T16 t)
  \/ (exists r, l = bom32be ++ r /\ exists t, feed T32 (tc_init T32) (units32 be32 r) = Ok (t, w) /\ tc_wf B s = tc_wf T32 t /\ tc_partial B s = tc_partial T32 t)
  \/ (exists r, l = bom32le ++ r /\ exists t, feed T32 (tc_init T32) (units32 le24 r) = Ok (t, w) /\ tc_wf B s = tc_wf T32 t /\ tc_partial B s = tc_partial T32 t)
  \/ (exists b r, b <> 0 /\ l = bom16le ++ b :: r /\ exists t, feed T16 (tc_init T16) (units16 le16 (b :: r)) = Ok (t, w) /\ tc_wf B s = tc_wf T16 t /\ tc_partial B s = tc_partial T16 t)
  \/ ((le16_then_zero l \/ forall m, In m all_boms -> ~ prefix_of m l /\ ~ prefix_of l m)
      /\ exists t, feed T8 (tc_init T8) l = Ok (t, w) /\ tc_wf B s = tc_wf T8 t /\ tc_partial B s = tc_partial T8 t).
Lemma ways_all l s w : Forall (fun u => u < 256) l -> feed B (tc_init B) l = Ok (s, w) -> l <> [] -> ~ unfinished l -> ways l s w.
Proof.
  intros F E N U. pose proof (NM l s w F E N U) as M.
  destruct (byte_cover l) as [->|[X|[(m & r & Hm & ->)|[(b & r & Hb & [->| ->])|X]]]]; [now elim N|now elim U|..]; unfold ways.
  - assert (Fr := proj2 (proj1 (Forall_app _ _ _) F)). cbn [In] in Hm. destruct Hm as [<-|[<-|[<-|[<-|[]]]]].
    + left. exists r. split; [reflexivity|]. eapply inner; [|exact E|exact M]. intros f. apply byte_bom8.
    + right; left. exists r. split; [reflexivity|]. eapply inner; [|exact E|exact M]. intros f. apply byte_bom16be. exact Fr.
    + right; right; left. exists r. split; [reflexivity|]. eapply inner; [|exact E|exact M]. intros f. apply byte_bom32be. exact Fr.
    + right; right; right; left. exists r. split; [reflexivity|]. eapply inner; [|exact E|exact M]. intros f. apply byte_bom32le. exact Fr.
  - assert (Fr := proj2 (proj1 (Forall_app _ _ _) F)). right; right; right; right; left. exists b, r. split; [exact Hb|]. split; [reflexivity|].
    eapply inner; [|exact E|exact M]. intros f. apply byte_bom16le; [exact Hb|exact Fr].
  - right; right; right; right; right. split; [left; exists b, r; auto|]. eapply inner; [|exact E|exact M]. intros f. apply byte_bom16le_zero. exact Hb.
  - right; right; right; right; right. split; [right; exact X|]. eapply inner; [|exact E|exact M]. intros f. apply no_bom. exact X.
Qed.
Lemma ex2 (P Q : list N -> bool -> Prop) (R : list N -> Prop) : (forall cs ok, P cs ok <-> Q cs ok) ->
  (exists cs ok, P cs ok /\ R cs) <-> (exists cs ok, Q cs ok /\ R cs).
Proof. intros H. split; intros (cs & ok & A & C); exists cs, ok; (split; [apply H; exact A|exact C]). Qed.
Lemma bytes_mid_partial l s w : Forall (fun u => u < 256) l -> feed B (tc_init B) l = Ok (s, w) -> ~ ends_in_bom l ->
  ~ le16_then_zero l -> ~ le32_large l ->
  (tc_partial B s = false <-> exists cs ok, reads_bytes l cs ok /\ text form cs w).
Proof.
  intros F E NU NZ NL. destruct l as [|a l0] eqn:El.
  { cbn [feed] in E. injection E as <- <-. split; [|reflexivity]. intros _. exists [], true. split; [|constructor].
    apply rb_plain; [|constructor]. intros m Hm [c X]. symmetry in X. apply app_eq_nil in X. destruct X as [-> _]. cbn in Hm. repeat (destruct Hm as [Hm|Hm]; try discriminate). exact Hm. }
  rewrite <- El in *. assert (N : l <> []) by (rewrite El; discriminate). clear El a l0.
  destruct (ways_all l s w F E N) as [H|[H|[H|[H|[H|H]]]]]; [intros U; apply NU; now apply unfinished_ends|..].
  - destruct H as (r & -> & t & Et & _ & ->). assert (Fr := proj2 (proj1 (Forall_app _ _ _) F)).
    rewrite (P8 _ _ _ Fr Et). symmetry. apply ex2. intros. apply rb_is_8.
  - destruct H as (r & -> & t & Et & _ & ->). assert (Fr := proj2 (proj1 (Forall_app _ _ _) F)).
    rewrite (P16 _ _ _ (units16_bound _ _ be16_bound Fr) Et). symmetry. apply ex2. intros. apply rb_is_16be.
  - destruct H as (r & -> & t & Et & _ & ->). assert (Fr := proj2 (proj1 (Forall_app _ _ _) F)).
    rewrite (P32 _ _ _ (units32_bound _ _ be32_bound Fr) Et). symmetry. apply ex2. intros. apply rb_is_32be.
  - destruct H as (r & -> & t & Et & _ & ->). assert (Fr := proj2 (proj1 (Forall_app _ _ _) F)).
    rewrite units32_small in Et; [|exact Fr|intros u Hu; destruct (N.lt_ge_cases u (2 ^ 24)) as [L|L]; [exact L|]; elim NL; exists r, u; auto].
    rewrite (P32 _ _ _ (units32_bound _ _ le32_bound Fr) Et). symmetry. apply ex2. intros. apply rb_is_32le.
  - destruct H as (b & r & Hb & -> & t & Et & _ & ->). assert (Fr := proj2 (proj1 (Forall_app _ _ _) F)).
    rewrite (P16 _ _ _ (units16_bound _ _ le16_bound Fr) Et). symmetry. apply ex2. intros. apply rb_is_16le. exact Hb.
  - destruct H as ([Z|X] & t & Et & _ & ->); [now elim NZ|]. rewrite (P8 _ _ _ F Et). symmetry. apply ex2. intros. apply rb_is_plain. intros m Hm. apply (X m Hm).
Qed.
Lemma bytes_mid_wf l s w : Forall (fun u => u < 256) l -> feed B (tc_init B) l = Ok (s, w) -> ~ ends_in_bom l ->
  ~ le16_then_zero l -> ~ le32_large l -> (tc_wf B s = true <-> begins_bytes l).
Proof.
  intros F E NU NZ NL. destruct l as [|a l0] eqn:El.
  { cbn [feed] in E. injection E as <- <-. split; [|reflexivity]. intros _. apply bb_mark. auto. }
  rewrite <- El in *. assert (N : l <> []) by (rewrite El; discriminate). clear El a l0.
  destruct (ways_all l s w F E N) as [H|[H|[H|[H|[H|H]]]]]; [intros U; apply NU; now apply unfinished_ends|..].
  - destruct H as (r & -> & t & Et & -> & _). assert (Fr := proj2 (proj1 (Forall_app _ _ _) F)).
    rewrite (W8 _ _ _ Fr Et). symmetry. apply bb_is_8.
  - destruct H as (r & -> & t & Et & -> & _). assert (Fr := proj2 (proj1 (Forall_app _ _ _) F)).
    rewrite (W16 _ _ _ (units16_bound _ _ be16_bound Fr) Et). symmetry. apply bb_is_16be.
  - destruct H as (r & -> & t & Et & -> & _). assert (Fr := proj2 (proj1 (Forall_app _ _ _) F)).
    rewrite (W32 _ _ _ (units32_bound _ _ be32_bound Fr) Et). symmetry. apply bb_is_32be.
  - destruct H as (r & -> & t & Et & -> & _). assert (Fr := proj2 (proj1 (Forall_app _ _ _) F)).
    rewrite units32_small in Et; [|exact Fr|intros u Hu; destruct (N.lt_ge_cases u (2 ^ 24)) as [L|L]; [exact L|]; elim NL; exists r, u; auto].
    rewrite (W32 _ _ _ (units32_bound _ _ le32_bound Fr) Et). symmetry. apply bb_is_32le.
  - destruct H as (b & r & Hb & -> & t & Et & -> & _). assert (Fr := proj2 (proj1 (Forall_app _ _ _) F)).
    rewrite (W16 _ _ _ (units16_bound _ _ le16_bound Fr) Et). symmetry. apply bb_is_16le. exact Hb.
  - destruct H as ([Z|X] & t & Et & -> & _); [now elim NZ|]. rewrite (W8 _ _ _ F Et). symmetry. apply bb_is_plain. exact X.
Qed.
(* the two departures *)
Lemma zero16_not_unfinished l : le16_then_zero l -> l <> [] /\ ~ unfinished l.
Proof.
  intros (b & r & Hb & ->). split; [discriminate|]. unfold unfinished, bom16le. cbn [In app]. intros H.
  repeat (destruct H as [H|H]; [discriminate H|]). exact H.
Qed.
Lemma bytes_mid_zero16 l s w : Forall (fun u => u < 256) l -> feed B (tc_init B) l = Ok (s, w) -> le16_then_zero l ->
  (tc_partial B s = false <-> exists cs ok, reads8 l cs ok /\ text form cs w) /\ (tc_wf B s = true <-> begins utf8_of l).
Proof.
  intros F E Z. destruct (zero16_not_unfinished l Z) as [N U].
  assert (Q : exists t, feed T8 (tc_init T8) l = Ok (t, w) /\ tc_wf B s = tc_wf T8 t /\ tc_partial B s = tc_partial T8 t).
  { destruct Z as (b & r & Hb & ->). eapply inner; [|exact E|exact (NM _ _ _ F E N U)]. intros f. apply byte_bom16le_zero. exact Hb. }
  destruct Q as (t & Et & -> & ->). split; [exact (P8 _ _ _ F Et)|exact (W8 _ _ _ F Et)].
Qed.
Lemma bytes_mid_large32 r s w : Forall (fun u => u < 256) r -> feed B (tc_init B) (bom32le ++ r) = Ok (s, w) ->
  (tc_partial B s = false <-> exists cs ok, reads32 (units32 le24 r) cs ok /\ text form cs w) /\ (tc_wf B s = true <-> begins utf32_of (units32 le24 r)).
Proof.
  intros F E. assert (Fr : Forall (fun u => u < 256) (bom32le ++ r)) by (apply Forall_app; split; [repeat constructor|exact F]).
  assert (U : ~ unfinished (bom32le ++ r)).
  { unfold unfinished, bom32le. cbn [In app]. intros H. repeat (destruct H as [H|H]; [discriminate H|]). exact H. }
  assert (M := NM _ _ _ Fr E ltac:(discriminate) U).
  destruct (inner T32 (bom32le ++ r) (units32 le24 r) s w) as (t & Et & -> & ->); [intros f; apply byte_bom32le; exact F|exact E|exact M|].
  assert (FF : Forall (fun u => u < 2 ^ 32) (units32 le24 r)).
  { apply units32_bound; [|exact F]. intros a b c d Ha Hb Hc Hd. apply le32_bound; auto. reflexivity. }
  split; [exact (P32 _ _ _ FF Et)|exact (W32 _ _ _ FF Et)].
Qed.
End Bytes.
(* the input ends within a mark *)
Lemma bytes_mid_mark T8 T16 T32 l s w : feed (byte_transcoder T8 T16 T32) (tx_init T8 T16 T32) l = Ok (s, w) -> ends_in_bom l ->
  w = [] /\ tx_partial T8 T16 T32 s = true /\ tx_wf T8 T16 T32 s = true.
Proof.
  intros E U. apply unfinished_ends in U. unfold unfinished in U. cbn [In] in U.
  repeat (destruct U as [<-|U]); [..|destruct U]; cbn in E; injection E as <- <-; repeat split.
Qed.
Lemma mono_selected T8 T16 T32 (s : txs T8 T16 T32) s' w : tx_var s = Vmono -> tx_end T8 T16 T32 s = Ok (s', w) -> selected_encoding T8 T16 T32 s = Ok enc_unknown.
Proof.
  intros M E. unfold tx_end, run8_start in E. rewrite M in E. unfold selected_encoding. destruct (is_run_mode (tx_state s)); [discriminate|reflexivity].
Qed.
Lemma not_mono T8 T16 T32 l s w : (exists out ok, transcode (byte_transcoder T8 T16 T32) l = Ok (out, ok)) ->
  feed (byte_transcoder T8 T16 T32) (tx_init T8 T16 T32) l = Ok (s, w) -> l <> [] -> ~ unfinished l -> tx_var s <> Vmono.
Proof.
  intros (out & ok & X) E N U M. unfold transcode in X. cbn [tc_init byte_transcoder] in X. rewrite E in X. cbn [bind] in X.
  destruct (tc_end (byte_transcoder T8 T16 T32) s) as [[s' w']| |] eqn:EE; cbn [bind] in X; try discriminate.
  pose proof (mono_selected T8 T16 T32 s s' w' M EE) as Z.
  destruct (byte_cover l) as [->|[Q|[(m & r & Hm & ->)|[(b & r & Hb & [->| ->])|Q]]]]; [now elim N|now elim U|..].
  - cbn [In] in Hm. destruct Hm as [<-|[<-|[<-|[<-|[]]]]].
    + rewrite (selected_bom8 _ _ _ _ _ _ E) in Z. discriminate.
    + rewrite (selected_bom16be _ _ _ _ _ _ E) in Z. discriminate.
    + rewrite (selected_bom32be _ _ _ _ _ _ E) in Z. discriminate.
    + rewrite (selected_bom32le _ _ _ _ _ _ E) in Z. discriminate.
  - rewrite (selected_bom16le _ _ _ _ _ _ _ Hb E) in Z. discriminate.
  - rewrite (selected_16le_zero _ _ _ _ _ _ _ Hb E) in Z. discriminate.
  - rewrite (selected_no_bom _ _ _ _ _ _ Q E) in Z. discriminate.
Qed.
