(* Facts about the transcode view over single-pass ranges *)
From Verif Require Import Base ModelIcu ModelSingle SpecIcu IcuUtf8 IcuRead8 IcuEnc IcuView IcuViewAll IcuProps.
Local Open Scope N_scope.
Local Open Scope list_scope.

Lemma removelast_cons {A} (x : A) l : l <> [] -> removelast (x :: l) = x :: removelast l.
Proof. destruct l; [contradiction|reflexivity]. Qed.

Section S1.
Variables (T : tcdr) (cap : nat) (valid : N -> Prop) (Inv : tc_st T -> Prop).
Hypothesis HT : viewable T cap valid Inv.
Hypothesis Hcap : (cap < 16)%nat.
Variable base : list N.
Hypothesis Hbase : Forall valid base.

Lemma feed_total l : Forall valid l -> forall s, Inv s -> exists s' w, feed T s l = Ok (s', w) /\ Inv s'.
Proof.
  induction 1 as [|u l Hu Hl IH]; intros s Hs; cbn [feed]; [eauto|].
  destruct (vw_op _ _ _ _ HT s u Hs Hu) as (s' & w & _ & _ & E & I' & _). rewrite E. cbn [bind].
  destruct (IH s' I') as (s2 & w2 & E' & W'). rewrite E'. cbn [bind]. eauto.
Qed.
Lemma skip_ne n : (n < length base)%nat -> skipn n base <> [].
Proof. intros L E. assert (X : length (skipn n base) = 0%nat) by now rewrite E. rewrite skipn_length in X. lia. Qed.

Lemma fill_loop_feed fuel : forall next tc n' t' out, fill_loop T cap base fuel next tc [] = Ok (n', t', out) -> (next < length base)%nat -> (n' <= length base)%nat ->
  feed T tc (removelast (skipn next base)) =
    (if Nat.eqb n' (length base) then feed T tc (removelast (skipn next base)) else do (s, r) <- feed T t' (removelast (skipn n' base)); Ok (s, out ++ r))
  /\ (n' = length base -> forall s r, feed T tc (removelast (skipn next base)) = Ok (s, r) -> r = []).
Proof.
  induction fuel as [|fuel IH]; intros next tc n' t' out E Hn Hn'; (destruct (nth_error base next) as [u|] eqn:Hu; [|apply nth_error_None in Hu; lia]).
  - cbn [fill_loop] in E. rewrite Hu in E. discriminate.
  - cbn [fill_loop] in E. rewrite Hu in E. destruct (tc_op T tc u) as [[s w]| |] eqn:O; cbn [bind app] in E; try discriminate.
    destruct (Nat.ltb cap (length w)); [discriminate|]. rewrite (skipn_nth base next u Hu).
    destruct (Nat.eq_dec (S next) (length base)) as [El|Nl].
    + assert (Z : nth_error base (S next) = None) by (apply nth_error_None; lia).
      assert (X : n' = S next). { destruct fuel; cbn [fill_loop] in E; rewrite Z in E; destruct w; congruence. }
      subst n'. rewrite El, Nat.eqb_refl. split; [reflexivity|]. intros _ s' r. rewrite (skipn_all2 base) by lia. cbn [removelast feed]. intros X. now injection X.
    + assert (NE : skipn (S next) base <> []) by (apply skip_ne; lia). rewrite (removelast_cons u _ NE). cbn [feed]. rewrite O. cbn [bind].
      destruct w as [|x w].
      * destruct (IH _ _ _ _ _ E ltac:(lia) Hn') as [F1 F2]. split.
        -- destruct (Nat.eqb_spec n' (length base)) as [|N]; [reflexivity|]. rewrite F1. destruct (feed T t' (removelast (skipn n' base))) as [[s1 r1]| |]; reflexivity.
        -- intros X s' r Y. destruct (feed T s (removelast (skipn (S next) base))) as [[s1 r1]| |]; cbn [bind] in Y; try discriminate. injection Y as <- <-. exact (F2 X _ _ eq_refl).
      * assert (X : Ok (S next, s, x :: w) = Ok (n', t', out)) by (rewrite <- E; destruct fuel; reflexivity). injection X as <- <- <-.
        destruct (Nat.eqb_spec (S next) (length base)) as [|_]; [lia|]. split; [reflexivity|]. intros; lia.
Qed.

(* a fill: what it adds, and whether it reached the end of the source *)
Lemma fill_shared it wf ok sr sf : v_first T it = v_last T it -> (v_next T it < length base)%nat -> Inv (v_tc T it) ->
  (exists r, finish T (v_tc T it) (skipn (v_next T it) base) = Ok (r, ok)) ->
  feed T (v_tc T it) (removelast (skipn (v_next T it) base)) = Ok (sf, sr) ->
  exists it' wf', fill T cap base (length base) it wf = Ok (it', wf') /\ v_first T it' = 0%N
    /\ v_last T it' = N.of_nat (length (v_out T it')) /\ (0 < length (v_out T it') < 16)%nat
    /\ wf' && ok = wf && ok
    /\ ((v_next T it' = length base /\ sr = [] /\ wf' = wf && ok)
        \/ ((v_next T it' < length base)%nat /\ Inv (v_tc T it') /\ (exists r, finish T (v_tc T it') (skipn (v_next T it') base) = Ok (r, ok))
            /\ exists sr', sr = v_out T it' ++ sr' /\ feed T (v_tc T it') (removelast (skipn (v_next T it') base)) = Ok (sf, sr'))).
Proof.
  intros Hfl Hn Hi (r & E) G.
  destruct (fill_spec T cap valid Inv HT Hcap base Hbase (length base) it wf r ok Hfl ltac:(lia) Hn Hi E) as (it' & wf' & rest & F & C & F1 & L1 & B1 & R1 & R2 & W).
  exists it', wf'. split; [exact F|]. split; [exact F1|]. split; [exact L1|]. split; [exact B1|]. split; [exact W|].
  (* the loop inside *)
  destruct (fill_loop_spec T cap valid Inv HT Hcap base Hbase (length base) _ _ ltac:(lia) Hn Hi) as (n' & t' & out & s2 & w2 & E3 & I3 & B3 & L3 & E4 & L4 & P3 & P4 & F3).
  destruct (fill_loop_feed _ _ _ _ _ _ E3 Hn ltac:(lia)) as [Q1 Q2].
  unfold fill in F. rewrite Hfl, N.eqb_refl, E3 in F. cbn [negb bind] in F.
  destruct (Nat.eqb_spec n' (length base)) as [El|Nl].
  - rewrite E4 in F. cbn [bind] in F. destruct (Nat.ltb cap (length (out ++ w2))); [discriminate|]. injection F as <- <-. cbn [v_next v_tc v_out] in *.
    left. split; [exact El|]. split; [exact (Q2 El _ _ G)|].
    destruct R2 as [(Z & _)|(_ & _ & -> & _)]; [lia|]. destruct (tc_wf T s2); [now rewrite andb_true_r|now rewrite andb_false_r].
  - cbn [bind] in F. destruct (Nat.ltb cap (length out)); [discriminate|]. injection F as <- <-. cbn [v_next v_tc v_out] in *.
    right. split; [lia|]. split; [exact I3|]. split.
    + destruct R2 as [(_ & _ & Z)|(Z & _)]; [eauto|lia].
    + rewrite Q1 in G. destruct (feed T t' (removelast (skipn n' base))) as [[s1 r1]| |]; cbn [bind] in G; try discriminate. injection G as <- <-. eauto.
Qed.

Lemma collect_shared fuel : forall it wf k sr sf ok,
  v_first T it = N.of_nat k -> v_last T it = N.of_nat (length (v_out T it)) -> (k < length (v_out T it) < 16)%nat ->
  (v_next T it < length base)%nat -> Inv (v_tc T it) -> (exists r, finish T (v_tc T it) (skipn (v_next T it) base) = Ok (r, ok)) ->
  feed T (v_tc T it) (removelast (skipn (v_next T it) base)) = Ok (sf, sr) ->
  (length (skipn k (v_out T it) ++ sr) < fuel)%nat ->
  vcollect_shared T cap base fuel it wf = Ok (skipn k (v_out T it) ++ sr, wf && ok).
Proof.
  induction fuel as [|fuel IH]; intros it wf k sr sf ok Hf Hl Hk Hn Hi Hfin G Hlen; [lia|].
  cbn [vcollect_shared]. unfold vdone_shared. destruct (Nat.eqb_spec (v_next T it) (length base)) as [|_]; [lia|].
  destruct (skipn k (v_out T it)) as [|x xs] eqn:Sk.
  { exfalso. assert (length (skipn k (v_out T it)) = 0)%nat by now rewrite Sk. rewrite skipn_length in *. lia. }
  destruct (nth_skipn _ _ _ _ Sk) as [Hx Sk'].
  assert (Lx : length xs = (length (v_out T it) - S k)%nat) by (rewrite <- Sk', skipn_length; reflexivity).
  unfold vderef. assert (NE : (v_first T it =? v_last T it)%N = false) by (apply N.eqb_neq; lia). rewrite NE.
  rewrite Hf, Nat2N.id, Hx. cbn [bind]. unfold vnext. rewrite NE. cbn [v_first v_last].
  assert (Hf' : ((v_first T it + 1) mod 2 ^ 4)%N = N.of_nat (S k)).
  { rewrite Hf. replace (N.of_nat k + 1)%N with (N.of_nat (S k)) by lia. apply (small_mod cap Hcap). lia. }
  rewrite Hf', Hl. destruct (N.eqb_spec (N.of_nat (S k)) (N.of_nat (length (v_out T it)))) as [El|Nl].
  - destruct xs as [|y ys]; [|cbn in Lx; lia]. cbn [app] in *.
    set (it0 := Vit T (v_current T it) (v_next T it) (v_out T it) (v_tc T it) (N.of_nat (S k)) (N.of_nat (length (v_out T it)))).
    destruct (fill_shared it0 wf ok sr sf El Hn Hi Hfin G) as (it' & wf' & F' & F1 & L1 & B1 & W1 & D).
    rewrite F'. cbn [bind]. destruct D as [(N1 & -> & W2)|(N1 & I1 & Fin1 & sr' & -> & G1)].
    + destruct fuel; [cbn [length] in Hlen; lia|]. cbn [vcollect_shared]. unfold vdone_shared. rewrite N1, Nat.eqb_refl. cbn [bind]. now rewrite W2.
    + rewrite (IH it' wf' 0%nat sr' sf ok); try assumption; try lia.
      * cbn [bind skipn]. rewrite W1. reflexivity.
      * cbn [skipn]. cbn [length] in Hlen. lia.
  - cbn [bind]. rewrite (IH _ wf (S k) sr sf ok); cbn [v_first v_last v_out v_current v_next v_tc]; try assumption; try reflexivity; try lia.
    + cbn [bind]. rewrite Sk'. reflexivity.
    + rewrite Sk'. cbn [app length] in Hlen. lia.
Qed.

Lemma view_shared out ok : base <> [] -> transcode T base = Ok (out, ok) ->
  exists s shown, feed T (tc_init T) (removelast base) = Ok (s, shown)
    /\ forall fuel, (length shown < fuel)%nat -> view_iterate_shared T cap base fuel = Ok (shown, ok).
Proof.
  intros Hne E. assert (Hlen : (0 < length base)%nat) by (destruct base; [contradiction|cbn; lia]).
  assert (Fv : Forall valid (removelast base)). { apply Forall_forall. intros u Hu. rewrite Forall_forall in Hbase. apply Hbase. rewrite (app_removelast_last 0%N Hne). apply in_or_app. now left. }
  destruct (feed_total _ Fv _ (vw_init _ _ _ _ HT)) as (s & shown & G & _). exists s, shown. split; [exact G|]. intros fuel Hf.
  unfold view_iterate_shared, vbegin. destruct (Nat.eqb_spec 0 (length base)) as [|_]; [lia|].
  set (it0 := Vit T 0 0 [] (tc_init T) 0 0).
  destruct (fill_shared it0 true ok shown s eq_refl Hlen (vw_init _ _ _ _ HT) (ex_intro _ out E) G) as (it' & wf' & F' & F1 & L1 & B1 & W1 & D).
  rewrite F'. cbn [bind]. destruct D as [(N1 & -> & W2)|(N1 & I1 & Fin1 & sr' & -> & G1)].
  - destruct fuel; [cbn in Hf; lia|]. cbn [vcollect_shared]. unfold vdone_shared. rewrite N1, Nat.eqb_refl. now rewrite W2.
  - rewrite (collect_shared fuel it' wf' 0%nat sr' s ok); try assumption; try lia. cbn [skipn]. now rewrite W1.
Qed.
End S1.

Lemma views_shared T cap bound l : view_of T cap bound -> Forall (fun u => u < bound) l -> l <> [] ->
  exists out ok s shown, transcode T l = Ok (out, ok) /\ feed T (tc_init T) (removelast l) = Ok (s, shown)
    /\ forall fuel, (length shown < fuel)%nat -> view_iterate_shared T cap l fuel = Ok (shown, ok).
Proof.
  intros V F Hne. destruct (views T cap bound l V F) as (out & ok & E & _).
  assert (A : Forall okany l) by (apply Forall_forall; intros; exact I).
  assert (X : exists s shown, feed T (tc_init T) (removelast l) = Ok (s, shown)
    /\ forall fuel, (length shown < fuel)%nat -> view_iterate_shared T cap l fuel = Ok (shown, ok)); [|destruct X as (s & shown & G & H); eauto 10].
  destruct V; (eapply view_shared; [|unfold max_output_8, max_output_16, max_output_32, max_output_16_8, max_output_16_32, longest_sequence_8, longest_sequence_16, longest_sequence_32; lia| |exact Hne|exact E]);
   first [apply viewable_8_8|apply viewable_8_16|apply viewable_8_32|apply viewable_16_8|apply viewable_16_16|apply viewable_16_32|apply viewable_32_8|apply viewable_32_16|apply viewable_32_32|exact F|exact A].
Qed.

(* something is always lost: what the last unit and the end of the input make *)
Lemma lost_some T cap valid Inv l s shown out ok : viewable T cap valid Inv -> Forall valid l -> l <> [] ->
  feed T (tc_init T) (removelast l) = Ok (s, shown) -> transcode T l = Ok (out, ok) -> exists lost, out = shown ++ lost /\ lost <> [].
Proof.
  intros HT F Hne G E. rewrite (app_removelast_last 0%N Hne) in E, F. apply Forall_app in F. destruct F as [F1 F2].
  destruct (feed_total T cap valid Inv HT _ F1 _ (vw_init _ _ _ _ HT)) as (s0 & w0 & G0 & I0). rewrite G in G0. injection G0 as <- <-.
  unfold transcode in E. rewrite feed_app, G in E. cbn [bind feed] in E. inversion F2 as [|u u' Hu _ Eu]; subst.
  destruct (vw_op _ _ _ _ HT s _ I0 Hu) as (s' & w & s'' & w' & E1 & _ & _ & _ & E2 & _ & P). rewrite E1 in E. cbn [bind] in E. rewrite E2 in E. cbn [bind] in E.
  injection E as <- _. exists (w ++ w'). split; [now rewrite app_nil_r, <- app_assoc|]. intros Z. apply app_eq_nil in Z. destruct Z as [Z1 Z2]. exact (P Z1 Z2).
Qed.
Lemma lost_all T cap bound l s shown out ok : view_of T cap bound -> Forall (fun u => u < bound) l -> l <> [] ->
  feed T (tc_init T) (removelast l) = Ok (s, shown) -> transcode T l = Ok (out, ok) -> exists lost, out = shown ++ lost /\ lost <> [].
Proof.
  intros V F Hne G E. assert (A : Forall okany l) by (apply Forall_forall; intros; exact I).
  destruct V; (eapply lost_some; [| |exact Hne|exact G|exact E]);
   first [apply viewable_8_8|apply viewable_8_16|apply viewable_8_32|apply viewable_16_8|apply viewable_16_16|apply viewable_16_32|apply viewable_32_8|apply viewable_32_16|apply viewable_32_32|exact F|exact A].
Qed.

(* well-formed text *)
Definition cuts (T : tcdr) (from to : N -> list N -> Prop) : Prop := forall cs c x w, text from cs x -> from c w ->
  exists s out, feed T (tc_init T) (removelast (x ++ w)) = Ok (s, out) /\ text to cs out.
Lemma removelast_text (x w : list N) : w <> [] -> removelast (x ++ w) = x ++ removelast w.
Proof. apply removelast_app. Qed.
Lemma feed_text8 cs x : text utf8_of cs x -> forall cp wf, exists cp', feed t8_32 (S8 cp wf 0) x = Ok (S8 cp' wf 0, cs).
Proof.
  induction 1 as [|c w cs us H _ IH]; intros cp wf; [exists cp; reflexivity|]. rewrite feed_app, (feed_good _ _ cp wf H). cbn [bind].
  destruct (IH c wf) as (cp' & E). rewrite E. cbn [bind app]. eauto.
Qed.
Lemma cut_incomplete c w : utf8_of c w -> removelast w = [] \/ incomplete8 (removelast w).
Proof.
  intros H. pose proof (utf8_nonempty _ _ H) as Hne. destruct (removelast w) as [|a p] eqn:E; [now left|right]. rewrite <- E. exists c, [last w 0]. split; [discriminate|].
  now rewrite <- (app_removelast_last 0 Hne).
Qed.
Lemma cut_8 cs c x w : text utf8_of cs x -> utf8_of c w -> exists s, feed t8_32 (tc_init t8_32) (removelast (x ++ w)) = Ok (s, cs).
Proof.
  intros X W. rewrite removelast_text by (eapply utf8_nonempty; exact W). rewrite feed_app. change (tc_init t8_32) with (S8 0 true 0).
  destruct (feed_text8 _ _ X 0 true) as (cp & ->). cbn [bind]. destruct (feed_incomplete _ cp true (cut_incomplete _ _ W)) as (s & -> & _). cbn [bind]. rewrite app_nil_r. eauto.
Qed.
Lemma feed16_high u h wf : high_surrogate u -> feed t16_32 (S16 h false wf) [u] = Ok (S16 (u - 0xD800) true wf, []).
Proof.
  intros H. cbn [feed tc_op t16_32]. unfold t16_32_call. cbn [s16_has negb s16_wf]. rewrite (proj2 (high_spec u) H), (adjusted_ok _ H). reflexivity.
Qed.
Lemma feed16_good c w h wf : utf16_of c w -> exists h', feed t16_32 (S16 h false wf) w = Ok (S16 h' false wf, [c]).
Proof.
  intros U. destruct (utf16_shape c w U) as [(-> & B & NH & NL)|(u & v & -> & H & L & ->)].
  - exists h. cbn [feed tc_op t16_32]. unfold t16_32_call. cbn [s16_has negb s16_wf s16_high]. rewrite (bool_false _ _ (high_spec c) NH), (bool_false _ _ (low_spec c) NL). reflexivity.
  - exists 0. change [u; v] with ([u] ++ [v]). rewrite feed_app, (feed16_high u h wf H). cbn [bind feed tc_op t16_32]. unfold t16_32_call. cbn [s16_has negb s16_wf s16_high].
    rewrite (proj2 (low_spec v) L). cbn [bind app]. rewrite N.shiftl_mul_pow2. reflexivity.
Qed.
Lemma feed_text16 cs x : text utf16_of cs x -> forall h wf, exists h', feed t16_32 (S16 h false wf) x = Ok (S16 h' false wf, cs).
Proof.
  induction 1 as [|c w cs us H _ IH]; intros h wf; [exists h; reflexivity|]. rewrite feed_app. destruct (feed16_good c w h wf H) as (h1 & ->). cbn [bind].
  destruct (IH h1 wf) as (h2 & E). rewrite E. cbn [bind app]. eauto.
Qed.
Lemma cut_16 cs c x w : text utf16_of cs x -> utf16_of c w -> exists s, feed t16_32 (tc_init t16_32) (removelast (x ++ w)) = Ok (s, cs).
Proof.
  intros X W. rewrite removelast_text by (eapply nonempty_16; exact W). rewrite feed_app. change (tc_init t16_32) with (S16 0 false true).
  destruct (feed_text16 _ _ X 0 true) as (h & ->). cbn [bind].
  destruct (utf16_shape c w W) as [(-> & _)|(u & v & -> & H & _)]; cbn [removelast]; [cbn [feed bind]|rewrite (feed16_high u h true H); cbn [bind]]; rewrite app_nil_r; eauto.
Qed.
Lemma text32_self cs : Forall scalar cs -> text utf32_of cs cs.
Proof. intros H. apply text32. auto. Qed.
Lemma text_scalars (form : N -> list N -> Prop) cs x : (forall c w, form c w -> scalar c) -> text form cs x -> Forall scalar cs.
Proof. intros S. induction 1; constructor; eauto. Qed.
Lemma utf32_scalar c w : utf32_of c w -> scalar c. Proof. now intros []. Qed.
Lemma removelast_bound (P : N -> Prop) l : Forall P l -> Forall P (removelast l).
Proof. induction 1 as [|x l H F IH]; cbn; [constructor|]. destruct l; [constructor|]. constructor; assumption. Qed.
Lemma cuts_8_32 : cuts t8_32 utf8_of utf32_of.
Proof. intros cs c x w X W. destruct (cut_8 _ _ _ _ X W) as (s & E). exists s, cs. split; [exact E|]. apply text32_self. eapply text_scalars; [exact utf8_scalar|exact X]. Qed.
Lemma cuts_16_32 : cuts t16_32 utf16_of utf32_of.
Proof. intros cs c x w X W. destruct (cut_16 _ _ _ _ X W) as (s & E). exists s, cs. split; [exact E|]. apply text32_self. eapply text_scalars; [exact utf16_scalar|exact X]. Qed.
Lemma cuts_tri cap I O (valid : N -> Prop) Inv from to : decoder I cap valid Inv -> encoder O to ->
  (forall cs c x w, text from cs x -> from c w -> Forall valid (x ++ w)) ->
  (forall cs c x w, text from cs x -> from c w -> exists s, feed I (tc_init I) (removelast (x ++ w)) = Ok (s, cs)) -> cuts (triangulator cap I O) from to.
Proof.
  intros D E V C cs c x w X W. destruct (C _ _ _ _ X W) as (s & G).
  destruct (tri_feed I O cap valid Inv to D E _ (removelast_bound _ _ (V _ _ _ _ X W)) (tc_init I) (tc_init O) (dec_init _ _ _ _ D)) as (i & o & w1 & w2 & E1 & _ & E2 & T & _).
  rewrite G in E1. injection E1 as <- <-. exists (s, o), w2. split; [exact E2|exact T].
Qed.
Lemma bytes_8 cs c x w : text utf8_of cs x -> utf8_of c w -> Forall (fun u => u < 256) (x ++ w).
Proof. intros X W. apply Forall_app. split; [eapply text_bytes8; exact X|eapply utf8_bytes; exact W]. Qed.
Lemma units_16 cs c x w : text utf16_of cs x -> utf16_of c w -> Forall (fun u => u < 2 ^ 16) (x ++ w).
Proof. intros X W. apply Forall_app. split; [eapply text_units16; exact X|]. eapply text_units16 with (cs := [c]). rewrite <- (app_nil_r w). constructor; [exact W|constructor]. Qed.
Lemma units_32 cs c x w : text utf32_of cs x -> utf32_of c w -> Forall (fun u => u < 2 ^ 32) (x ++ w).
Proof. intros X W. apply Forall_app. split; [eapply text_units32; exact X|]. eapply text_units32 with (cs := [c]). rewrite <- (app_nil_r w). constructor; [exact W|constructor]. Qed.
Lemma cuts_32 O to : encoder O to -> cuts O utf32_of to.
Proof.
  intros E cs c x w X W. destruct W as [c Hc]. rewrite removelast_text by discriminate. cbn [removelast]. rewrite app_nil_r.
  apply text32 in X. destruct X as [<- S]. destruct (enc_feed _ _ E _ _ _ (reads32_scalars _ S) (tc_init O)) as (o & w' & F & T & _). eauto.
Qed.
(* the nine views, with the forms they read and write *)
Inductive view_forms : tcdr -> nat -> (N -> list N -> Prop) -> (N -> list N -> Prop) -> Prop :=
| vf_8_8 : view_forms t8_8 max_output_8 utf8_of utf8_of | vf_8_16 : view_forms t8_16 max_output_16 utf8_of utf16_of | vf_8_32 : view_forms t8_32 max_output_32 utf8_of utf32_of
| vf_16_8 : view_forms t16_8 max_output_16_8 utf16_of utf8_of | vf_16_16 : view_forms t16_16 max_output_16 utf16_of utf16_of | vf_16_32 : view_forms t16_32 max_output_16_32 utf16_of utf32_of
| vf_32_8 : view_forms t32_8 max_output_8 utf32_of utf8_of | vf_32_16 : view_forms t32_16 max_output_16 utf32_of utf16_of | vf_32_32 : view_forms t32_32 max_output_32 utf32_of utf32_of.
Lemma cuts_all T cap from to : view_forms T cap from to -> cuts T from to.
Proof.
  intros []; first [exact cuts_8_32|exact cuts_16_32|apply cuts_32; first [exact encoder_8|exact encoder_16|exact encoder_32]|idtac];
  (eapply cuts_tri; [first [exact decoder_8|exact decoder_16]|first [exact encoder_8|exact encoder_16]|first [exact bytes_8|exact units_16]|first [exact cut_8|exact cut_16]]).
Qed.
Lemma text_snoc form cs c x w : text form cs x -> form c w -> text form (cs ++ [c]) (x ++ w).
Proof. intros X W. apply text_app; [exact X|]. rewrite <- (app_nil_r w). constructor; [exact W|constructor]. Qed.
Lemma text_split form cs c us : text form (cs ++ [c]) us -> exists x w, us = x ++ w /\ text form cs x /\ form c w.
Proof.
  revert us; induction cs as [|a cs IH]; cbn [app]; intros us H; inversion H as [|c' w cs' us' F T]; subst.
  - inversion T; subst. exists [], w. rewrite app_nil_r. split; [reflexivity|]. split; [constructor|exact F].
  - destruct (IH _ T) as (x & w1 & -> & X & W). exists (w ++ x), w1. rewrite <- app_assoc. split; [reflexivity|]. split; [now constructor|exact W].
Qed.
Lemma encodes O to cs : encoder O to -> Forall scalar cs -> exists o, text to cs o.
Proof. intros E S. destruct (enc_feed _ _ E _ _ _ (reads32_scalars _ S) (tc_init O)) as (o & w' & F & T & _). eauto. Qed.
Lemma view_text_gen T cap bound (reads : list N -> list N -> bool -> Prop) O from to cs c us : view_of T cap bound -> converts T reads to bound -> encoder O to ->
  cuts T from to -> (forall c w, from c w -> scalar c) -> (forall cs us, text from cs us -> reads us cs true) -> Forall (fun u => u < bound) us -> us <> [] ->
  text from (cs ++ [c]) us ->
  exists out, text to cs out /\ forall fuel, (length out < fuel)%nat -> view_iterate_shared T cap us fuel = Ok (out, true).
Proof.
  intros V C E Q S R B NE X. destruct (text_split _ _ _ _ X) as (x & w & -> & Tx & W). destruct (Q _ _ _ _ Tx W) as (s & out & G & To).
  exists out. split; [exact To|]. destruct (encodes _ _ _ E (text_scalars _ _ _ S X)) as (o & O').
  assert (Z : transcode T (x ++ w) = Ok (o, true)) by (apply (C _ B); eauto).
  destruct (views_shared T cap bound _ V B NE) as (out' & ok & s' & shown & Z' & G' & H). rewrite G in G'. injection G' as <- <-. rewrite Z in Z'. injection Z' as <- <-. exact H.
Qed.
Lemma text_ne form cs c us : nonempty form -> text form (cs ++ [c]) us -> us <> [].
Proof. intros N X. eapply text_nonempty; [exact N|exact X|]. now destruct cs. Qed.
Lemma view_text T cap from to cs c us : view_forms T cap from to -> text from (cs ++ [c]) us ->
  exists out, text to cs out /\ forall fuel, (length out < fuel)%nat -> view_iterate_shared T cap us fuel = Ok (out, true).
Proof.
  intros V X. pose proof (cuts_all _ _ _ _ V) as Q. destruct V.
  all: eapply view_text_gen; [constructor| | |exact Q| | | | |exact X].
  all: first [exact conv_8_8|exact conv_8_16|exact conv_8_32|exact conv_16_8|exact conv_16_16|exact conv_16_32|exact conv_32_8|exact conv_32_16|exact conv_32_32
    |exact encoder_8|exact encoder_16|exact encoder_32|exact utf8_scalar|exact utf16_scalar|exact utf32_scalar
    |exact (fun cs us H => text_reads8 us cs H)|exact (fun cs us H => proj2 (reads16_true us cs) H)
    |intros cs' us' H; apply text32 in H; destruct H as [-> H]; now apply reads32_scalars
    |eapply text_units8; exact X|eapply text_units16; exact X|eapply text_units32; exact X
    |eapply text_ne; [|exact X]; first [exact nonempty_8|exact nonempty_16|exact nonempty_32]].
Qed.
