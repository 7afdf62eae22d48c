(* The UTF-8 decoder computes reads8 *)
From Verif Require Import Base ModelIcu SpecIcu IcuUtf8.
Local Open Scope N_scope.
Local Open Scope list_scope.

Lemma incomplete_row p v : v <> [] -> table_3_7 (p ++ v) -> incomplete8 p.
Proof. intros H R. destruct (row_utf8 _ R) as [c U]. exists c, v. split; assumption. Qed.
Lemma pending_incomplete p st cp : pending p st cp -> incomplete8 p.
Proof.
  intros H. destruct H.
  - apply (incomplete_row _ [0x80]); [discriminate|]. apply row2; unfold between in *; lia.
  - apply (incomplete_row _ [0xA0; 0x80]); [discriminate|]. apply row3; unfold between in *; lia.
  - apply (incomplete_row _ [0x80; 0x80]); [discriminate|]. destruct H; [apply row4|apply row6]; unfold between in *; lia.
  - apply (incomplete_row _ [0x80; 0x80]); [discriminate|]. apply row5; unfold between in *; lia.
  - apply (incomplete_row _ [0x80]); [discriminate|]. unfold between in *.
    destruct (N.eq_dec a 0xE0) as [->|]; [apply row3; unfold between; lia|].
    destruct (N.eq_dec a 0xED) as [->|]; [apply row5; unfold between; lia|].
    destruct (N.lt_ge_cases a 0xED); [apply row4|apply row6]; unfold between; lia.
  - apply (incomplete_row _ [0x90; 0x80; 0x80]); [discriminate|]. apply row7; unfold between in *; lia.
  - apply (incomplete_row _ [0x80; 0x80; 0x80]); [discriminate|]. apply row8; unfold between in *; lia.
  - apply (incomplete_row _ [0x80; 0x80; 0x80]); [discriminate|]. apply row9; unfold between in *; lia.
  - apply (incomplete_row _ [0x80; 0x80]); [discriminate|]. unfold between in *.
    destruct (N.eq_dec a 0xF0) as [->|]; [apply row7; unfold between; lia|].
    destruct (N.eq_dec a 0xF4) as [->|]; [apply row9; unfold between; lia|].
    apply row8; unfold between; lia.
  - apply (incomplete_row _ [0x80]); [discriminate|]. unfold between in *.
    destruct (N.eq_dec a 0xF0) as [->|]; [apply row7; unfold between; lia|].
    destruct (N.eq_dec a 0xF4) as [->|]; [apply row9; unfold between; lia|].
    apply row8; unfold between; lia.
Qed.
Lemma pending_nonempty p st cp : pending p st cp -> p <> [].
Proof. intros []; discriminate. Qed.
Lemma pending_state p st cp : pending p st cp -> st <> 0 /\ st <> 12.
Proof. intros []; split; discriminate. Qed.

Definition step_result (p : list N) (u : N) (s s' : s8) (w : list N) : Prop :=
  (exists c, utf8_of c (p ++ [u]) /\ s' = S8 c (s8_wf s) 0 /\ w = [c])
  \/ (exists st cp, pending (p ++ [u]) st cp /\ s' = S8 cp (s8_wf s) st /\ w = [])
  \/ (dead8 (p ++ [u]) /\ (exists cp, s' = S8 cp false 0) /\ w = [fffd]).
Lemma step8 p s u : inv8 p s -> u < 256 -> exists s' w, t8_32_call s u = Ok (s', w) /\ step_result p u s s' w.
Proof.
  intros I H. destruct I as [cp wf|p st cp wf P].
  - destruct (step8_accept cp wf u H) as [(c & U & E)|[(st & cp' & Q & E)|(D & cp' & E)]]; rewrite E; do 2 eexists; (split; [reflexivity|]).
    + left. exists c. auto.
    + right; left. exists st, cp'. auto.
    + right; right. eauto.
  - destruct (step8_pending p st cp wf u P H) as [(c & U & E)|[(st' & cp' & Q & E)|(D & cp' & E)]]; rewrite E; do 2 eexists; (split; [reflexivity|]).
    + left. exists c. auto.
    + right; left. exists st', cp'. auto.
    + right; right. eauto.
Qed.
Definition next_pending (p : list N) (u : N) (w : list N) : list N := match w with [] => p ++ [u] | _ => [] end.
Lemma step8_inv p u s s' w : step_result p u s s' w -> inv8 (next_pending p u w) s'.
Proof.
  intros [(c & _ & -> & ->)|[(st & cp & Q & -> & ->)|(_ & (cp & ->) & ->)]]; cbn [next_pending]; constructor. exact Q.
Qed.

Definition finish8 (s : s8) (l : list N) : outcome (list N * bool) :=
  do (s1, w) <- feed t8_32 s l; do (s2, w') <- tc_end t8_32 s1; Ok (w ++ w', tc_wf t8_32 s2).
Lemma finish8_nil s : finish8 s [] = do (s2, w') <- t8_32_end s; Ok (w', s8_wf s2).
Proof. reflexivity. Qed.
Lemma finish8_cons s u l : finish8 s (u :: l) =
  do (s1, w) <- t8_32_call s u; do (r, ok) <- finish8 s1 l; Ok (w ++ r, ok).
Proof.
  unfold finish8. cbn [feed tc_op t8_32]. destruct (t8_32_call s u) as [[s1 w]| |]; cbn [bind]; try reflexivity.
  change (tc_st t8_32) with s8. destruct (feed t8_32 s1 l) as [[s2 w2]| |]; cbn [bind]; try reflexivity.
  destruct (tc_end t8_32 s2) as [[s3 w3]| |]; cbn [bind]; try reflexivity. now rewrite app_assoc.
Qed.

Lemma andb_f b : b && false = false. Proof. destruct b; reflexivity. Qed.
Lemma finish8_sound l : Forall (fun u => u < 256) l -> forall p s, inv8 p s ->
  exists out ok, finish8 s l = Ok (out, s8_wf s && ok) /\ reads8 (p ++ l) out ok.
Proof.
  induction 1 as [|u l Hu Hl IH]; intros p s I.
  - rewrite finish8_nil, app_nil_r. destruct I as [cp wf|p st cp wf P].
    + exists [], true. rewrite andb_true_r. split; [reflexivity|constructor].
    + exists [fffd], false. rewrite andb_f. split.
      * unfold t8_32_end. cbn [s8_state]. destruct (pending_state _ _ _ P) as [Z _].
        apply N.eqb_neq in Z. change accept with 0. rewrite Z. reflexivity.
      * apply r8_truncated; [eapply pending_nonempty|eapply pending_incomplete]; eassumption.
  - rewrite finish8_cons. destruct (step8 p s u I Hu) as (s' & w & E & R). rewrite E. cbn [bind].
    pose proof (step8_inv _ _ _ _ _ R) as I'. destruct (IH _ _ I') as (out & ok & E' & R'). rewrite E'. cbn [bind].
    destruct R as [(c & U & -> & ->)|[(st & cp & Q & -> & ->)|(D & (cp & ->) & ->)]]; cbn [next_pending s8_wf] in *.
    + exists (c :: out), ok. split; [reflexivity|].
      replace (p ++ u :: l) with ((p ++ [u]) ++ l) by (rewrite <- app_assoc; reflexivity).
      apply r8_good; assumption.
    + exists out, ok. split; [reflexivity|].
      rewrite <- app_assoc in R'. exact R'.
    + exists (fffd :: out), false. rewrite andb_f. split; [reflexivity|].
      destruct D as [D1 D2]. eapply r8_bad; try eassumption.
      destruct I; [left; reflexivity|right; eapply pending_incomplete; eassumption].
Qed.

(* the specification determines the result *)
Lemma utf8_bytes c w : utf8_of c w -> Forall (fun u => u < 256) w.
Proof. intros H. apply utf8_row in H. destruct H; unfold between in *; repeat constructor; lia. Qed.
Lemma incomplete_prefix p q : incomplete8 (p ++ q) -> incomplete8 p.
Proof. intros (c & v & H & U). exists c, (q ++ v). split; [destruct q; [exact H|discriminate]|]. now rewrite app_assoc. Qed.
Lemma complete_prefix c p q : q <> [] -> utf8_of c (p ++ q) -> incomplete8 p.
Proof. intros H U. exists c, q. auto. Qed.
Lemma complete_not_incomplete c w : utf8_of c w -> incomplete8 w -> False.
Proof. intros U (c' & v & H & U'). destruct (utf8_prefix _ _ _ _ U U'). contradiction. Qed.
Lemma incomplete_bytes p : incomplete8 p -> Forall (fun u => u < 256) p.
Proof. intros (c & v & _ & U). apply utf8_bytes in U. apply Forall_app in U. apply U. Qed.
Lemma dead_not p : dead8 p -> ~ incomplete8 p /\ ~ exists c, utf8_of c p.
Proof. auto. Qed.

Lemma feed_app T s a b : feed T s (a ++ b) = do (s1, w1) <- feed T s a; do (s2, w2) <- feed T s1 b; Ok (s2, w1 ++ w2).
Proof.
  revert s; induction a as [|u a IH]; intros s.
  - cbn [app feed bind]. destruct (feed T s b) as [[? ?]| |]; reflexivity.
  - cbn [app feed]. destruct (tc_op T s u) as [[s1 w1]| |]; cbn [bind]; try reflexivity.
    rewrite IH. destruct (feed T s1 a) as [[s2 w2]| |]; cbn [bind]; try reflexivity.
    destruct (feed T s2 b) as [[s3 w3]| |]; cbn [bind]; try reflexivity. now rewrite app_assoc.
Qed.
Lemma feed_incomplete p cp wf : p = [] \/ incomplete8 p -> exists s, feed t8_32 (S8 cp wf 0) p = Ok (s, []) /\ inv8 p s /\ s8_wf s = wf.
Proof.
  induction p as [|u p IH] using rev_ind; intros H.
  - exists (S8 cp wf 0). repeat split. constructor.
  - destruct H as [H|H]; [destruct p; discriminate|].
    destruct IH as (s & E & I & W); [right; eapply incomplete_prefix; exact H|].
    rewrite feed_app, E. cbn [bind feed tc_op t8_32].
    assert (Hu : u < 256). { apply incomplete_bytes in H. apply Forall_app in H. destruct H as [_ H]. inversion H; assumption. }
    destruct (step8 p s u I Hu) as (s' & w & E' & R). rewrite E'. cbn [bind].
    destruct R as [(c & U & -> & ->)|[(st & cp' & Q & -> & ->)|(D & (cp' & ->) & ->)]].
    + exfalso. eapply complete_not_incomplete; eassumption.
    + eexists. split; [reflexivity|]. split; [constructor; exact Q|exact W].
    + exfalso. apply (proj1 D). exact H.
Qed.
Lemma feed_good c w cp wf : utf8_of c w -> feed t8_32 (S8 cp wf 0) w = Ok (S8 c wf 0, [c]).
Proof.
  intros U. destruct (exists_last (utf8_nonempty _ _ U)) as (p & u & ->).
  destruct (feed_incomplete p cp wf) as (s & E & I & W).
  { right. eapply complete_prefix; [|exact U]. discriminate. }
  assert (Hu : u < 256). { apply utf8_bytes in U. apply Forall_app in U. destruct U as [_ H]. inversion H; assumption. }
  rewrite feed_app, E. cbn [bind feed tc_op t8_32].
  destruct (step8 p s u I Hu) as (s' & w & E' & R). rewrite E'. cbn [bind].
  destruct R as [(c' & U' & -> & ->)|[(st & cp' & Q & -> & ->)|(D & (cp' & ->) & ->)]].
  - assert (c = c') as <- by (apply (utf8_prefix c c' (p ++ [u]) []); rewrite ?app_nil_r; assumption).
    rewrite W. reflexivity.
  - exfalso. eapply complete_not_incomplete; [exact U|]. eapply pending_incomplete; exact Q.
  - exfalso. apply (proj2 D). eauto.
Qed.
Lemma feed_bad p b cp wf : b < 256 -> p = [] \/ incomplete8 p -> dead8 (p ++ [b]) ->
  exists cp', feed t8_32 (S8 cp wf 0) (p ++ [b]) = Ok (S8 cp' false 0, [fffd]).
Proof.
  intros Hb H D. destruct (feed_incomplete p cp wf H) as (s & E & I & W).
  rewrite feed_app, E. cbn [bind feed tc_op t8_32].
  destruct (step8 p s b I Hb) as (s' & w & E' & R). rewrite E'. cbn [bind].
  destruct R as [(c' & U' & -> & ->)|[(st & cp' & Q & -> & ->)|(D' & (cp' & ->) & ->)]].
  - exfalso. apply (proj2 D). eauto.
  - exfalso. apply (proj1 D). eapply pending_incomplete; exact Q.
  - eexists. reflexivity.
Qed.
Lemma finish8_app a s s1 w l : feed t8_32 s a = Ok (s1, w) -> finish8 s (a ++ l) = do (r, ok) <- finish8 s1 l; Ok (w ++ r, ok).
Proof.
  intros E. unfold finish8. rewrite feed_app, E. cbn [bind].
  change (tc_st t8_32) with s8. destruct (feed t8_32 s1 l) as [[s2 w2]| |]; cbn [bind]; try reflexivity.
  destruct (tc_end t8_32 s2) as [[s3 w3]| |]; cbn [bind]; try reflexivity. now rewrite app_assoc.
Qed.
Lemma finish8_complete l out ok : reads8 l out ok -> Forall (fun u => u < 256) l -> forall cp wf,
  finish8 (S8 cp wf 0) l = Ok (out, wf && ok).
Proof.
  induction 1 as [|c w us cs ok U R IH|p b us cs ok Hp D1 D2 R IH|p Hn Hp]; intros B cp wf.
  - cbn. now rewrite andb_true_r.
  - apply Forall_app in B. destruct B as [_ B].
    rewrite (finish8_app _ _ _ _ _ (feed_good c w cp wf U)), (IH B). reflexivity.
  - apply Forall_app in B. destruct B as [_ B]. inversion B as [|? ? Hb B']; subst.
    destruct (feed_bad p b cp wf Hb Hp (conj D1 D2)) as (cp' & E).
    replace (p ++ b :: us) with ((p ++ [b]) ++ us) by (rewrite <- app_assoc; reflexivity).
    rewrite (finish8_app _ _ _ _ _ E), (IH B'). rewrite andb_f. reflexivity.
  - destruct (feed_incomplete p cp wf (or_intror Hp)) as (s & E & I & W).
    rewrite <- (app_nil_r p) at 1. rewrite (finish8_app _ _ _ _ _ E), finish8_nil.
    destruct I as [|p st cp' wf' P]; [contradiction|]. unfold t8_32_end. cbn [s8_state].
    destruct (pending_state _ _ _ P) as [Z _]. apply N.eqb_neq in Z. change accept with 0. rewrite Z. cbn.
    now rewrite andb_f.
Qed.

Lemma transcode_8_32 l out ok : Forall (fun u => u < 256) l ->
  (transcode t8_32 l = Ok (out, ok) <-> reads8 l out ok).
Proof.
  intros B. change (transcode t8_32 l) with (finish8 (S8 0 true 0) l). split.
  - intros E. destruct (finish8_sound l B [] _ (i8_accept 0 true)) as (out' & ok' & E' & R).
    cbn [s8_wf andb app] in *. rewrite E in E'. injection E' as -> ->. exact R.
  - intros R. rewrite (finish8_complete _ _ _ R B). reflexivity.
Qed.
Lemma transcode_8_32_total l : Forall (fun u => u < 256) l -> exists out ok, transcode t8_32 l = Ok (out, ok).
Proof.
  intros B. destruct (finish8_sound l B [] _ (i8_accept 0 true)) as (out' & ok' & E' & R). exists out', ok'. exact E'.
Qed.

(* reading and well-formedness *)
Lemma reads8_text l out ok : reads8 l out ok -> ok = true -> text utf8_of out l.
Proof. induction 1; intros E; try discriminate; constructor; auto. Qed.
Lemma text_reads8 l out : text utf8_of out l -> reads8 l out true.
Proof. induction 1; constructor; auto. Qed.
Lemma reads8_true l out : reads8 l out true <-> text utf8_of out l.
Proof. split; [intros H; eapply reads8_text; [exact H|reflexivity]|apply text_reads8]. Qed.
Lemma fffd_scalar : scalar fffd. Proof. right. split; reflexivity || discriminate. Qed.
Lemma reads8_scalar l out ok : reads8 l out ok -> Forall scalar out.
Proof. induction 1; repeat first [apply Forall_cons|apply Forall_nil]; auto using fffd_scalar. eapply utf8_scalar; eassumption. Qed.
Lemma reads8_flag l out ok : reads8 l out ok -> ok = false -> In fffd out.
Proof. induction 1; intros E; try discriminate; cbn; auto. Qed.
Lemma text_bytes8 out l : text utf8_of out l -> Forall (fun u => u < 256) l.
Proof. induction 1; [constructor|]. apply Forall_app. split; [eapply utf8_bytes; eassumption|assumption]. Qed.
