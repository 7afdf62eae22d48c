(* The rule combinators implement parsing-expression grammars with actions. *)
From Verif Require Import Base ModelRule SpecPeg RuleFacts.
From Coq Require Import Lia ZifyBool ZifyNat ZifyN Sorted.

Scheme parses_ind' := Induction for parses Sort Prop
with repeats_ind' := Induction for repeats Sort Prop.
Combined Scheme parses_mut from parses_ind', repeats_ind'.

Section P.
Context {A : Type}.
Local Notation peg := (peg A).
Local Notation occ := (occ A).

(* --- the relation itself ------------------------------------------------ *)
Lemma parses_repeats_prefix :
  (forall (g : peg) pos s r, parses g pos s r ->
     match r with Some (m, _, rest) => s = m ++ rest | None => True end)
  /\ (forall (g : peg) max pos s n m (a : list occ) rest, repeats g max pos s n m a rest -> s = m ++ rest).
Proof.
  apply parses_mut; intros; subst; auto.
  - now rewrite app_assoc.
  - now rewrite app_assoc.
Qed.
Lemma parses_prefix (g : peg) pos s m a rest : parses g pos s (Some (m, a, rest)) -> s = m ++ rest.
Proof. intros H. exact (proj1 parses_repeats_prefix _ _ _ _ H). Qed.

Lemma parses_det_mut :
  (forall (g : peg) pos s r, parses g pos s r -> forall r', parses g pos s r' -> r = r')
  /\ (forall (g : peg) max pos s n m (a : list occ) rest, repeats g max pos s n m a rest ->
        forall n' m' a' rest', repeats g max pos s n' m' a' rest' -> n = n' /\ m = m' /\ a = a' /\ rest = rest').
Proof.
  apply parses_mut.
  - intros p pos c s H r' H'. inv H'; [auto|congruence].
  - intros p pos c s H r' H'. inv H'; [congruence|auto].
  - intros p pos r' H'. now inv H'.
  - intros g h pos s m a t m' a' rest _ IH1 _ IH2 r' H'. inv H'.
    + match goal with H : parses g _ _ _ |- _ => apply IH1 in H; inv H end.
      match goal with H : parses h _ _ _ |- _ => apply IH2 in H; inv H end. reflexivity.
    + match goal with H : parses g _ _ _ |- _ => apply IH1 in H; inv H end.
    + match goal with H : parses g _ _ _ |- _ => apply IH1 in H; inv H end.
      match goal with H : parses h _ _ _ |- _ => apply IH2 in H; inv H end.
  - intros g h pos s _ IH1 r' H'. inv H'; auto;
    match goal with H : parses g _ _ _ |- _ => apply IH1 in H; inv H end.
  - intros g h pos s m a t _ IH1 _ IH2 r' H'. inv H'; auto.
    match goal with H : parses g _ _ _ |- _ => apply IH1 in H; inv H end.
    match goal with H : parses h _ _ _ |- _ => apply IH2 in H; inv H end.
  - intros g x pos s m a rest _ IH r' H'. inv H'; match goal with H : parses g _ _ _ |- _ => apply IH in H; inv H end; auto.
  - intros g x pos s _ IH r' H'. inv H'; match goal with H : parses g _ _ _ |- _ => apply IH in H; inv H end; auto.
  - intros g pos s x _ IH r' H'. inv H'; match goal with H : parses g _ _ _ |- _ => apply IH in H; inv H end; auto.
  - intros g pos s _ IH r' H'. inv H'; match goal with H : parses g _ _ _ |- _ => apply IH in H; inv H end; auto.
  - intros g h pos s x _ IH r' H'. inv H'; match goal with H : parses g _ _ _ |- _ => apply IH in H; inv H end; auto.
  - intros g h pos s r _ IH1 _ IH2 r' H'. inv H'; [match goal with H : parses g _ _ _ |- _ => apply IH1 in H; inv H end|auto].
  - intros mi ma g pos s n m a rest _ IH Hn r' H'. inv H'; match goal with H : repeats g _ _ _ _ _ _ _ |- _ => apply IH in H; destruct H as (? & ? & ? & ?); subst end; [auto|lia].
  - intros mi ma g pos s n m a rest _ IH Hn r' H'. inv H'; match goal with H : repeats g _ _ _ _ _ _ _ |- _ => apply IH in H; destruct H as (? & ? & ? & ?); subst end; [lia|auto].
  - intros g max pos s _ IH n' m' a' rest' H'. inv H'; auto.
    match goal with H : parses g _ _ _ |- _ => apply IH in H; inv H end.
  - intros g pos s r _ IH n' m' a' rest' H'. inv H'; auto. congruence.
  - intros g max pos s m a t n m' a' rest _ IH1 Hm _ IH2 n2 m2 a2 rest2 H'. inv H'.
    + match goal with H : parses g _ _ _ |- _ => apply IH1 in H; inv H end.
    + congruence.
    + match goal with H : parses g _ _ _ |- _ => apply IH1 in H; inv H end.
      match goal with H : repeats g _ _ _ _ _ _ _ |- _ => apply IH2 in H; destruct H as (? & ? & ? & ?); subst end. auto.
Qed.
Lemma parses_det (g : peg) pos s r r' : parses g pos s r -> parses g pos s r' -> r = r'.
Proof. intros H H'. exact (proj1 parses_det_mut _ _ _ _ H _ H'). Qed.

(* with no upper bound every repetition consumes something *)
Lemma repeats_inf_count (g : peg) max pos s n m a rest :
  repeats g max pos s n m a rest -> max = None -> n <= length m.
Proof.
  induction 1 as [|g pos s r H|g max pos s m a t n m' a' rest H Hm Hr IH]; intros E; cbn; [lia|discriminate|].
  subst max. specialize (IH eq_refl). rewrite app_length. destruct m as [|c m]; [|cbn; lia]. exfalso.
  assert (t = s) by (apply parses_prefix in H; auto). subst t.
  cbn [one_less option_map length] in Hr. rewrite Nat.add_0_r in Hr.
  assert (H2 : repeats g None pos s (S n) ([] ++ m') (a ++ a') rest).
  { eapply R_step; eauto. cbn. now rewrite Nat.add_0_r. }
  destruct (proj2 parses_det_mut _ _ _ _ _ _ _ _ Hr _ _ _ _ H2) as (E & _). lia.
Qed.
Lemma repeats_max (g : peg) max pos s n m a rest : repeats g max pos s n m a rest ->
  match max with Some k => (N.of_nat n <= k)%N | None => True end.
Proof.
  induction 1 as [g max pos s H|g pos s r H|g max pos s m a t n m' a' rest H Hm Hr IH].
  - destruct max; [lia|auto]. - lia.
  - destruct max as [k|]; auto. cbn [one_less option_map] in IH. assert (k <> 0)%N by congruence. lia.
Qed.

(* --- actions are called in input order ----------------------------------- *)

Lemma within_mono lo hi lo' hi' (l : list occ) : lo' <= lo -> hi <= hi' -> Forall (within lo hi) l -> Forall (within lo' hi') l.
Proof. intros H1 H2. apply Forall_impl. unfold within. intros; lia. Qed.
Lemma parses_within_mut :
  (forall (g : peg) pos s r, parses g pos s r ->
     match r with Some (m, a, _) => Forall (within pos (pos + length m)) a | None => True end)
  /\ (forall (g : peg) max pos s n m (a : list occ) rest, repeats g max pos s n m a rest -> Forall (within pos (pos + length m)) a).
Proof.
  apply parses_mut; intros; auto.
  - rewrite app_length. apply Forall_app. split; (eapply within_mono; [| |eassumption]); lia.
  - apply Forall_app. split; auto. constructor; auto. unfold within, o_end. cbn. lia.
  - rewrite app_length. apply Forall_app. split; (eapply within_mono; [| |eassumption]); lia.
Qed.
Lemma ends_sorted_app (l1 l2 : list occ) k : ends_sorted l1 -> ends_sorted l2 ->
  Forall (fun o => o_end o <= k) l1 -> Forall (fun o => k <= o_end o) l2 -> ends_sorted (l1 ++ l2).
Proof.
  intros H1 H2 H3 H4. induction H1 as [|x l H IH Hx]; cbn; auto. inv H3. constructor; auto.
  - apply IH; auto.
  - apply Forall_app. split; auto. eapply Forall_impl; [|exact H4]. cbn. intros. lia.
Qed.
Lemma parses_sorted_mut :
  (forall (g : peg) pos s r, parses g pos s r ->
     match r with Some (m, a, _) => ends_sorted a | None => True end)
  /\ (forall (g : peg) max pos s n m (a : list occ) rest, repeats g max pos s n m a rest -> ends_sorted a).
Proof.
  assert (W : forall (g : peg) pos s m a rest, parses g pos s (Some (m, a, rest)) -> Forall (within pos (pos + length m)) a).
  { intros g pos s m a rest H. exact (proj1 parses_within_mut _ _ _ _ H). }
  assert (W2 := proj2 parses_within_mut).
  apply parses_mut; intros; auto; try constructor.
  - eapply ends_sorted_app with (k := pos + length m); auto.
    + eapply Forall_impl; [|eapply W; eassumption]. unfold within; intros; lia.
    + eapply Forall_impl; [|eapply (W h); eassumption]. unfold within, o_end; intros; lia.
  - eapply ends_sorted_app with (k := pos + length m); auto.
    all: first [eapply Forall_impl; [|eapply W; eassumption]; unfold within; intros; lia | repeat constructor].
  - eapply ends_sorted_app with (k := pos + length m); auto.
    + eapply Forall_impl; [|eapply W; eassumption]. unfold within; intros; lia.
    + eapply Forall_impl; [|eapply W2; eassumption]. unfold within, o_end; intros; lia.
Qed.
Lemma parses_text_mut :
  (forall (g : peg) pos s r, parses g pos s r ->
     match r with Some (m, a, _) => Forall (fun o => sub_at m (o_start o - pos) (o_text o)) a | None => True end)
  /\ (forall (g : peg) max pos s n m (a : list occ) rest, repeats g max pos s n m a rest ->
       Forall (fun o => sub_at m (o_start o - pos) (o_text o)) a).
Proof.
  assert (J : forall pos (m m' : str) (a a' : list occ),
    Forall (within (pos + length m) (pos + length m + length m')) a' ->
    Forall (fun o => sub_at m (o_start o - pos) (o_text o)) a ->
    Forall (fun o => sub_at m' (o_start o - (pos + length m)) (o_text o)) a' ->
    Forall (fun o => sub_at (m ++ m') (o_start o - pos) (o_text o)) (a ++ a')).
  { intros pos m m' a a' HW H1 H2. apply Forall_app. split.
    - eapply Forall_impl; [|exact H1]. intros o (pre & post & -> & E). exists pre, (post ++ m'). rewrite <- !app_assoc. auto.
    - rewrite Forall_forall in *. intros o Ho. destruct (H2 o Ho) as (pre & post & E1 & E). destruct (HW o Ho).
      exists (m ++ pre), post. rewrite E1, <- app_assoc. split; auto. rewrite app_length. lia. }
  assert (W : forall (g : peg) pos s m a rest, parses g pos s (Some (m, a, rest)) -> Forall (within pos (pos + length m)) a).
  { intros g pos s m a rest H. exact (proj1 parses_within_mut _ _ _ _ H). }
  apply parses_mut; intros; auto.
  - apply J; auto. eapply W; eauto.
  - apply Forall_app. split; auto. constructor; auto. exists [], []. cbn. rewrite app_nil_r. split; auto. lia.
  - apply J; auto. eapply (proj2 parses_within_mut); eauto.
Qed.

(* --- compile implements the relation --------------------------------------- *)
Lemma calls_app (a b : list occ) : calls (a ++ b) = calls a ++ calls b.
Proof. unfold calls. apply map_app. Qed.
Lemma result_consumes f (s m : str) (a : list occ) rest :
  f (rule_of s) = Ok (result (Some (m, a, rest))) -> s = m ++ rest -> consumes f s m (calls a) rest.
Proof. intros H1 H2. split; auto. Qed.
Lemma matched_none (r : rule A) : matched r rule_fail = Ok None.
Proof. reflexivity. Qed.

(* [eventually P]: P holds for every sufficiently large fuel *)
Lemma eventually_mono (P Q : nat -> Prop) : (forall n, P n -> Q n) -> eventually P -> eventually Q.
Proof. intros H (k & Hk). exists k. auto. Qed.
Lemma eventually_and (P Q : nat -> Prop) : eventually P -> eventually Q -> eventually (fun n => P n /\ Q n).
Proof. intros (k & Hk) (l & Hl). exists (k + l). intros n Hn. split; [apply Hk|apply Hl]; lia. Qed.

Lemma compile_mut :
  (forall (g : peg) pos s r, parses g pos s r -> bounds_ok g -> (N.of_nat (length s) < 2 ^ 32)%N ->
     eventually (fun fuel => compile fuel g (rule_of s) = Ok (result r)))
  /\ (forall (g : peg) max pos s n m (a : list occ) rest, repeats g max pos s n m a rest -> bounds_ok g ->
        (N.of_nat (length s) < 2 ^ 32)%N ->
       eventually (fun fuel => exists items, greedy (compile fuel g) max s items rest /\ length items = n
          /\ List.concat (map fst items) = m /\ List.concat (map snd items) = calls a)).
Proof.
  apply parses_mut; cbn [bounds_ok].
  - intros p pos c s H _ _. exists 0. intros fuel _. cbn. rewrite H. reflexivity.
  - intros p pos c s H _ _. exists 0. intros fuel _. cbn. rewrite H. reflexivity.
  - intros p pos _ _. exists 0. intros fuel _. reflexivity.
  - intros g h pos s m a t m' a' rest H1 IH1 H2 IH2 [B1 B2] Hl.
    pose proof (parses_prefix _ _ _ _ _ _ H1) as E1. pose proof (parses_prefix _ _ _ _ _ _ H2) as E2.
    eapply eventually_mono; [|apply eventually_and; [apply IH1; auto|apply IH2; auto]].
    2:{ subst s. rewrite app_length in Hl. lia. }
    intros n [F1 F2]. cbn [compile bind]. unfold concat, rule_of.
    rewrite (concat_impl_consumes _ None false _ _ _ _ _ (result_consumes _ _ _ _ _ F1 E1)). cbn [bind].
    rewrite (concat_impl_consumes _ None false _ _ _ _ _ (result_consumes _ _ _ _ _ F2 E2)). cbn [bind].
    subst s t. rewrite app_assoc, matched_prefix. cbn [result]. now rewrite calls_app.
  - intros g h pos s H1 IH1 [B1 B2] Hl. eapply eventually_mono; [|apply IH1; auto].
    intros n F. cbn [compile bind]. unfold concat, rule_of.
    rewrite (concat_impl_rejects _ None false _ _ F). reflexivity.
  - intros g h pos s m a t H1 IH1 H2 IH2 [B1 B2] Hl.
    pose proof (parses_prefix _ _ _ _ _ _ H1) as E1.
    eapply eventually_mono; [|apply eventually_and; [apply IH1; auto|apply IH2; auto]].
    2:{ subst s. rewrite app_length in Hl. lia. }
    intros n [F1 F2]. cbn [compile bind]. unfold concat, rule_of.
    rewrite (concat_impl_consumes _ None false _ _ _ _ _ (result_consumes _ _ _ _ _ F1 E1)). cbn [bind].
    rewrite (concat_impl_rejects _ None false _ _ F2). reflexivity.
  - intros g x pos s m a rest H1 IH1 B1 Hl. pose proof (parses_prefix _ _ _ _ _ _ H1) as E1.
    eapply eventually_mono; [|apply IH1; auto]. intros n F. cbn [compile bind]. unfold concat_a, rule_of.
    rewrite (concat_impl_consumes _ _ false _ _ _ _ _ (result_consumes _ _ _ _ _ F E1)). cbn [bind].
    subst s. rewrite matched_prefix. cbn [result app]. now rewrite calls_app.
  - intros g x pos s H1 IH1 B1 Hl. eapply eventually_mono; [|apply IH1; auto]. intros n F. cbn [compile bind]. unfold concat_a, rule_of.
    rewrite (concat_impl_rejects _ _ false _ _ F). reflexivity.
  - intros g pos s [[m a] rest] H1 IH1 B1 Hl. pose proof (parses_prefix _ _ _ _ _ _ H1) as E1.
    eapply eventually_mono; [|apply IH1; auto]. intros n F. cbn [compile bind]. unfold optional, rule_of.
    rewrite (optional_consumes _ None _ _ _ _ _ (result_consumes _ _ _ _ _ F E1)). cbn [bind].
    subst s. rewrite matched_prefix. reflexivity.
  - intros g pos s H1 IH1 B1 Hl. eapply eventually_mono; [|apply IH1; auto]. intros n F. cbn [compile bind]. unfold optional, rule_of.
    rewrite (optional_rejects _ None _ _ F). cbn [bind]. exact (matched_prefix _ [] s []).
  - intros g h pos s [[m a] rest] H1 IH1 [B1 B2] Hl. pose proof (parses_prefix _ _ _ _ _ _ H1) as E1.
    eapply eventually_mono; [|apply IH1; auto]. intros n F. cbn [compile bind]. unfold rule_of.
    rewrite (alternative_first [] (compile n g) [compile n h] _ _ _ _ _ ltac:(constructor) (result_consumes _ _ _ _ _ F E1)). cbn [bind].
    subst s. rewrite matched_prefix. reflexivity.
  - intros g h pos s r H1 IH1 H2 IH2 [B1 B2] Hl.
    eapply eventually_mono; [|apply eventually_and; [apply IH1; auto|apply IH2; auto]].
    intros n [F1 F2]. cbn [compile bind]. unfold rule_of. destruct r as [[[m a] rest]|].
    + pose proof (parses_prefix _ _ _ _ _ _ H2) as E2.
      rewrite (alternative_first [compile n g] (compile n h) [] _ _ _ _ _ ltac:(repeat constructor; exact F1) (result_consumes _ _ _ _ _ F2 E2)). cbn [bind].
      subst s. rewrite matched_prefix. reflexivity.
    + rewrite alternative_none; [reflexivity|]. repeat constructor; auto.
  - intros mi ma g pos s n m a rest H1 IH1 Hn (B1 & B2 & B3) Hl. destruct (IH1 B3 Hl) as (k & Hk). exists (k + S n). intros fuel Hf.
    destruct (Hk fuel) as (items & Hg & L1 & L2 & L3); [lia|]. cbn [compile bind]. unfold rule_of.
    assert (Hc : (N.of_nat n < 2 ^ 32)%N).
    { destruct ma as [k'|]; [apply repeats_max in H1; cbn in B2; unfold uint_max in B2; lia|].
      pose proof (proj2 parses_repeats_prefix _ _ _ _ _ _ _ _ H1) as E. apply repeats_inf_count in H1; auto. subst s. rewrite app_length in Hl. lia. }
    rewrite (star_greedy _ mi ma _ _ _ fuel [] Hg B1 B2); [|rewrite L1; exact Hc|lia]. rewrite L1.
    destruct (N.ltb_spec (N.of_nat n) mi); [lia|]. cbn [bind]. rewrite (greedy_prefix _ _ _ _ _ Hg) at 1.
    rewrite matched_prefix, L2, L3. reflexivity.
  - intros mi ma g pos s n m a rest H1 IH1 Hn (B1 & B2 & B3) Hl. destruct (IH1 B3 Hl) as (k & Hk). exists (k + S n). intros fuel Hf.
    destruct (Hk fuel) as (items & Hg & L1 & L2 & L3); [lia|]. cbn [compile bind]. unfold rule_of.
    assert (Hc : (N.of_nat n < 2 ^ 32)%N).
    { destruct ma as [k'|]; [apply repeats_max in H1; cbn in B2; unfold uint_max in B2; lia|].
      pose proof (proj2 parses_repeats_prefix _ _ _ _ _ _ _ _ H1) as E. apply repeats_inf_count in H1; auto. subst s. rewrite app_length in Hl. lia. }
    rewrite (star_greedy _ mi ma _ _ _ fuel [] Hg B1 B2); [|rewrite L1; exact Hc|lia]. rewrite L1.
    destruct (N.ltb_spec (N.of_nat n) mi); [reflexivity|lia].
  - intros g max pos s H IH B Hl. eapply eventually_mono; [|apply IH; auto]. intros n F. exists []. split; [now apply greedy_stop|auto].
  - intros g pos s r H IH B Hl. eapply eventually_mono; [|apply IH; auto]. intros n F. exists []. split; [eapply greedy_max; exact F|auto].
  - intros g max pos s m a t n m' a' rest H1 IH1 Hm H2 IH2 B Hl. pose proof (parses_prefix _ _ _ _ _ _ H1) as E1.
    eapply eventually_mono; [|apply eventually_and; [apply IH1; auto|apply IH2; auto]].
    2:{ subst s. rewrite app_length in Hl. lia. }
    intros k [F1 (items & Hg & L1 & L2 & L3)]. exists ((m, calls a) :: items). repeat split.
    + eapply greedy_step; eauto. apply result_consumes; auto.
    + cbn. now rewrite L1.
    + cbn. now rewrite L2.
    + cbn. now rewrite L3, calls_app.
Qed.
Lemma compile_parses (g : peg) pos s r : parses g pos s r -> bounds_ok g -> (N.of_nat (length s) < 2 ^ 32)%N ->
  eventually (fun fuel => compile fuel g (rule_of s) = Ok (result r)).
Proof. apply compile_mut. Qed.

Lemma done_parses (g : peg) s r : parses g 0 s r -> bounds_ok g -> (N.of_nat (length s) < 2 ^ 32)%N ->
  eventually (fun fuel => forall St (run : A -> str -> St -> outcome St) st,
    (do r' <- concat (compile fuel g) (rule_of s); done run r' st) =
    match r with
    | Some (_, acts, []) => do st' <- run_accs run (calls acts) st; Ok (true, st')
    | _ => Ok (false, st)
    end).
Proof.
  intros H B Hl. eapply eventually_mono; [|apply (compile_parses _ _ _ _ H B Hl)]. intros n F St run st.
  unfold concat, rule_of. destruct r as [[[m a] rest]|].
  - rewrite (concat_impl_consumes _ None false _ _ _ _ _ (result_consumes _ _ _ _ _ F (parses_prefix _ _ _ _ _ _ H))). cbn [bind].
    unfold done. cbn [tail accs app]. destruct rest; reflexivity.
  - rewrite (concat_impl_rejects _ None false _ _ F). reflexivity.
Qed.

Lemma never_empty_mut :
  (forall (g : peg) pos s r, parses g pos s r -> never_empty g = true ->
     match r with Some (m, _, _) => m <> [] | None => True end)
  /\ (forall (g : peg) max pos s n m (a : list occ) rest, repeats g max pos s n m a rest ->
       never_empty g = true -> n <> 0 -> m <> []).
Proof.
  apply parses_mut; cbn [never_empty]; intros; auto; try congruence.
  - apply orb_true_iff in H1. destruct m; [|discriminate]. destruct m'; [|discriminate]. destruct H1; intuition.
  - destruct x as [[m a] rest]. apply andb_true_iff in H0. tauto.
  - apply andb_true_iff in H1. tauto.
  - apply andb_true_iff in H0. destruct H0. apply H; auto. lia.
  - destruct m; [|discriminate]. exfalso. apply H; auto.
Qed.
Lemma parses_exists (g : peg) : stars_ok g = true -> forall pos s, exists r, parses g pos s r.
Proof.
  induction g as [p|g IHg h IHh|g IHg x|g IHg|g IHg h IHh|min max g IHg]; cbn [stars_ok]; intros W pos s;
    try (apply andb_true_iff in W; destruct W as [W1 W2]).
  - destruct s as [|c s]; [eexists; constructor|]. destruct (p c) eqn:E; eexists; [now apply P_chr|now apply P_chr_no].
  - destruct (IHg W1 pos s) as ([[[m a] t]|] & H); [|eexists; now apply P_seq_no1].
    destruct (IHh W2 (pos + length m) t) as ([[[m' a'] rest]|] & H'); eexists; [eapply P_seq|eapply P_seq_no2]; eauto.
  - destruct (IHg W pos s) as ([[[m a] t]|] & H); eexists; [eapply P_act|eapply P_act_no]; eauto.
  - destruct (IHg W pos s) as ([[[m a] t]|] & H); eexists; [eapply P_opt|eapply P_opt_no]; eauto.
  - destruct (IHg W1 pos s) as ([x|] & H); [eexists; eapply P_or1; eauto|].
    destruct (IHh W2 pos s) as (r & H'). eexists. eapply P_or2; eauto.
  - assert (R : forall k max pos s, length s = k -> exists n m a rest, repeats g max pos s n m a rest).
    { clear pos s max. induction k as [k IHk] using lt_wf_ind. intros max pos s Hk.
      destruct (IHg W2 pos s) as ([[[m a] t]|] & H); [|exists 0, [], [], s; now apply R_stop].
      assert (D : max = Some 0%N \/ max <> Some 0%N). { destruct max as [[|k']|]; auto; right; discriminate. }
      destruct D as [->|D]; [exists 0, [], [], s; eapply R_max; eauto|].
      pose proof (proj1 never_empty_mut _ _ _ _ H W1) as Hm. pose proof (parses_prefix _ _ _ _ _ _ H) as Hs.
      destruct (IHk (length t)) with (max := one_less max) (pos := pos + length m) (s := t) as (n & m' & a' & rest & Hr); auto.
      { subst s k. rewrite app_length. cbn beta iota in Hm. destruct m; [congruence|cbn; lia]. }
      do 4 eexists. eapply R_step; eauto. }
    destruct (R (length s) max pos s eq_refl) as (n & m & a & rest & Hr).
    destruct (N.ltb_spec (N.of_nat n) min); eexists; [eapply P_star_no|eapply P_star]; eauto.
Qed.

Lemma parses_function (g : peg) : stars_ok g = true ->
  forall pos s, exists r, parses g pos s r /\ forall r', parses g pos s r' -> r' = r.
Proof. intros H pos s. destruct (parses_exists g H pos s) as (r & Hr). exists r. split; auto. intros. eapply parses_det; eauto. Qed.
Lemma parses_order (g : peg) pos s m acts rest : parses g pos s (Some (m, acts, rest)) ->
  s = m ++ rest /\ ends_sorted acts /\ Forall (within pos (pos + length m)) acts
  /\ Forall (fun o => sub_at m (o_start o - pos) (o_text o)) acts.
Proof.
  intros H. split; [eapply parses_prefix; eauto|]. split; [exact (proj1 parses_sorted_mut _ _ _ _ H)|].
  split; [exact (proj1 parses_within_mut _ _ _ _ H)|exact (proj1 parses_text_mut _ _ _ _ H)].
Qed.
End P.
