(* The iterators of a transcode view as cursors over what the transcoder produces. *)
From Verif Require Import Base ModelIcu SpecIcu IcuUtf8 IcuRead8 IcuEnc IcuView IcuViewAll IcuProps ModelHist SpecHist HistFacts.
From Coq Require Import Lia.
Local Open Scope list_scope.

(* the iterator does not depend on the view's flag, and the flag never turns true again *)
Lemma fill_flag T cap base fuel it wf wf2 it' wf' : fill T cap base fuel it wf = Ok (it', wf') ->
  exists wf2', fill T cap base fuel it wf2 = Ok (it', wf2') /\ (wf = false -> wf' = false).
Proof.
  unfold fill. destruct (negb _); [discriminate|]. destruct (fill_loop _ _ _ _ _ _ _) as [[[n tc] o]| |]; cbn [bind]; try discriminate.
  match goal with |- context [bind ?x _] => destruct x as [[tc' o']| |] end; cbn [bind]; try discriminate.
  destruct (Nat.ltb _ _); [discriminate|]. intros E. injection E as <- <-. eexists. split; [reflexivity|]. intros ->. destruct (tc_wf T tc'); reflexivity.
Qed.
Lemma next_flag T cap base fuel it wf wf2 it' wf' : vnext T cap base fuel it wf = Ok (it', wf') ->
  exists wf2', vnext T cap base fuel it wf2 = Ok (it', wf2') /\ (wf = false -> wf' = false).
Proof.
  unfold vnext. destruct (_ =? _)%N; [discriminate|]. cbn [v_first v_last]. destruct (_ =? _)%N.
  - apply fill_flag.
  - intros E. injection E as <- <-. eauto.
Qed.
Lemma begin_flag T cap base fuel wf wf2 it' wf' : vbegin T cap base fuel wf = Ok (it', wf') ->
  exists wf2', vbegin T cap base fuel wf2 = Ok (it', wf2') /\ (wf = false -> wf' = false).
Proof.
  unfold vbegin. destruct (Nat.eqb _ _).
  - intros E. injection E as <- <-. eauto.
  - apply fill_flag.
Qed.

Section HV.
Variables (T : tcdr) (cap : nat) (valid : N -> Prop) (Inv : tc_st T -> Prop).
Hypothesis HT : viewable T cap valid Inv.
Hypothesis Hcap : (cap < 16)%nat.
Variable base : list N.
Hypothesis Hbase : Forall valid base.
Hypothesis Hnil : transcode T [] = Ok ([], true).
Variables (out : list N) (ok : bool).
Hypothesis Htr : transcode T base = Ok (out, ok).

Fixpoint nth_it (i : nat) : outcome (vit T) :=
  match i with
  | O => do (it, _) <- vbegin T cap base (length base) true; Ok it
  | S i => do it <- nth_it i; do (it', _) <- vnext T cap base (length base) it true; Ok it'
  end.
Definition inside (it : vit T) (r : list N) : Prop := exists k rest,
  v_first T it = N.of_nat k /\ v_last T it = N.of_nat (length (v_out T it)) /\ (k < length (v_out T it) < 16)%nat
  /\ (v_current T it < length base)%nat /\ rest_is T cap Inv base (v_next T it) (v_tc T it) rest ok /\ r = skipn k (v_out T it) ++ rest.
Definition Rep (it : vit T) (i : nat) : Prop :=
  ((i < length out)%nat /\ nth_it i = Ok it /\ inside it (skipn i out)) \/ (i = length out /\ v_current T it = length base).

Lemma skipn_S {A} (l : list A) i x r : skipn i l = x :: r -> skipn (S i) l = r.
Proof. revert i; induction l as [|y l IH]; intros [|i] H; cbn in *; try discriminate; [congruence|]. apply IH. exact H. Qed.

Lemma flag_mix wf wf' r r' : (wf' && ok = wf && ok) -> (wf = false -> wf' = false) -> flag_ok ok wf r -> (r' = true -> r = true) -> flag_ok ok wf' r'.
Proof.
  intros E M [F1 F2] R. split.
  - intros ->. rewrite !andb_true_r in E. rewrite E. apply F1. reflexivity.
  - intros X. specialize (F2 (R X)). destruct ok; [rewrite !andb_true_r in E; congruence|]. apply M. exact F2.
Qed.

Lemma begin_rep fl r : flag_ok ok fl r -> exists it fl', vbegin T cap base (length base) fl = Ok (it, fl') /\ Rep it 0 /\ flag_ok ok fl' (r || Nat.eqb 0 (length out)).
Proof.
  intros F. destruct (Nat.eq_dec (length base) 0) as [Z|NZ].
  - assert (base = []) as Eb by (destruct base; [reflexivity|discriminate]). rewrite Eb in Htr. rewrite Hnil in Htr. injection Htr as Eo Ek.
    unfold vbegin. rewrite Z. cbn [Nat.eqb]. do 2 eexists. split; [reflexivity|]. split; [right; rewrite <- Eo; cbn; auto|].
    destruct F as [F1 F2]. split; [exact F1|]. intros _. rewrite <- Ek. apply F1. congruence.
  - set (it0 := Vit T 0 0 [] (tc_init T) 0 0).
    destruct (fill_spec T cap valid Inv HT Hcap base Hbase (length base) it0 fl out ok eq_refl ltac:(lia) ltac:(cbn; lia) (vw_init _ _ _ _ HT) Htr) as (it' & wf' & rest & E & C & F1 & L1 & B1 & R1 & R2 & W).
    assert (Eb : vbegin T cap base (length base) fl = Ok (it', wf')). { unfold vbegin. destruct (Nat.eqb_spec 0 (length base)) as [|_]; [lia|]. exact E. }
    exists it', wf'. split; [exact Eb|]. destruct (begin_flag _ _ _ _ _ true _ _ Eb) as (w2 & E2 & M). split.
    + left. split; [rewrite R1, app_length; lia|]. split; [cbn [nth_it]; rewrite E2; reflexivity|]. exists 0%nat, rest. cbn [skipn]. split; [exact F1|]. split; [exact L1|]. split; [lia|].
      split; [rewrite C; cbn; lia|]. split; [exact R2|exact R1].
    + apply (flag_mix fl wf' r); auto. intros X. apply orb_true_iff in X as [X|X]; [exact X|]. apply Nat.eqb_eq in X. rewrite R1, app_length in X. lia.
Qed.

Lemma next_rep it i fl r : Rep it i -> (i < length out)%nat -> flag_ok ok fl r ->
  exists it' fl', vnext T cap base (length base) it fl = Ok (it', fl') /\ Rep it' (S i) /\ flag_ok ok fl' (r || Nat.eqb (S i) (length out)).
Proof.
  intros [(L & N & k & rest & Hf & Hl & Hk & Hc & Hr & Hs)|[-> _]] I F; [|lia].
  destruct (skipn k (v_out T it)) as [|x xs] eqn:Sk.
  { exfalso. assert (length (skipn k (v_out T it)) = 0)%nat by now rewrite Sk. rewrite skipn_length in *. lia. }
  assert (Lx : length xs = (length (v_out T it) - S k)%nat) by (rewrite <- (skipn_S _ _ _ _ Sk), skipn_length; reflexivity).
  cbn [app] in Hs. pose proof (skipn_S _ _ _ _ Hs) as Hs'.
  assert (Ln : length out = (S i + length xs + length rest)%nat).
  { assert (length (skipn i out) = S (length (xs ++ rest))) by now rewrite Hs. rewrite skipn_length, app_length in H. lia. }
  assert (NE : (v_first T it =? v_last T it)%N = false) by (apply N.eqb_neq; lia).
  assert (Hf' : ((v_first T it + 1) mod 2 ^ 4)%N = N.of_nat (S k)).
  { rewrite Hf. replace (N.of_nat k + 1)%N with (N.of_nat (S k)) by lia. apply (small_mod cap); lia. }
  assert (Step : forall it' fl', vnext T cap base (length base) it fl = Ok (it', fl') -> nth_it (S i) = Ok it' /\ (fl = false -> fl' = false)).
  { intros it' fl' E. destruct (next_flag _ _ _ _ _ _ true _ _ E) as (w2 & E2 & M). split; [|exact M]. cbn [nth_it]. rewrite N. cbn [bind]. rewrite E2. reflexivity. }
  assert (Ev : vnext T cap base (length base) it fl = (let it0 := Vit T (v_current T it) (v_next T it) (v_out T it) (v_tc T it) (N.of_nat (S k)) (N.of_nat (length (v_out T it))) in
     if (N.of_nat (S k) =? N.of_nat (length (v_out T it)))%N then fill T cap base (length base) it0 fl else Ok (it0, fl))).
  { unfold vnext. rewrite NE. cbn [v_first v_last]. rewrite Hf', Hl. reflexivity. }
  cbv zeta in Ev. set (it0 := Vit T (v_current T it) (v_next T it) (v_out T it) (v_tc T it) (N.of_nat (S k)) (N.of_nat (length (v_out T it)))) in *.
  destruct (N.eqb_spec (N.of_nat (S k)) (N.of_nat (length (v_out T it)))) as [El|Nl].
  - destruct xs as [|y ys]; [|cbn in Lx; lia]. cbn [app length] in *. destruct Hr as [(Hn & Hi & Fi)|(Hn & -> & Eo & He)].
    + destruct (fill_spec T cap valid Inv HT Hcap base Hbase (length base) it0 fl rest ok El ltac:(lia) Hn Hi Fi) as (it' & wf' & rest' & E & C & F1 & L1 & B1 & R1 & R2 & W).
      rewrite E in Ev. destruct (Step _ _ Ev) as [N' M]. exists it', wf'. split; [exact Ev|]. assert (Lr : (0 < length rest)%nat) by (rewrite R1, app_length; lia). split.
      * left. split; [lia|]. split; [exact N'|]. exists 0%nat, rest'. cbn [skipn]. split; [exact F1|]. split; [exact L1|]. split; [lia|]. split; [rewrite C; exact Hn|]. split; [exact R2|].
        change (skipn (S i) out = v_out T it' ++ rest'). rewrite Hs'. exact R1.
      * apply (flag_mix fl wf' r); auto. intros X. apply orb_true_iff in X as [X|X]; [exact X|]. apply Nat.eqb_eq in X. lia.
    + destruct (fill_end T cap Hcap base (length base) it0 fl El Hn He) as (it' & wf' & E & C & W). rewrite E in Ev. exists it', wf'. split; [exact Ev|]. cbn [length] in Ln. split.
      * right. split; [lia|exact C].
      * change (v_tc T it0) with (v_tc T it) in W. rewrite <- Eo in W. destruct F as [F1 F2]. split.
        -- intros X. rewrite W, X. rewrite F1 by exact X. reflexivity.
        -- intros _. rewrite W. destruct ok; [rewrite F1 by reflexivity; reflexivity|apply andb_false_r].
  - destruct (Step _ _ Ev) as [N' M]. exists it0, fl. split; [exact Ev|]. split.
    + left. split; [lia|]. split; [exact N'|]. exists (S k), rest. split; [reflexivity|]. split; [reflexivity|]. cbn [it0 v_out v_current v_next v_tc]. split; [lia|]. split; [exact Hc|]. split; [exact Hr|].
      rewrite (skipn_S _ _ _ _ Sk). exact Hs'.
    + apply (flag_mix fl fl r); auto. intros X. apply orb_true_iff in X as [X|X]; [exact X|]. apply Nat.eqb_eq in X. lia.
Qed.

Lemma end_rep : Rep (ic_end (view_class T cap base)) (length out).
Proof. right. split; reflexivity. Qed.
Lemma deref_rep it i v : Rep it i -> nth_error out i = Some v ->
  exists it' p, ic_deref (view_class T cap base) it = Ok (it', p) /\ Rep it' i /\ value (view_class T cap base) it' p = Ok v
    /\ forall q, value (view_class T cap base) it q = Ok v -> value (view_class T cap base) it' q = Ok v.
Proof.
    intros [(L & N & k & rest & Hf & Hl & Hk & Hc & Hr & Hs)|[-> _]] E.
    2: { assert (length out < length out)%nat by (apply nth_error_Some; congruence). lia. }
    exists it, (InObject k). cbn [ic_deref view_class]. unfold vit_deref.
    assert (NE : (v_first T it =? v_last T it)%N = false) by (apply N.eqb_neq; lia). rewrite NE, Hf, Nat2N.id. split; [reflexivity|].
    split; [left; split; [exact L|]; split; [exact N|]; exists k, rest; auto 10|]. split; [|auto].
    cbn [value ic_inside view_class]. unfold vit_inside.
    destruct (skipn k (v_out T it)) as [|y ys] eqn:Sk. { exfalso. assert (length (skipn k (v_out T it)) = 0)%nat by now rewrite Sk. rewrite skipn_length in *. lia. }
    destruct (nth_skipn _ _ _ _ Sk) as [Hy _]. rewrite Hy. cbn [app] in Hs. destruct (nth_skipn _ _ _ _ Hs) as [Hy' _]. congruence.
Qed.
Lemma eq_rep a b i j : Rep a i -> Rep b j -> same_or_end (length out) i j = true -> ic_eq (view_class T cap base) a b = Nat.eqb i j.
Proof.
    intros A B C. cbn [ic_eq view_class]. unfold same_or_end in C.
    destruct A as [(La & Na & ka & ra & _ & _ & _ & Ca & _)|[Ia Ca]], B as [(Lb & Nb & kb & rb & _ & _ & _ & Cb & _)|[Ib Cb]].
    + rewrite (proj2 (Nat.eqb_neq i (length out))), (proj2 (Nat.eqb_neq j (length out))), !orb_false_r in C by lia. rewrite C. apply Nat.eqb_eq in C. subst j. rewrite Na in Nb. injection Nb as <-. apply Nat.eqb_refl.
    + rewrite (proj2 (Nat.eqb_neq i j)) by lia. apply Nat.eqb_neq. lia.
    + rewrite (proj2 (Nat.eqb_neq i j)) by lia. apply Nat.eqb_neq. lia.
    + subst i j. rewrite Nat.eqb_refl. apply Nat.eqb_eq. congruence.
Qed.
Lemma view_run ops x : cursor_run out ok (same_or_end (length out)) ops = Some x -> run (view_class T cap base) ops = Ok x.
Proof. exact (sim_run (view_class T cap base) out ok (same_or_end (length out)) Rep begin_rep end_rep next_rep deref_rep eq_rep ops x). Qed.
End HV.

Lemma view_history T cap bound l out ok ops x : view_of T cap bound -> Forall (fun u => (u < bound)%N) l -> transcode T l = Ok (out, ok) ->
  cursor_run out ok (same_or_end (length out)) ops = Some x -> run (view_class T cap l) ops = Ok x.
Proof.
  intros V F E R. assert (A : Forall okany l) by (apply Forall_forall; intros; exact I).
  destruct V; (eapply view_run; [|unfold max_output_8, max_output_16, max_output_32, max_output_16_8, max_output_16_32, longest_sequence_8, longest_sequence_16, longest_sequence_32; lia| |reflexivity|exact E|exact R]);
   first [apply viewable_8_8|apply viewable_8_16|apply viewable_8_32|apply viewable_16_8|apply viewable_16_16|apply viewable_16_32|apply viewable_32_8|apply viewable_32_16|apply viewable_32_32|exact F|exact A].
Qed.
