(* Views that are laid one on top of the other are cursors over what the stages make of the input. *)
From Verif Require Import Base ModelPct ModelIcu ModelHist ModelViews ModelPipe SpecPct SpecIcu SpecHist SpecBase IcuUtf8 IcuRead8 IcuEnc IcuView IcuViewAll IcuProps HistFacts HistPct HistView ViewsFacts BaseAll.
From Verif Require IriFacts.
From Coq Require Import Lia.
Local Open Scope list_scope.

(* what the laws of HistFacts.Sim are, for some representation *)
Definition laws {V} (C : iclass V) (out : list V) (ok : bool) (comparable : nat -> nat -> bool) (Rep : ic_it C -> nat -> Prop) : Prop :=
  (forall fl r, flag_ok ok fl r -> exists it fl', ic_begin C fl = Ok (it, fl') /\ Rep it 0 /\ flag_ok ok fl' (r || Nat.eqb 0 (length out)))
  /\ Rep (ic_end C) (length out)
  /\ (forall it i fl r, Rep it i -> i < length out -> flag_ok ok fl r ->
        exists it' fl', ic_next C it fl = Ok (it', fl') /\ Rep it' (S i) /\ flag_ok ok fl' (r || Nat.eqb (S i) (length out)))
  /\ (forall it i v, Rep it i -> nth_error out i = Some v ->
        exists it' p, ic_deref C it = Ok (it', p) /\ Rep it' i /\ value C it' p = Ok v /\ forall q, value C it q = Ok v -> value C it' q = Ok v)
  /\ (forall a b i j, Rep a i -> Rep b j -> comparable i j = true -> ic_eq C a b = Nat.eqb i j).
Lemma laws_run {V} (C : iclass V) out ok cmp Rep ops x : laws C out ok cmp Rep -> cursor_run out ok cmp ops = Some x -> run C ops = Ok x.
Proof. intros (A & B & D & E & F). exact (sim_run C out ok cmp Rep A B D E F ops x). Qed.
Lemma laws_fewer {V} (C : iclass V) out ok (c c' : nat -> nat -> bool) Rep : (forall i j, c' i j = true -> c i j = true) -> laws C out ok c Rep -> laws C out ok c' Rep.
Proof. intros H (A & B & D & E & F). repeat (split; [assumption|]). intros a b i j X Y Z. apply F; auto. Qed.

Lemma pct_laws s t : decodes s t -> laws (pct_class s) t true any_two (PRep s t).
Proof.
  intros D. split; [intros fl r; apply pct_begin|]. split; [now apply pct_end|]. split; [intros it i fl r; now apply pct_next|]. split; [intros it i v; now apply pct_deref|].
  intros a b i j A B _. exact (pct_eq s t a b i j A B eq_refl).
Qed.
Lemma units_laws C out ok cmp Rep : laws C out ok cmp Rep -> laws (as_units C) (map code out) ok cmp Rep.
Proof.
  intros (A & B & D & E & F). unfold laws. rewrite map_length. split; [exact A|]. split; [exact B|]. split; [exact D|]. split; [|exact F].
  intros it i v R H. rewrite nth_error_map in H. destruct (nth_error out i) as [c|] eqn:Ec; [|discriminate]. injection H as <-.
  destruct (E it i c R Ec) as (it' & p & G & R' & W & K). exists it', p. split; [exact G|]. split; [exact R'|].
  assert (X : forall o q y, value (as_units C) o q = Ok y <-> exists c', value C o q = Ok c' /\ y = code c').
  { intros o q y. unfold value, as_units. cbn [ic_range ic_inside]. destruct q as [n|j].
    - destruct (ic_range C n) as [c'|e|]; cbn [bind]; [|split; [discriminate|intros (c' & Z & _); discriminate]|split; [discriminate|intros (c' & Z & _); discriminate]].
      split; [intros Z; injection Z as <-; eauto|intros (c2 & Z & ->); now injection Z as ->].
    - destruct (ic_inside C o j) as [c'|e|]; cbn [bind]; [|split; [discriminate|intros (c' & Z & _); discriminate]|split; [discriminate|intros (c' & Z & _); discriminate]].
      split; [intros Z; injection Z as <-; eauto|intros (c2 & Z & ->); now injection Z as ->]. }
  split; [apply X; eauto|]. intros q Hq. apply X in Hq as (c' & Hq & Ecc). apply IriFacts.code_injective in Ecc. subst c'. apply X. exists c. split; [now apply K|reflexivity].
Qed.
Lemma pointers_laws l : laws (pointers l) l true any_two (fun i j : nat => i = j /\ j <= length l).
Proof.
  split; [|split; [|split; [|split]]].
  - intros fl r [F1 F2]. exists 0, fl. split; [reflexivity|]. split; [split; [reflexivity|apply Nat.le_0_l]|]. split; [exact F1|]. intros _. now apply F1.
  - split; [reflexivity|apply le_n].
  - intros it i fl r [-> _] L [F1 F2]. exists (S i), fl. cbn [ic_next pointers]. apply Nat.ltb_lt in L as L'. rewrite L'. split; [reflexivity|]. split; [split; [reflexivity|exact L]|]. split; [exact F1|]. intros _. now apply F1.
  - intros it i v [-> _] E. assert (L : i < length l) by (apply nth_error_Some; congruence). exists i, (InRange i). cbn [ic_deref pointers]. apply Nat.ltb_lt in L as L'. rewrite L'.
    split; [reflexivity|]. split; [split; [reflexivity|apply Nat.lt_le_incl; exact L]|]. split; [cbn [value ic_range pointers]; now rewrite E|auto].
  - intros a b i j [-> _] [-> _] _. reflexivity.
Qed.

Lemma view_laws T cap bound l out ok : view_of T cap bound -> Forall (fun u => (u < bound)%N) l -> transcode T l = Ok (out, ok) ->
  exists Rep, laws (view_class T cap l) out ok (same_or_end (length out)) Rep.
Proof.
  intros V F E. assert (A : Forall okany l) by (apply Forall_forall; intros; exact I).
  assert (G : forall valid Inv, viewable T cap valid Inv -> cap < 16 -> Forall valid l -> transcode T [] = Ok ([], true) -> exists Rep, laws (view_class T cap l) out ok (same_or_end (length out)) Rep).
  { intros valid Inv W L B N. exists (Rep T cap Inv l out ok). split; [intros fl r; eapply begin_rep; eassumption|]. split; [eapply end_rep; eassumption|].
    split; [intros it k fl r; eapply next_rep; eassumption|]. split; [intros it k v; intros HR HN; eapply deref_rep; eassumption|]. intros a b k j RA RB SE. eapply eq_rep; eassumption. }
  destruct V; (eapply G; [|unfold max_output_8, max_output_16, max_output_32, max_output_16_8, max_output_16_32, longest_sequence_8, longest_sequence_16, longest_sequence_32; lia| |reflexivity]);
   first [apply viewable_8_8|apply viewable_8_16|apply viewable_8_32|apply viewable_16_8|apply viewable_16_16|apply viewable_16_32|apply viewable_32_8|apply viewable_32_16|apply viewable_32_32|exact F|exact A].
Qed.

Section Over.
Variables (T : tcdr) (cap : nat) (C : iclass N) (mid : list N) (okC : bool) (RC : ic_it C -> nat -> Prop).
Hypothesis HC : laws C mid okC (same_or_end (length mid)) RC.
Variables (out : list N) (ok : bool) (RV : vit T -> nat -> Prop).
Hypothesis HV : laws (view_class T cap mid) out ok (same_or_end (length out)) RV.
Variable fuel : nat.
Hypothesis Hfuel : length mid <= fuel.

Lemma at_end nx i : RC nx i -> i <= length mid -> ic_eq C nx (ic_end C) = Nat.eqb i (length mid).
Proof. destruct HC as (_ & B & _ & _ & F). intros R L. apply F; [exact R|exact B|]. unfold same_or_end. rewrite Nat.eqb_refl, !orb_true_r. reflexivity. Qed.
Lemma reads_one nx i u : RC nx i -> nth_error mid i = Some u -> exists nx', read_at C nx = Ok (nx', u) /\ RC nx' i.
Proof. destruct HC as (_ & _ & _ & E & _). intros R H. destruct (E nx i u R H) as (it' & p & G & R' & W & _). exists it'. split; [exact (read_at_ok C nx it' p u G W)|exact R']. Qed.
Lemma moves_one nx i : RC nx i -> i < length mid -> exists nx' fl, ic_next C nx true = Ok (nx', fl) /\ RC nx' (S i).
Proof.
  destruct HC as (_ & _ & D & _ & _). intros R L. destruct (D nx i true false R L) as (it' & fl & G & R' & _); [split; [reflexivity|discriminate]|]. eauto.
Qed.
Lemma loop_sim f : forall g nx i t acc n t' w, RC nx i -> i <= length mid -> length mid - i <= g -> fill_loop T cap mid f i t acc = Ok (n, t', w) ->
  exists nx', over_loop T cap C g nx t acc = Ok (nx', t', w) /\ RC nx' n /\ n <= length mid.
Proof.
  induction f as [|f IH]; intros g nx i t acc n t' w R L G E.
  - destruct acc as [|a acc].
    + cbn [fill_loop] in E. destruct (nth_error mid i) as [u|] eqn:Eu; [discriminate|]. injection E as <- <- <-. apply nth_error_None in Eu.
      exists nx. split; [|auto]. assert (X : ic_eq C nx (ic_end C) = true) by (rewrite (at_end nx i R L); apply Nat.eqb_eq; lia). destruct g; cbn [over_loop]; rewrite X; reflexivity.
    + cbn [fill_loop] in E. injection E as <- <- <-. exists nx. split; [|auto]. destruct g; reflexivity.
  - destruct acc as [|a acc].
    + cbn [fill_loop] in E. destruct (nth_error mid i) as [u|] eqn:Eu.
      * assert (Li : i < length mid) by (apply nth_error_Some; congruence). destruct g as [|g]; [lia|].
        destruct (tc_op T t u) as [[t1 w1]|e|] eqn:Et; cbn [bind] in E; try discriminate.
        destruct (reads_one nx i u R Eu) as (n1 & R1 & P1). destruct (moves_one n1 i P1 Li) as (n2 & fl & M & P2).
        destruct (Nat.ltb cap (length ([] ++ w1))) eqn:Ec; [discriminate|]. destruct (IH g n2 (S i) t1 ([] ++ w1) n t' w P2 ltac:(lia) ltac:(lia) E) as (nx' & X & Y).
        exists nx'. split; [|exact Y]. cbn [over_loop]. rewrite (at_end nx i R L), (proj2 (Nat.eqb_neq i (length mid))) by lia. rewrite R1. cbn [bind]. rewrite Et. cbn [bind]. rewrite Ec, M. cbn [bind]. exact X.
      * injection E as <- <- <-. apply nth_error_None in Eu. exists nx. split; [|auto].
        assert (X : ic_eq C nx (ic_end C) = true) by (rewrite (at_end nx i R L); apply Nat.eqb_eq; lia). destruct g; cbn [over_loop]; rewrite X; reflexivity.
    + cbn [fill_loop] in E. injection E as <- <- <-. exists nx. split; [|auto]. destruct g; reflexivity.
Qed.
Definition like (o : oit T C) (v : vit T) : Prop :=
  RC (o_current T C o) (v_current T v) /\ v_current T v <= length mid /\ RC (o_next T C o) (v_next T v) /\ v_next T v <= length mid
  /\ o_out T C o = v_out T v /\ o_tc T C o = v_tc T v /\ o_first T C o = v_first T v /\ o_last T C o = v_last T v.
Lemma fill_sim o v fl v' fl' : like o v -> fill T cap mid (length mid) v fl = Ok (v', fl') -> exists o', over_fill T cap C fuel o fl = Ok (o', fl') /\ like o' v'.
Proof.
  intros (Cc & Lc & Cn & Ln & Eo & Et & Ef & El) E. unfold fill in E. unfold over_fill. rewrite Ef, El, Et. destruct (negb _); [discriminate|].
  destruct (fill_loop T cap mid (length mid) (v_next T v) (v_tc T v) []) as [[[n t] w]|e|] eqn:F; cbn [bind] in E; try discriminate.
  destruct (loop_sim _ fuel _ _ _ _ _ _ _ Cn Ln ltac:(lia) F) as (nx & X & P & L). rewrite X. cbn [bind]. rewrite (at_end nx n P L).
  destruct (if Nat.eqb n (length mid) then _ else _) as [[t2 w2]|e|] eqn:G; cbn [bind] in *; try discriminate.
  destruct (Nat.ltb cap (length w2)); [discriminate|]. injection E as <- <-. eexists. split; [reflexivity|].
  split; [exact Cn|]. split; [exact Ln|]. split; [exact P|]. split; [exact L|]. repeat split.
Qed.
Lemma next_sim o v fl v' fl' : like o v -> vnext T cap mid (length mid) v fl = Ok (v', fl') -> exists o', over_next T cap C fuel o fl = Ok (o', fl') /\ like o' v'.
Proof.
  intros K E. pose proof K as (Cc & Lc & Cn & Ln & Eo & Et & Ef & El). unfold vnext in E. unfold over_next. rewrite Ef, El. destruct (_ =? _)%N; [discriminate|]. cbn [v_first v_last o_first o_last] in *.
  destruct (_ =? _)%N.
  - refine (fill_sim _ _ _ _ _ _ E). repeat split; assumption.
  - injection E as <- <-. eexists. split; [reflexivity|]. repeat split; assumption.
Qed.
Lemma begin_sim fl v' fl' : vbegin T cap mid (length mid) fl = Ok (v', fl') -> exists o', over_begin T cap C fuel fl = Ok (o', fl') /\ like o' v'.
Proof.
  intros E. unfold vbegin in E. unfold over_begin. pose proof HC as (A & _ & _ & _ & _). destruct (A true false) as (b & fb & B & R & _); [split; [reflexivity|discriminate]|].
  rewrite B. cbn [bind]. rewrite (at_end b 0 R ltac:(lia)). assert (K : like (Oit T C b b [] (tc_init T) 0 0) (Vit T 0 0 [] (tc_init T) 0 0)).
  { split; [exact R|]. split; [cbn; lia|]. split; [exact R|]. split; [cbn; lia|]. repeat split. }
  destruct (Nat.eqb 0 (length mid)).
  - injection E as <- <-. eexists. split; [reflexivity|exact K].
  - exact (fill_sim _ _ _ _ _ K E).
Qed.
Lemma over_laws : exists R, laws (over T cap C fuel) out ok (same_or_end (length out)) R.
Proof.
  pose proof HV as (A & B & D & E & F). pose proof HC as (_ & BC & _ & _ & FC). exists (fun o i => exists v, RV v i /\ like o v). split; [|split; [|split; [|split]]].
  - intros fl r K. destruct (A fl r K) as (v & fl' & X & P & K'). destruct (begin_sim fl v fl' X) as (o & Y & S). exists o, fl'. split; [exact Y|]. split; [exists v; auto|exact K'].
  - exists (ic_end (view_class T cap mid)). split; [exact B|]. split; [exact BC|]. split; [cbn; lia|]. split; [exact BC|]. split; [cbn; lia|]. repeat split.
  - intros o i fl r (v & P & S) L K. destruct (D v i fl r P L K) as (v' & fl' & X & P' & K'). destruct (next_sim o v fl v' fl' S X) as (o' & Y & S'). exists o', fl'. split; [exact Y|]. split; [exists v'; auto|exact K'].
  - intros o i u (v & P & S) N. destruct (E v i u P N) as (v' & p & X & P' & W & _). cbn [ic_deref view_class] in X. unfold vit_deref in X. destruct (_ =? _)%N eqn:Q; [discriminate|]. injection X as <- <-.
    pose proof S as (_ & _ & _ & _ & So & _ & Sf & Sl). exists o, (InObject (N.to_nat (v_first T v))). cbn [ic_deref over]. unfold over_deref. rewrite Sf, Sl, Q. split; [reflexivity|].
    split; [exists v; auto|]. split; [|auto]. cbn [value ic_inside over view_class] in *. unfold over_inside. unfold vit_inside in W. rewrite So. exact W.
  - intros a b i j (v & P & S) (v2 & P2 & S2) Q. pose proof (F v v2 i j P P2 Q) as Z. cbn [ic_eq over view_class] in *. rewrite <- Z. destruct S as (Ca & La & _), S2 as (Cb & Lb & _). apply FC; [exact Ca|exact Cb|].
    assert (End : forall w k, RV w k -> k = length out -> v_current T w = length mid).
    { intros w k Pk ->. pose proof (F w _ _ _ Pk B) as Y. cbn [ic_eq view_class ic_end] in Y. rewrite Nat.eqb_refl in Y. apply Nat.eqb_eq. apply Y. unfold same_or_end. now rewrite Nat.eqb_refl. }
    unfold same_or_end in Q |- *. apply orb_true_iff in Q as [Q|Q]; [apply orb_true_iff in Q as [Q|Q]|].
    + rewrite Q in Z. now rewrite Z.
    + apply Nat.eqb_eq in Q. rewrite (End v i P Q), Nat.eqb_refl, orb_true_r. reflexivity.
    + apply Nat.eqb_eq in Q. rewrite (End v2 j P2 Q), Nat.eqb_refl, orb_true_r. reflexivity.
Qed.
End Over.

From Verif Require Import SpecRoute RouteFacts SpecPipe.
Lemma stage_view a b : view_of (tc a b) (buffer a b) (2 ^ bits a).
Proof. destruct a, b; constructor. Qed.
Lemma pile_laws last out : forall es e mid ok, units e mid -> transcode (tc e last) mid = Ok (out, ok) ->
  exists n, forall fuel, n <= fuel -> forall C okC RC, laws C mid okC (same_or_end (length mid)) RC ->
  exists R, laws (piled C fuel (stages e (es ++ [last]))) out (match es with [] => ok | _ => true end) (same_or_end (length out)) R.
Proof.
  induction es as [|x es IH]; intros e mid ok U E.
  - exists (length mid). intros fuel L C okC RC HC. cbn [app stages piled]. destruct (view_laws _ _ _ _ _ _ (stage_view e last) U E) as (RV & HV).
    exact (over_laws (tc e last) (buffer e last) C mid okC RC HC out ok RV HV fuel L).
  - apply (proj1 (route e x last mid out ok U)) in E. destruct E as (m & E1 & E2). destruct (fixed e x mid m ok U E1) as [U' _].
    destruct (IH x m true U' E2) as (n & H). exists (max n (length mid)). intros fuel L C okC RC HC. cbn [app stages piled].
    destruct (view_laws _ _ _ _ _ _ (stage_view e x) U E1) as (RV & HV).
    destruct (over_laws (tc e x) (buffer e x) C mid okC RC HC m ok RV HV fuel ltac:(lia)) as (R & HR).
    destruct (H fuel ltac:(lia) _ _ _ HR) as (R' & HR'). exists R'. destruct es; exact HR'.
Qed.
Lemma any_se n i j : same_or_end n i j = true -> any_two i j = true. Proof. reflexivity. Qed.

Lemma loop_steps (out : list N) ok rest : forall i c, skipn i out = rest -> i <= length out -> c_at c = [Some i; Some (length out)] -> length (c_refs c) = i ->
  (i = length out -> c_end_reached c = true) ->
  cursor_steps out ok (same_or_end (length out)) (flat_map (fun i => [Equal 0 1; Deref 0; Read i; Inc 0]) (seq i (length rest)) ++ [Equal 0 1; Flag]) c = Some (loop_sees rest ok).
Proof.
  induction rest as [|u rest IH]; intros i c S Li A R Q.
  - assert (i = length out). { apply (f_equal (@length N)) in S. rewrite skipn_length in S. cbn in S. lia. }
    cbn [length seq flat_map app cursor_steps cursor_step]. unfold cursor. rewrite A. cbn [nth_error]. unfold same_or_end at 1. rewrite H, Nat.eqb_refl. cbn [orb cursor_steps cursor_step].
    rewrite (Q H), orb_true_r. reflexivity.
  - assert (L : i < length out). { apply (f_equal (@length N)) in S. rewrite skipn_length in S. cbn in S. lia. }
    destruct c as [ats refs q]. cbn [c_at c_refs c_end_reached] in *. subst ats.
    cbn [length seq flat_map app cursor_steps cursor_step]. unfold cursor. cbn [c_at nth_error]. unfold same_or_end at 1. rewrite Nat.eqb_refl, orb_true_r. cbn [orb].
    rewrite (proj2 (Nat.eqb_neq i (length out))) by lia.
    assert (E : nth_error out i = Some u). { rewrite <- (firstn_skipn i out), nth_error_app2; rewrite firstn_length_le by lia; [|lia]. rewrite Nat.sub_diag, S. reflexivity. }
    cbn [cursor_steps cursor_step]. unfold cursor. cbn [c_at nth_error]. rewrite E. cbn [cursor_steps cursor_step c_refs c_at]. rewrite nth_error_app2 by lia. rewrite R, Nat.sub_diag. cbn [nth_error cursor_steps cursor_step]. unfold cursor. cbn [c_at nth_error].
    apply Nat.ltb_lt in L as L'. rewrite L'. cbn [put].
    rewrite (IH (Datatypes.S i)); cbn [c_at c_refs c_end_reached].
    + reflexivity.
    + eapply skipn_S. exact S.
    + lia.
    + reflexivity.
    + unfold drop_refs. rewrite map_length, app_length. cbn. lia.
    + intros Z. rewrite Z, Nat.eqb_refl, orb_true_r. reflexivity.
Qed.
Lemma loop_run (out : list N) ok : cursor_run out ok (same_or_end (length out)) (loop_program (length out)) = Some (loop_sees out ok).
Proof.
  unfold cursor_run, loop_program. cbn [app cursor_steps cursor_step c_at c_refs c_end_reached orb]. rewrite (loop_steps out ok out 0); cbn [c_at c_refs c_end_reached]; try reflexivity; [lia|].
  intros Z. rewrite Z. apply Nat.eqb_refl.
Qed.
