(* The transcode view yields what the transcoder yields *)
From Verif Require Import Base ModelIcu SpecIcu IcuUtf8 IcuRead8 IcuEnc.
Local Open Scope list_scope.

Definition finish (T : tcdr) (s : tc_st T) (l : list N) : outcome (list N * bool) :=
  do (s1, w) <- feed T s l; do (s2, w') <- tc_end T s1; Ok (w ++ w', tc_wf T s2).
Lemma finish_cons T s u l : finish T s (u :: l) = do (s1, w) <- tc_op T s u; do (r, ok) <- finish T s1 l; Ok (w ++ r, ok).
Proof.
  unfold finish. cbn [feed]. destruct (tc_op T s u) as [[s1 w]| |]; cbn [bind]; try reflexivity.
  destruct (feed T s1 l) as [[s2 w2]| |]; cbn [bind]; try reflexivity.
  destruct (tc_end T s2) as [[s3 w3]| |]; cbn [bind]; try reflexivity. now rewrite app_assoc.
Qed.
Lemma transcode_finish T l : transcode T l = finish T (tc_init T) l.
Proof. reflexivity. Qed.

Record viewable (T : tcdr) (cap : nat) (valid : N -> Prop) (Inv : tc_st T -> Prop) : Prop := {
  vw_init : Inv (tc_init T);
  vw_op : forall s u, Inv s -> valid u -> exists s' w s'' w', tc_op T s u = Ok (s', w) /\ Inv s' /\ (length w <= cap)%nat
     /\ (tc_wf T s' = true -> tc_wf T s = true)
     /\ tc_end T s' = Ok (s'', w') /\ (length (w ++ w') <= cap)%nat /\ (w = [] -> w' <> []);
  vw_end : forall s, Inv s -> exists s' w s'' w', tc_end T s = Ok (s', w) /\ (length w <= cap)%nat
     /\ (tc_wf T s' = true -> tc_wf T s = true)
     /\ tc_end T s' = Ok (s'', w') /\ (length w' <= cap)%nat /\ tc_wf T s'' = tc_wf T s' }.

Section V.
Variables (T : tcdr) (cap : nat) (valid : N -> Prop) (Inv : tc_st T -> Prop).
Hypothesis HT : viewable T cap valid Inv.
Hypothesis Hcap : (cap < 16)%nat.
Variable base : list N.
Hypothesis Hbase : Forall valid base.

Lemma finish_total l : Forall valid l -> forall s, Inv s -> exists r ok, finish T s l = Ok (r, ok) /\ (ok = true -> tc_wf T s = true).
Proof.
  induction 1 as [|u l Hu Hl IH]; intros s Hs.
  - destruct (vw_end _ _ _ _ HT s Hs) as (s' & w & _ & _ & E & _ & W & _). unfold finish. cbn [feed bind]. rewrite E. cbn [bind]. eauto.
  - destruct (vw_op _ _ _ _ HT s u Hs Hu) as (s' & w & _ & _ & E & I' & _ & W & _). rewrite finish_cons, E. cbn [bind].
    destruct (IH s' I') as (r & ok & E' & W'). rewrite E'. cbn [bind]. do 2 eexists. split; [reflexivity|]. auto.
Qed.

Definition ended (s : tc_st T) : Prop := exists s'' w', tc_end T s = Ok (s'', w') /\ (length w' <= cap)%nat /\ tc_wf T s'' = tc_wf T s.
(* what remains to be produced once everything in the buffer is used up *)
Definition rest_is (next : nat) (tc : tc_st T) (r : list N) (ok : bool) : Prop :=
  ((next < length base)%nat /\ Inv tc /\ finish T tc (skipn next base) = Ok (r, ok))
  \/ (next = length base /\ r = [] /\ ok = tc_wf T tc /\ ended tc).

Lemma skipn_nth next u : nth_error base next = Some u -> skipn next base = u :: skipn (S next) base.
Proof.
  clear Hbase. revert next; induction base as [|x b IH]; intros [|n] H; cbn in *; try discriminate; [congruence|]. apply IH. exact H.
Qed.
Lemma valid_nth next u : nth_error base next = Some u -> valid u.
Proof. intros H. rewrite Forall_forall in Hbase. apply Hbase. eapply nth_error_In; exact H. Qed.
Lemma valid_skipn n : Forall valid (skipn n base).
Proof. rewrite <- (firstn_skipn n base) in Hbase. apply Forall_app in Hbase. apply Hbase. Qed.

Lemma fill_loop_spec fuel : forall next tc, (length base - next <= fuel)%nat -> (next < length base)%nat -> Inv tc ->
  exists next' tc' out s2 w2, fill_loop T cap base fuel next tc [] = Ok (next', tc', out)
    /\ Inv tc' /\ (next < next' <= length base)%nat /\ (length out <= cap)%nat
    /\ tc_end T tc' = Ok (s2, w2) /\ (length (out ++ w2) <= cap)%nat
    /\ ((next' < length base)%nat -> out <> []) /\ (out = [] -> w2 <> [])
    /\ finish T tc (skipn next base) = (do (r, ok) <- finish T tc' (skipn next' base); Ok (out ++ r, ok)).
Proof.
  induction fuel as [|fuel IH]; intros next tc Hf Hn Hi; [lia|].
  destruct (nth_error base next) as [u|] eqn:Hu; [|apply nth_error_None in Hu; lia].
  cbn [fill_loop]. rewrite Hu.
  destruct (vw_op _ _ _ _ HT tc u Hi (valid_nth _ _ Hu)) as (s' & w & s'' & w' & E & Hi' & L & W & E2 & L2 & P).
  rewrite E. cbn [bind app]. destruct (Nat.ltb_spec cap (length w)) as [|_]; [lia|].
  rewrite (skipn_nth _ _ Hu), finish_cons, E. cbn [bind].
  destruct w as [|x w].
  - destruct (Nat.eq_dec (S next) (length base)) as [El|Nl].
    + exists (S next), s', [], s'', w'. assert (Z : nth_error base (S next) = None) by (apply nth_error_None; lia).
      split; [destruct fuel; cbn [fill_loop]; rewrite Z; reflexivity|].
      split; [exact Hi'|]. split; [lia|]. split; [cbn; lia|]. split; [exact E2|]. split; [exact L2|]. split; [lia|]. split; [auto|]. reflexivity.
    + destruct (IH (S next) s' ltac:(lia) ltac:(lia) Hi') as (n' & t' & out & s2 & w2 & E3 & I3 & B3 & L3 & E4 & L4 & P3 & P4 & F3).
      exists n', t', out, s2, w2. split; [exact E3|]. split; [exact I3|]. split; [lia|]. do 5 (split; [assumption|]).
      rewrite F3. destruct (finish T t' (skipn n' base)) as [[r ok]| |]; reflexivity.
  - exists (S next), s', (x :: w), s'', w'.
    split; [destruct fuel; reflexivity|].
    split; [exact Hi'|]. split; [lia|]. split; [exact L|]. split; [exact E2|]. split; [exact L2|].
    split; [discriminate|]. split; [discriminate|]. reflexivity.
Qed.

Lemma small_mod n : (n < 16)%nat -> (N.of_nat n mod 2 ^ 4)%N = N.of_nat n.
Proof. intros H. apply N.mod_small. change (2 ^ 4)%N with 16%N. lia. Qed.

Lemma fill_spec fuel it wf r ok : v_first T it = v_last T it -> (length base <= fuel)%nat -> (v_next T it < length base)%nat ->
  Inv (v_tc T it) -> finish T (v_tc T it) (skipn (v_next T it) base) = Ok (r, ok) ->
  exists it' wf' rest, fill T cap base fuel it wf = Ok (it', wf') /\ v_current T it' = v_next T it /\ v_first T it' = 0%N
    /\ v_last T it' = N.of_nat (length (v_out T it')) /\ (0 < length (v_out T it') < 16)%nat
    /\ r = v_out T it' ++ rest /\ rest_is (v_next T it') (v_tc T it') rest ok /\ wf' && ok = wf && ok.
Proof.
  intros Hfl Hfuel Hn Hi E. unfold fill. rewrite Hfl, N.eqb_refl. cbn [negb].
  destruct (fill_loop_spec fuel _ _ ltac:(lia) Hn Hi) as (n' & t' & out & s2 & w2 & E3 & I3 & B3 & L3 & E4 & L4 & P3 & P4 & F3).
  rewrite E3. cbn [bind]. rewrite F3 in E.
  destruct (Nat.eqb_spec n' (length base)) as [El|Nl].
  - rewrite E4. cbn [bind]. destruct (Nat.ltb_spec cap (length (out ++ w2))) as [|_]; [lia|].
    assert (Sk : skipn n' base = []) by (apply skipn_all2; lia).
    rewrite Sk in E. unfold finish in E. cbn [feed bind] in E. rewrite E4 in E. cbn [bind] in E. injection E as <- <-.
    destruct (vw_end _ _ _ _ HT t' I3) as (s' & w & s'' & w' & E5 & L5 & W5 & E6 & L6 & W6). rewrite E4 in E5. injection E5 as <- <-.
    do 3 eexists. split; [reflexivity|]. cbn [v_current v_first v_last v_out v_next v_tc].
    rewrite small_mod by lia. split; [reflexivity|]. split; [reflexivity|]. split; [reflexivity|].
    split. { rewrite app_length. split; [|rewrite app_length in L4; lia]. destruct out; [|cbn; lia]. specialize (P4 eq_refl). destruct w2; [contradiction|cbn; lia]. }
    cbn [app]. split; [rewrite app_nil_r; reflexivity|]. split.
    + right. split; [exact El|]. split; [reflexivity|]. split; [reflexivity|]. exists s'', w'. auto.
    + destruct (tc_wf T s2); [reflexivity|]. now rewrite !andb_false_r.
  - cbn [bind]. destruct (Nat.ltb_spec cap (length out)) as [|_]; [lia|].
    destruct (finish_total (skipn n' base) (valid_skipn n') t' I3) as (r' & ok' & F4 & W4). rewrite F4 in E. cbn [bind] in E. injection E as <- <-.
    do 3 eexists. split; [reflexivity|]. cbn [v_current v_first v_last v_out v_next v_tc].
    rewrite small_mod by lia. split; [reflexivity|]. split; [reflexivity|]. split; [reflexivity|].
    split. { specialize (P3 ltac:(lia)). destruct out; [contradiction|cbn in *; lia]. }
    split; [reflexivity|]. split.
    + left. split; [lia|]. split; assumption.
    + destruct (tc_wf T t'); [reflexivity|]. destruct ok'; [discriminate (W4 eq_refl)|]. now rewrite !andb_false_r.
Qed.
(* the fill at the very end *)
Lemma fill_end fuel it wf : v_first T it = v_last T it -> v_next T it = length base -> ended (v_tc T it) ->
  exists it' wf', fill T cap base fuel it wf = Ok (it', wf') /\ v_current T it' = length base
    /\ wf' = wf && tc_wf T (v_tc T it).
Proof.
  intros Hfl Hn (s'' & w' & E & L & W). unfold fill. rewrite Hfl, N.eqb_refl, Hn. cbn [negb].
  assert (Z : nth_error base (length base) = None) by (apply nth_error_None; lia).
  assert (F : fill_loop T cap base fuel (length base) (v_tc T it) [] = Ok (length base, v_tc T it, [])) by (destruct fuel; cbn [fill_loop]; rewrite Z; reflexivity).
  rewrite F. cbn [bind]. rewrite Nat.eqb_refl, E. cbn [bind app]. destruct (Nat.ltb_spec cap (length w')) as [|_]; [lia|].
  do 2 eexists. split; [reflexivity|]. split; [reflexivity|]. rewrite W. destruct (tc_wf T (v_tc T it)); [now rewrite andb_true_r|now rewrite andb_false_r].
Qed.

Lemma nth_skipn {A} (l : list A) k x r : skipn k l = x :: r -> nth_error l k = Some x /\ skipn (S k) l = r.
Proof.
  revert k; induction l as [|y l IH]; intros [|k] H; cbn in *; try discriminate.
  - split; congruence.
  - apply IH. exact H.
Qed.
Lemma collect_spec fuel : forall it wf k rest ok,
  v_first T it = N.of_nat k -> v_last T it = N.of_nat (length (v_out T it)) -> (k < length (v_out T it) < 16)%nat ->
  (v_current T it < length base)%nat -> rest_is (v_next T it) (v_tc T it) rest ok ->
  (length (skipn k (v_out T it) ++ rest) < fuel)%nat ->
  vcollect T cap base fuel it wf = Ok (skipn k (v_out T it) ++ rest, wf && ok).
Proof.
  induction fuel as [|fuel IH]; intros it wf k rest ok Hf Hl Hk Hc Hr Hlen; [lia|].
  cbn [vcollect]. unfold vdone. destruct (Nat.eqb_spec (v_current T it) (length base)) as [|_]; [lia|].
  destruct (skipn k (v_out T it)) as [|x xs] eqn:Sk.
  { exfalso. assert (length (skipn k (v_out T it)) = 0)%nat by now rewrite Sk. rewrite skipn_length in *. lia. }
  destruct (nth_skipn _ _ _ _ Sk) as [Hx Sk'].
  assert (Lx : length xs = (length (v_out T it) - S k)%nat) by (rewrite <- Sk', skipn_length; reflexivity).
  unfold vderef. assert (NE : (v_first T it =? v_last T it)%N = false) by (apply N.eqb_neq; lia). rewrite NE.
  rewrite Hf, Nat2N.id, Hx. cbn [bind]. unfold vnext. rewrite NE. cbn [v_first v_last].
  assert (Hf' : ((v_first T it + 1) mod 2 ^ 4)%N = N.of_nat (S k)).
  { rewrite Hf. replace (N.of_nat k + 1)%N with (N.of_nat (S k)) by lia. apply small_mod. lia. }
  rewrite Hf', Hl. destruct (N.eqb_spec (N.of_nat (S k)) (N.of_nat (length (v_out T it)))) as [El|Nl].
  - destruct xs as [|y ys]; [|cbn in Lx; lia]. cbn [app] in *.
    destruct Hr as [(Hn & Hi & F)|(Hn & -> & -> & He)].
    + set (it0 := Vit T (v_current T it) (v_next T it) (v_out T it) (v_tc T it) (N.of_nat (S k)) (N.of_nat (length (v_out T it)))).
      destruct (fill_spec (length base) it0 wf rest ok El ltac:(lia) Hn Hi F) as (it' & wf' & rest' & F' & C' & F1 & L1 & B1 & -> & R1 & W1).
      rewrite F'. cbn [bind]. change (v_next T it0) with (v_next T it) in C'.
      rewrite (IH it' wf' 0%nat rest' ok); try assumption; try lia.
      * cbn [bind skipn]. rewrite W1. reflexivity.
      * cbn [skipn]. cbn [length] in Hlen. lia.
    + set (it0 := Vit T (v_current T it) (v_next T it) (v_out T it) (v_tc T it) (N.of_nat (S k)) (N.of_nat (length (v_out T it)))).
      destruct (fill_end (length base) it0 wf El Hn He) as (it' & wf' & F' & C' & W'). rewrite F'. cbn [bind].
      destruct fuel; [cbn [length] in Hlen; lia|]. cbn [vcollect]. unfold vdone. rewrite C', Nat.eqb_refl. cbn [bind].
      rewrite W'. reflexivity.
  - cbn [bind]. rewrite (IH _ wf (S k) rest ok); cbn [v_first v_last v_out v_current v_next v_tc]; try assumption; try reflexivity; try lia.
    + cbn [bind]. rewrite Sk'. reflexivity.
    + rewrite Sk'. cbn [app length] in Hlen. lia.
Qed.

Lemma view_spec fuel out ok : base <> [] -> transcode T base = Ok (out, ok) -> (length out < fuel)%nat ->
  view_iterate T cap base fuel = Ok (out, ok).
Proof.
  intros Hne E Hf. unfold view_iterate, vbegin.
  assert (Hlen : (0 < length base)%nat) by (destruct base; [contradiction|cbn; lia]).
  destruct (Nat.eqb_spec 0 (length base)) as [|_]; [lia|].
  set (it0 := Vit T 0 0 [] (tc_init T) 0 0).
  destruct (fill_spec (length base) it0 true out ok eq_refl ltac:(lia) Hlen (vw_init _ _ _ _ HT) E) as (it' & wf' & rest' & F' & C' & F1 & L1 & B1 & -> & R1 & W1).
  rewrite F'. cbn [bind]. rewrite (collect_spec fuel it' wf' 0 rest' ok); try assumption; try lia.
  - cbn [skipn]. rewrite W1. reflexivity.
  - rewrite C'. exact Hlen.
Qed.
End V.
