(* The two classes of iterators, used by several threads. *)
From Verif Require Import Base ModelPct SpecPct PctFacts ModelIcu SpecIcu IcuUtf8 IcuRead8 IcuEnc IcuView IcuViewAll IcuProps.
From Verif Require Import ModelHist SpecHist HistFacts HistPct HistView ModelConc SpecConc ConcFacts ConcMove.
From Coq Require Import Lia.
Local Open Scope list_scope.

Lemma true_always (l : list (nat * op)) n : Forall (fun z => (fun (_ : nat) (_ : op) => True) n (snd z)) l.
Proof. apply Forall_forall. intros; exact I. Qed.

Section Pct.
Variables (s t : str).
Hypothesis D : decodes s t.
Lemma pct_threads_see setup g y x : cursor_run t true any_two setup = Some y -> Forall (fun z => const_use (made setup) (snd z)) g ->
  (forall i, cursor_run t true any_two (setup ++ of_thread i g) = Some (y ++ x i)) ->
  exists obs evs, pct_threads s setup g = Ok (obs, evs) /\ forall i, of_thread i obs = x i.
Proof.
  intros S U R.
  destruct (threads_run (pct_class s) (pit_deref_writes s) t true (fun _ _ => true) (PRep s t) (pct_begin s t) (pct_end s t D) (pct_next s t D) (pct_deref s t D) (pct_eq s t)
    ltac:(cbn; congruence) ltac:(intros it it' fl E; cbn in E; unfold pit_next in E; destruct (Nat.eqb _ _); [discriminate|]; destruct (char_at s (i_pos it)); cbn [bind] in E; try discriminate;
      match type of E with bind ?e _ = _ => destruct e; cbn [bind] in E; try discriminate end; congruence)
    (fun _ => True) (fun _ _ => True) ltac:(intros; apply Forall_forall; intros; exact I) setup g y x S U (true_always g _) R) as (obs & evs & A & B & _).
  exists obs, evs. auto.
Qed.
Lemma pct_threads_race setup g y x : cursor_run t true any_two setup = Some y -> Forall (fun z => const_use (made setup) (snd z)) g ->
  (Forall (fun z => no_deref (made setup) (snd z)) g \/ (forall it, pit_deref_writes s it = false)) ->
  (forall i, cursor_run t true any_two (setup ++ of_thread i g) = Some (y ++ x i)) ->
  exists obs evs, pct_threads s setup g = Ok (obs, evs) /\ ~ race evs.
Proof.
  intros S U Dr R.
  destruct (threads_run (pct_class s) (pit_deref_writes s) t true (fun _ _ => true) (PRep s t) (pct_begin s t) (pct_end s t D) (pct_next s t D) (pct_deref s t D) (pct_eq s t)
    ltac:(cbn; congruence) ltac:(intros it it' fl E; cbn in E; unfold pit_next in E; destruct (Nat.eqb _ _); [discriminate|]; destruct (char_at s (i_pos it)); cbn [bind] in E; try discriminate;
      match type of E with bind ?e _ = _ => destruct e; cbn [bind] in E; try discriminate end; congruence)
    (fun e => e_write e = false) (fun n o => no_deref n o \/ forall it, pit_deref_writes s it = false)
    ltac:(intros i o w cs ats c' z (L & J) Cu Al Ec;
      exact (accesses_reads (pct_class s) (pit_deref_writes s) t true (fun _ _ => true) (PRep s t) (pct_begin s t) (pct_end s t D) (pct_next s t D) (pct_deref s t D) (pct_eq s t)
        i (length ats) o _ (cs i) c' z eq_refl (proj2 (J i)) Ec Cu Al)) setup g y x S U) as (obs & evs & A & _ & G & _).
  - destruct Dr as [Dr|Dr]; [|apply Forall_forall; intros; right; exact Dr]. eapply Forall_impl; [|exact Dr]. intros; left; assumption.
  - exact R.
  - exists obs, evs. split; [exact A|]. apply reads_no_race. exact G.
Qed.
End Pct.
(* no escape anywhere: nothing to store *)
Lemma plain_quiet s : ~ In percent s -> forall it, pit_deref_writes s it = false.
Proof.
  intros N it. unfold pit_deref_writes, pit_deref, char_at. destruct (nth_error s (i_pos it)) as [c|] eqn:E; cbn [bind]; [|reflexivity].
  destruct (Ascii.eqb_spec c "%") as [->|]; [|reflexivity]. exfalso. apply N. apply nth_error_In in E. exact E.
Qed.

Section View.
Variables (T : tcdr) (cap : nat) (valid : N -> Prop) (Inv : tc_st T -> Prop).
Hypothesis HT : viewable T cap valid Inv.
Hypothesis Hcap : (cap < 16)%nat.
Variable base : list N.
Hypothesis Hbase : Forall valid base.
Hypothesis Hnil : transcode T [] = Ok ([], true).
Variables (out : list N) (ok : bool).
Hypothesis Htr : transcode T base = Ok (out, ok).
Let cmp := same_or_end (length out).
Let R := Rep T cap Inv base out ok.
Let Hb := begin_rep T cap valid Inv HT Hcap base Hbase Hnil out ok Htr.
Let He := end_rep T cap Inv base out ok.
Let Hn := next_rep T cap valid Inv HT Hcap base Hbase out ok Htr.
Let Hd := deref_rep T cap Inv Hcap base out ok.
Let Hq := eq_rep T cap Inv Hcap base out ok.
Lemma mono_begin it fl : ic_begin (view_class T cap base) false = Ok (it, fl) -> fl = false.
Proof. intros E. destruct (begin_flag _ _ _ _ _ true _ _ E) as (_ & _ & M). apply M. reflexivity. Qed.
Lemma mono_next it it' fl : ic_next (view_class T cap base) it false = Ok (it', fl) -> fl = false.
Proof. intros E. destruct (next_flag _ _ _ _ _ _ true _ _ E) as (_ & _ & M). apply M. reflexivity. Qed.
Lemma view_threads_see setup g y x : cursor_run out ok cmp setup = Some y -> Forall (fun z => const_use (made setup) (snd z)) g ->
  (forall i, cursor_run out ok cmp (setup ++ of_thread i g) = Some (y ++ x i)) ->
  exists obs evs, view_threads T cap base setup g = Ok (obs, evs) /\ (forall i, of_thread i obs = x i)
   /\ (ok = true -> ~ race evs)
   /\ (ok = false -> forall i j, i <> j -> ~ at_end out ok cmp setup -> at_end out ok cmp (setup ++ of_thread i g) -> at_end out ok cmp (setup ++ of_thread j g) -> race evs)
   /\ (ok = false -> forall i j, i <> j -> ~ at_end out ok cmp setup -> at_end out ok cmp (setup ++ of_thread i g) -> In (j, Flag) g -> race evs).
Proof.
  intros S U X.
  destruct (threads_run (view_class T cap base) (fun _ => false) out ok cmp R Hb He Hn Hd Hq mono_begin mono_next
    (fun e => ok = true -> e_write e = false) (fun _ _ => True)
    ltac:(intros i o w cs ats c' z (L & J) Cu Al Ec; apply Forall_forall; intros e Ie Ek;
      pose proof (accesses_reads (view_class T cap base) (fun _ => false) out ok cmp R Hb He Hn Hd Hq i (length ats) o _ (cs i) c' z Ek (proj2 (J i)) Ec Cu (or_intror (fun _ => eq_refl))) as Q;
      rewrite Forall_forall in Q; exact (Q e Ie)) setup g y x S U (true_always g _) X) as (obs & evs & A & B & G & W).
  exists obs, evs. split; [exact A|]. split; [exact B|]. split; [|split].
  - intros Ek. apply reads_no_race. eapply Forall_impl; [|exact G]. intros e Q. exact (Q Ek).
  - intros Ek i j Nij Na Ai Aj. exists (Event i WellFormedFlag true), (Event j WellFormedFlag true). split; [exact (W Ek i Na Ai)|]. split; [exact (W Ek j Na Aj)|]. cbn. auto.
  - intros Ek i j Nij Na Ai Ij. exists (Event i WellFormedFlag true), (Event j WellFormedFlag false). split; [exact (W Ek i Na Ai)|].
    split; [exact (flag_read _ _ _ _ _ _ _ A Ij)|]. cbn. auto.
Qed.
End View.

Lemma view_conc T cap bound l out ok setup g y x : view_of T cap bound -> Forall (fun u => (u < bound)%N) l -> transcode T l = Ok (out, ok) ->
  cursor_run out ok (same_or_end (length out)) setup = Some y -> Forall (fun z => const_use (made setup) (snd z)) g ->
  (forall i, cursor_run out ok (same_or_end (length out)) (setup ++ of_thread i g) = Some (y ++ x i)) ->
  exists obs evs, view_threads T cap l setup g = Ok (obs, evs) /\ (forall i, of_thread i obs = x i)
   /\ (ok = true -> ~ race evs)
   /\ (ok = false -> forall i j, i <> j -> ~ at_end out ok (same_or_end (length out)) setup -> at_end out ok (same_or_end (length out)) (setup ++ of_thread i g)
        -> at_end out ok (same_or_end (length out)) (setup ++ of_thread j g) -> race evs)
   /\ (ok = false -> forall i j, i <> j -> ~ at_end out ok (same_or_end (length out)) setup -> at_end out ok (same_or_end (length out)) (setup ++ of_thread i g)
        -> In (j, Flag) g -> race evs).
Proof.
  intros V F E S U R. assert (A : Forall okany l) by (apply Forall_forall; intros; exact I).
  destruct V; (eapply view_threads_see; [|unfold max_output_8, max_output_16, max_output_32, max_output_16_8, max_output_16_32, longest_sequence_8, longest_sequence_16, longest_sequence_32; lia| |reflexivity|exact E|exact S|exact U|exact R]);
   first [apply viewable_8_8|apply viewable_8_16|apply viewable_8_32|apply viewable_16_8|apply viewable_16_16|apply viewable_16_32|apply viewable_32_8|apply viewable_32_16|apply viewable_32_32|exact F|exact A].
Qed.
