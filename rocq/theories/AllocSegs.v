(* The vector of segments alone: with all the memory for everything else, split () needs room for as many segments as it
   returns, and for no more. *)
From Verif Require Import Base ModelRule ModelUri ModelParse ParseWork ParseCost ModelAlloc AllocFacts AllocSize.
Local Open Scope nat_scope.
Section Segments.
Context {Mem : Type}.
Variable alloc : request -> Mem -> option Mem.
Hypothesis accs_granted : forall k m, alloc (Accs k) m <> None.
Lemma full_parse sg fuel g s w : parse_w sg fuel g s = Ok (None, w) -> forall m, exists m', parse_m alloc sg fuel g s m = Ok (Some (None, m')).
Proof.
  unfold parse_w. intros E. destruct (concat_impl_w _ _ _ _) as [[x w1]| |] eqn:EC; cbn [bind] in E; try discriminate.
  destruct (done run_action x empty_parts) as [[b q]| |] eqn:ED; cbn [bind fst snd] in E; try discriminate. destruct b; [discriminate|]. clear E.
  assert (F : forall m, exists m', concat_impl_m alloc (run_m alloc sg fuel g) None false (rule_of s) m = Ok (Some (x, m'))).
  { eapply (size_concat alloc (copies w1)); [intros; apply accs_granted|apply size_run; intros; apply accs_granted|exact EC|lia]. }
  intros m. destruct (F m) as [m1 F1]. exists m1. unfold parse_m, seqm at 1. rewrite F1. cbn [bind]. unfold done in ED. unfold done_m, seqm.
  destruct (tail x) as [[|c t]|]; try reflexivity. destruct (run_accs run_action (accs x) empty_parts); discriminate.
Qed.
Variable B : nat.
Hypothesis segs_limit : forall k m, 0 < k -> (alloc (Segs k) m <> None <-> k <= B).
Notation nsegs p := (length (segments (p_path p))).
(* what the run of the actions comes to *)
Definition limited (a : R (Mem := Mem) parts) (p : parts) : Prop :=
  if nsegs p <=? B then forall m, exists m', a m = Ok (Some (p, m')) else forall m, a m = Ok None.

Lemma action_segs a s p p' : run_action a s p = Ok p' ->
  nsegs p' = match a with AppendDir _ | RecordInitialSegment => S (nsegs p) | _ => nsegs p end.
Proof.
  intros E. destruct a; cbn [run_action] in E; try (injection E as <-; cbn; rewrite ?app_length; cbn; lia).
  destruct (set_back (segments (p_path p)) s) as [l| |] eqn:X; cbn [bind] in E; try discriminate. injection E as <-. cbn [set_path p_path segments].
  unfold set_back in X. destruct (segments (p_path p)) as [|y l0]; [discriminate|]. injection X as <-. rewrite app_length.
  pose proof (app_removelast_last [] (l := y :: l0) ltac:(discriminate)) as R. apply (f_equal (@length _)) in R. rewrite app_length in R. change (length [s]) with 1. change (length [last (y :: l0) []]) with 1 in R. symmetry. exact R.
Qed.
Lemma accs_grow l : forall p p', run_accs run_action l p = Ok p' -> nsegs p <= nsegs p'.
Proof.
  induction l as [|[a s] l IH]; intros p p' E; cbn [run_accs] in E; [injection E as <-; lia|].
  destruct (run_action a s p) as [p1| |] eqn:EA; cbn [bind] in E; try discriminate. apply action_segs in EA. specialize (IH _ _ E). destruct a; lia.
Qed.
Lemma limited_accs l : forall p p', run_accs run_action l p = Ok p' -> nsegs p <= B -> limited (run_accs_m alloc l p) p'.
Proof.
  induction l as [|[a s] l IH]; intros p p' E L; cbn [run_accs run_accs_m] in *.
  - injection E as <-. unfold limited. rewrite (proj2 (Nat.leb_le _ _) L). intros m. now exists m.
  - destruct (run_action a s p) as [p1| |] eqn:EA; cbn [bind] in E; try discriminate.
    pose proof (action_segs _ _ _ _ EA) as LA. pose proof (accs_grow _ _ _ E) as G.
    assert (Go : (forall m, exists m', run_action_m alloc a s p m = Ok (Some (p1, m'))) -> nsegs p1 <= B -> limited (seqm (run_action_m alloc a s p) (run_accs_m alloc l)) p').
    { intros H L1. specialize (IH _ _ E L1). unfold limited in *. destruct (nsegs p' <=? B); intros m; destruct (H m) as [m1 H1]; unfold seqm; rewrite H1; cbn [bind]; apply IH. }
    assert (Need : forall k, 0 < k -> k = nsegs p1 -> (run_action_m alloc a s p = seqm (need alloc (Segs k)) (fun _ => lift (run_action a s p))) ->
                   limited (seqm (run_action_m alloc a s p) (run_accs_m alloc l)) p').
    { intros k P -> ->. destruct (Nat.leb_spec (nsegs p1) B) as [Y|Y].
      - assert (H : forall m, exists m', seqm (need alloc (Segs (nsegs p1))) (fun _ => lift (run_action a s p)) m = Ok (Some (p1, m'))).
        { intros m. pose proof (proj2 (segs_limit _ m P) Y) as Q. unfold seqm, need. destruct (alloc (Segs (nsegs p1)) m) as [m'|]; [|congruence].
          exists m'. cbn [option_map bind]. unfold lift. now rewrite EA. }
        specialize (IH _ _ E Y). unfold limited in *. destruct (nsegs p' <=? B); intros m; destruct (H m) as [m1 H1]; unfold seqm at 1; rewrite H1; cbn [bind]; apply IH.
      - unfold limited. destruct (Nat.leb_spec (nsegs p') B); [lia|]. intros m. unfold seqm, need.
        destruct (alloc (Segs (nsegs p1)) m) as [m'|] eqn:Q; [|reflexivity]. exfalso. pose proof (proj1 (segs_limit (nsegs p1) m P)). rewrite Q in *.
        assert (nsegs p1 <= B) by (apply H0; discriminate). lia. }
    destruct a; try (apply Go; [intros m; exists m; unfold run_action_m, lift; now rewrite EA|lia]);
      (apply (Need (S (nsegs p))); [lia|lia|reflexivity]).
Qed.
Lemma limited_parse sg fuel g s p w : parse_w sg fuel g s = Ok (Some p, w) ->
  if nsegs p <=? B then forall m, exists m', parse_m alloc sg fuel g s m = Ok (Some (Some p, m')) else forall m, parse_m alloc sg fuel g s m = Ok None.
Proof.
  unfold parse_w. intros E. destruct (concat_impl_w _ _ _ _) as [[x w1]| |] eqn:EC; cbn [bind] in E; try discriminate.
  destruct (done run_action x empty_parts) as [[b q]| |] eqn:ED; cbn [bind fst snd] in E; try discriminate. destruct b; [|discriminate]. injection E as -> <-.
  unfold done in ED. destruct (tail x) as [[|c t]|] eqn:ET; try discriminate.
  destruct (run_accs run_action (accs x) empty_parts) as [p1| |] eqn:ER; cbn [bind] in ED; try discriminate. injection ED as ->.
  pose proof (limited_accs _ _ _ ER (Nat.le_0_l _)) as Y.
  assert (F : forall m, exists m', concat_impl_m alloc (run_m alloc sg fuel g) None false (rule_of s) m = Ok (Some (x, m'))).
  { eapply (size_concat alloc (copies w1)); [intros; apply accs_granted|apply size_run; intros; apply accs_granted|exact EC|lia]. }
  unfold limited in Y. destruct (nsegs p <=? B); intros m; destruct (F m) as [m1 F1]; unfold parse_m, seqm at 1; rewrite F1; cbn [bind];
    unfold done_m; rewrite ET; unfold seqm.
  - destruct (Y m1) as [m2 Y2]. exists m2. rewrite Y2. reflexivity.
  - rewrite Y. reflexivity.
Qed.
End Segments.
