(* How much memory parsing asks for *)
From Verif Require Import Base ModelRule ModelUri ModelParse ParseWork ParseCost ModelAlloc AllocFacts AllocQuiet PathFacts.
Local Open Scope N_scope.

Section Memory.
Context {Mem : Type}.
Variable alloc : request -> Mem -> option Mem.
Variable B : N.
Notation R := (@R Mem).
Hypothesis accs_granted : forall k m, N.of_nat k <= B -> alloc (Accs k) m <> None.
(* x is the result, whatever the memory *)
Definition fine {X} (a : R X) (x : X) : Prop := forall m, exists m', a m = Ok (Some (x, m')).
Lemma fine_ret {X} (x : X) : fine (ret x) x. Proof. intros m. now exists m. Qed.
Lemma fine_lift {X} (o : outcome X) x : o = Ok x -> fine (lift o) x. Proof. intros -> m. now exists m. Qed.
Lemma fine_seq {X Y} (a : R X) x (f : X -> R Y) y : fine a x -> fine (f x) y -> fine (seqm a f) y.
Proof. intros H K m. unfold seqm. destruct (H m) as [m1 ->]. cbn. apply K. Qed.
Lemma fine_accs {Y} k (f : unit -> R Y) y : N.of_nat k <= B -> fine (f tt) y -> fine (seqm (need alloc (Accs k)) f) y.
Proof.
  intros H K m. unfold seqm, need. pose proof (accs_granted k m H). destruct (alloc (Accs k) m) as [m1|]; [|congruence]. cbn. apply K.
Qed.
Lemma fine_copy r : #(accs r) <= B -> fine (copy_m alloc (A:=action) r) r.
Proof. intros H. apply fine_accs; [exact H|apply fine_ret]. Qed.
Lemma fine_join self (x : str * acceptors action) r : join_rule_m self x = Ok r -> N.of_nat (length (accs self) + length (snd x)) <= B -> fine (join_rule_mm alloc self x) r.
Proof. intros E H. unfold join_rule_mm. eapply fine_seq; [apply fine_lift; exact E|]. apply fine_accs; [exact H|apply fine_ret]. Qed.
Lemma copies_plus a b : copies (a +$ b) = copies a + copies b. Proof. reflexivity. Qed.
Lemma copies_call k : copies (call k) = 0. Proof. reflexivity. Qed.
Lemma copies_copy k : copies (copy k) = N.of_nat k. Proof. reflexivity. Qed.
Ltac cp := rewrite ?copies_plus, ?copies_call, ?copies_copy in *; rewrite ?Nat2N.inj_add in *.
Definition sized (F : rule action -> R (matched_result action)) (W : matcher_w action) : Prop :=
  forall r x w, W r = Ok (x, w) -> copies w <= B -> fine (F r) x.
Lemma size_concat F W acc opt self r w : sized F W -> concat_impl_w W acc opt self = Ok (r, w) -> copies w <= B -> fine (concat_impl_m alloc F acc opt self) r.
Proof.
  intros S E H. unfold concat_impl_w in E. unfold concat_impl_m. destruct (tail self) as [t|]; [|injection E as <- <-; now apply fine_copy].
  destruct (W (rule_of t)) as [[x w1]| |] eqn:EW; cbn [bind] in E; try discriminate. destruct x as [[s a]|].
  - cbv zeta in E. destruct (join_rule_m self _) as [r1| |] eqn:EJ; cbn [bind] in E; try discriminate. injection E as <- <-. cp.
    eapply fine_seq; [eapply S; [exact EW|lia]|]. cbn [length snd]. destruct acc as [g|].
    + rewrite app_length in H. cbn [length] in H. eapply fine_seq; [apply fine_accs; [lia|apply fine_ret]|]. apply fine_join; [exact EJ|]. cbn [snd]. rewrite app_length. cbn [length]. lia.
    + eapply fine_seq; [apply fine_ret|]. apply fine_join; [exact EJ|]. cbn [snd]. lia.
  - destruct opt; injection E as <- <-; cp; (eapply fine_seq; [eapply S; [exact EW|lia]|]); [apply fine_copy; lia|apply fine_ret].
Qed.
Lemma size_optional F W acc self r w : sized F W -> optional_impl_w W acc self = Ok (r, w) -> copies w <= B -> fine (optional_impl_m alloc F acc self) r.
Proof.
  intros S E H. unfold optional_impl_w in E. unfold optional_impl_m. destruct (tail self) as [t|]; [|injection E as <- <-; now apply fine_copy].
  destruct (concat_impl_w W acc true (rule_of t)) as [[x w1]| |] eqn:EW; cbn [bind] in E; try discriminate.
  destruct (tail x) as [t1|] eqn:Et; injection E as <- <-; cp; (eapply fine_seq; [eapply size_concat; [exact S|exact EW|lia]|]); cbv beta; rewrite Et.
  - apply fine_accs; [lia|apply fine_ret].
  - apply fine_copy. lia.
Qed.
Lemma size_star_loop F W max fuel : sized F W -> forall s len acc count r w, star_loop_w fuel W max s len acc count = Ok (r, w) -> #acc + copies w <= B ->
  fine (star_loop_m alloc fuel F max s len acc count) r.
Proof.
  intros S. induction fuel as [|fuel IH]; intros s len acc count r w E H; cbn [star_loop_w star_loop_m] in *; [discriminate|].
  destruct (W (rule_of s)) as [[x w1]| |] eqn:EW; cbn [bind] in E; try discriminate. destruct x as [[ms a]|].
  - cbv zeta in *. destruct (N.ltb max _) eqn:Em.
    { injection E as <- <-. cp. eapply fine_seq; [eapply S; [exact EW|lia]|]. apply fine_ret. }
    destruct (Nat.ltb _ _) eqn:El; [discriminate|].
    destruct (star_loop_w _ _ _ _ _ _ _) as [[r1 w2]| |] eqn:ER; cbn [bind] in E; try discriminate. injection E as <- <-. cp.
    eapply fine_seq; [eapply S; [exact EW|lia]|].  cbv beta iota; rewrite El; apply fine_accs.
    { destruct a as [|y a]; [cbn; lia|]. rewrite Nat2N.inj_add. lia. }
    eapply IH; [exact ER|]. rewrite app_length, Nat2N.inj_add. lia.
  - injection E as <- <-. cp. eapply fine_seq; [eapply S; [exact EW|lia]|apply fine_ret].
Qed.
Lemma size_star F W fuel min max self r w : sized F W -> star_w fuel W min max self = Ok (r, w) -> copies w <= B -> fine (star_m alloc fuel F min max self) r.
Proof.
  intros S E H. unfold star_w in E. unfold star_m. destruct (tail self) as [t|]; [|injection E as <- <-; now apply fine_copy].
  destruct (star_loop_w _ _ _ _ _ _ _) as [[[[len acc] count] w1]| |] eqn:EL; cbn [bind] in E; try discriminate.
  destruct (N.ltb count min) eqn:Em.
  - injection E as <- <-. cp. apply fine_accs; [lia|]. eapply fine_seq; [eapply size_star_loop; [exact S|exact EL|lia]|]. cbv beta iota. rewrite Em. apply fine_ret.
  - destruct (substr_from len t) as [t'| |] eqn:ET; cbn [bind] in E; try discriminate. injection E as <- <-. cp. apply fine_accs; [lia|].
    eapply fine_seq; [eapply size_star_loop; [exact S|exact EL|lia]|]. cbv beta iota. rewrite Em. eapply fine_seq; [apply fine_lift; exact ET|apply fine_ret].
Qed.
Lemma size_alternative Fs Ws self r w : Forall2 sized Fs Ws -> alternative_w Ws self = Ok (r, w) -> copies w <= B -> fine (alternative_m alloc Fs self) r.
Proof.
  intros S. revert r w. induction S as [|F W Fs Ws S _ IH]; intros r w E H; cbn [alternative_w alternative_m] in *; [injection E as <- <-; apply fine_ret|].
  destruct (tail self) as [t|]; [|injection E as <- <-; now apply fine_copy]. destruct (W (rule_of t)) as [[x w1]| |] eqn:EW; cbn [bind] in E; try discriminate. destruct x as [[s a]|].
  - destruct (join_rule_m self _) as [r1| |] eqn:EJ; cbn [bind] in E; try discriminate. injection E as <- <-. cp. eapply fine_seq; [eapply S; [exact EW|lia]|].
    apply fine_join; [exact EJ|]. cbn [snd]. lia.
  - destruct (alternative_w Ws self) as [[r1 w2]| |] eqn:EA; cbn [bind] in E; try discriminate. injection E as <- <-. cp. eapply fine_seq; [eapply S; [exact EW|lia]|].
    eapply IH; [reflexivity|lia].
Qed.
Lemma size_matched r self x w : matched_w r self = Ok (x, w) -> copies w <= B -> fine (matched_m alloc (A:=action) r self) x.
Proof.
  intros E H. unfold matched_w in E. unfold matched_m. destruct (matched r self) as [y| |] eqn:EM; cbn [bind] in E; try discriminate. injection E as <- <-.
  eapply fine_seq; [apply fine_lift; reflexivity|]. destruct y as [y|]; [|apply fine_ret]. unfold matched in EM. destruct (tail self); [|discriminate].
  apply fine_accs; [exact H|apply fine_ret].
Qed.
Lemma size_leaf f : sized (leaf_m f) (leaf_w f).
Proof. intros r x w E _. unfold leaf_w in E. destruct (f r) as [y| |] eqn:Ef; cbn [bind] in E; try discriminate. injection E as <- <-. unfold leaf_m. rewrite Ef. now apply fine_lift. Qed.
Lemma size_then {X} (a : R (rule action)) b (F : rule action -> R X) W x w : (forall r w, b = Ok (r, w) -> copies w <= B -> fine a r) ->
  (forall r x w, W r = Ok (x, w) -> copies w <= B -> fine (F r) x) -> then_w b W = Ok (x, w) -> copies w <= B -> fine (seqm a F) x.
Proof.
  intros H K E L. unfold then_w in E. destruct b as [[r w1]| |]; cbn [bind] in E; try discriminate. destruct (W r) as [[y w2]| |] eqn:EW; cbn [bind] in E; try discriminate.
  injection E as <- <-. cp. eapply fine_seq; [eapply H; [reflexivity|lia]|]. eapply K; [exact EW|lia].
Qed.
Lemma size_run sg fuel :
  (forall g, sized (run_m alloc sg fuel g) (run_w sg fuel g))
  /\ (forall c r x w, run_chain_w sg fuel c r = Ok (x, w) -> copies w <= B -> fine (run_chain_m alloc sg fuel c r) x)
  /\ (forall gs, Forall2 sized (run_all_m alloc sg fuel gs) (run_all_w sg fuel gs)).
Proof.
  apply gram_mut; intros; try apply size_leaf; cbn [run_m run_w run_chain_m run_chain_w run_all_m run_all_w] in *.
  - intros r x w E L. eapply size_then; [apply H| |exact E|exact L]. intros. eapply size_matched; eassumption.
  - injection H as <- <-. apply fine_ret.
  - eapply size_then; [apply H| |eassumption|eassumption]. intros. eapply size_concat; eassumption.
  - eapply size_then; [apply H| |eassumption|eassumption]. intros. eapply size_optional; eassumption.
  - eapply size_then; [apply H| |eassumption|eassumption]. intros. eapply size_star; eassumption.
  - eapply size_then; [apply H| |eassumption|eassumption]. intros. eapply size_alternative; eassumption.
  - constructor.
  - now constructor.
Qed.
Hypothesis segs_granted : forall k m, N.of_nat k <= B -> alloc (Segs k) m <> None.
Lemma fine_segs {Y} k (f : unit -> R Y) y : N.of_nat k <= B -> fine (f tt) y -> fine (seqm (need alloc (Segs k)) f) y.
Proof.
  intros H K m. unfold seqm, need. pose proof (segs_granted k m H). destruct (alloc (Segs k) m) as [m1|]; [|congruence]. cbn. apply K.
Qed.
Lemma action_segments a s p p' : run_action a s p = Ok p' -> (length (segments (p_path p')) <= S (length (segments (p_path p))))%nat.
Proof.
  unfold run_action. destruct a; intros E; try (injection E as <-; cbn [p_path set_path set_authority segments]; rewrite ?app_length; cbn [length]; lia).
  destruct (set_back (segments (p_path p)) s) as [l| |] eqn:ES; cbn [bind] in E; try discriminate. injection E as <-. cbn [p_path set_path segments].
  unfold set_back in ES. revert ES. destruct (segments (p_path p)) as [|x k _] using rev_ind; [discriminate|]. intros ES.
  assert (l = removelast (k ++ [x]) ++ [s]) as -> by (destruct (k ++ [x]); [discriminate|now injection ES as <-]).
  rewrite removelast_last, !app_length. cbn [length]. lia.
Qed.
Lemma size_accs l : forall p p', run_accs run_action l p = Ok p' -> N.of_nat (length (segments (p_path p)) + length l) <= B -> fine (run_accs_m alloc l p) p'.
Proof.
  induction l as [|[a s] l IH]; intros p p' E L; cbn [run_accs run_accs_m] in *; [injection E as <-; apply fine_ret|].
  destruct (run_action a s p) as [p1| |] eqn:EA; cbn [bind] in E; try discriminate. apply fine_seq with p1.
  - unfold run_action_m. cbn [length] in L. destruct a; try (now apply fine_lift); (apply fine_segs; [lia|now apply fine_lift]).
  - apply IH; [exact E|]. pose proof (action_segments _ _ _ _ EA). cbn [length] in L. lia.
Qed.
Lemma segments_accs l : forall p p', run_accs run_action l p = Ok p' -> (length (segments (p_path p')) <= length (segments (p_path p)) + length l)%nat.
Proof.
  induction l as [|[a s] l IH]; intros p p' E; cbn [run_accs] in E; [injection E as <-; lia|].
  destruct (run_action a s p) as [p1| |] eqn:EA; cbn [bind] in E; try discriminate. pose proof (action_segments _ _ _ _ EA). specialize (IH _ _ E). cbn [length]. lia.
Qed.
Lemma size_parse sg fuel g s r w : parse_w sg fuel g s = Ok (r, w) -> copies w <= B -> runs w <= B -> fine (parse_m alloc sg fuel g s) r.
Proof.
  unfold parse_w, parse_m. intros E C U. destruct (concat_impl_w _ _ _ _) as [[x w1]| |] eqn:EC; cbn [bind] in E; try discriminate.
  destruct (done run_action x empty_parts) as [[b p]| |] eqn:ED; cbn [bind fst snd] in E; try discriminate. injection E as <- <-.
  eapply fine_seq; [eapply size_concat; [apply size_run|exact EC|rewrite copies_plus in C; lia]|]. apply fine_seq with (b, p); [|apply fine_ret].
  unfold done in ED. unfold done_m. destruct (tail x) as [[|c t]|]; try (injection ED as <- <-; apply fine_ret).
  destruct (run_accs run_action (accs x) empty_parts) as [p1| |] eqn:ER; cbn [bind] in ED; try discriminate. injection ED as <- <-.
  apply fine_seq with p1; [|apply fine_ret]. apply size_accs; [exact ER|]. unfold plus_cost in U. cbn [runs] in U. change (length (segments (p_path empty_parts))) with 0%nat. cbn [Nat.add]. lia.
Qed.
Lemma segments_parse sg fuel g s p w : parse_w sg fuel g s = Ok (Some p, w) -> #(segments (p_path p)) <= runs w.
Proof.
  unfold parse_w. intros E. destruct (concat_impl_w _ _ _ _) as [[x w1]| |] eqn:EC; cbn [bind] in E; try discriminate.
  destruct (done run_action x empty_parts) as [[b q]| |] eqn:ED; cbn [bind fst snd] in E; try discriminate. destruct b; [|discriminate]. injection E as <- <-.
  unfold done in ED. destruct (tail x) as [[|c t]|]; try discriminate.
  destruct (run_accs run_action (accs x) empty_parts) as [p1| |] eqn:ER; cbn [bind] in ED; try discriminate. injection ED as <-.
  apply segments_accs in ER. cbn in ER. unfold plus_cost. cbn [runs]. lia.
Qed.
Lemma fine_copied p (q : path) : #(segments p) <= B -> fine (seqm (need alloc (Segs (length (segments p)))) (fun _ => ret q)) q.
Proof. intros H. apply fine_segs; [exact H|apply fine_ret]. Qed.
Lemma fine_rds p : fine (remove_dot_segments_m alloc p) (remove_dot_segments p).
Proof.
  unfold remove_dot_segments_m. cbv zeta. apply fine_segs; [|apply fine_ret]. cbn [remove_dot_segments segments].
  rewrite (proj2 (Nat.leb_le _ _) (rds_length (segments p))). lia.
Qed.
Lemma size_join_parts b r strict : #(segments (p_path b)) + #(segments (p_path r)) <= B -> fine (join_parts_m alloc b r strict) (join_parts b r strict).
Proof.
  intros L. unfold join_parts_m, join_parts. cbv zeta.
  destruct (if negb strict && _ then None else p_scheme r) as [s|].
  { eapply fine_seq; [apply fine_copied; lia|]. eapply fine_seq; [apply fine_rds|apply fine_ret]. }
  destruct (p_authority r) as [a|].
  { eapply fine_seq; [apply fine_copied; lia|]. eapply fine_seq; [apply fine_rds|apply fine_ret]. }
  destruct (path_is_empty (p_path r)).
  { eapply fine_seq; [apply fine_copied; lia|]. apply fine_ret. }
  destruct (absolute (p_path r)).
  { eapply fine_seq; [apply fine_copied; lia|]. eapply fine_seq; [apply fine_rds|apply fine_ret]. }
  assert (M : #(segments (merge b r)) <= B).
  { unfold merge. destruct (p_authority b), (path_is_empty (p_path b)); cbn [segments]; try lia; rewrite app_length; destruct (Nat.ltb 1 _);
      try rewrite firstn_length; lia. }
  eapply fine_seq; [now apply fine_copied|]. eapply fine_seq; [apply fine_rds|apply fine_ret].
Qed.
Lemma size_join sg fuel base ref strict o bw rw b r : split_w sg fuel base = Ok (b, bw) -> split_reference_w sg fuel ref = Ok (r, rw) ->
  copies bw <= B -> copies rw <= B -> runs bw + runs rw <= B -> join sg fuel base ref strict = Ok o -> fine (join_m alloc sg fuel base ref strict) o.
Proof.
  intros Eb Er C1 C2 U E. unfold join_m. unfold join in E.
  assert (Sb : split sg fuel base = Ok b) by (apply split_both; eauto). assert (Sr : split_reference sg fuel ref = Ok r) by (apply split_reference_both; eauto).
  rewrite Sb in E. cbn [bind] in E. apply fine_seq with b; [eapply size_parse; [exact Eb|lia|lia]|]. destruct b as [bp|]; [|injection E as <-; apply fine_ret].
  rewrite Sr in E. cbn [bind] in E. apply fine_seq with r; [eapply size_parse; [exact Er|lia|lia]|]. destruct r as [rp|]; injection E as <-; [|apply fine_ret].
  pose proof (segments_parse _ _ _ _ _ _ Eb). pose proof (segments_parse _ _ _ _ _ _ Er). eapply fine_seq; [apply size_join_parts; lia|apply fine_ret].
Qed.
End Memory.
