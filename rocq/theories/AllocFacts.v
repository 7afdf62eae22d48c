(* Proofs about parsing in a memory that may run out *)
From Verif Require Import Base ModelRule ModelUri ModelParse ParseWork ModelAlloc PathFacts.

Section Memory.
Context {Mem : Type}.
Variable alloc : request -> Mem -> option Mem.
Notation R := (@R Mem).
(* the same result, or std::bad_alloc *)
Definition same {X} (a : R X) (o : outcome X) : Prop := forall m,
  a m = Ok None \/ match o with Ok x => exists m', a m = Ok (Some (x, m')) | Fault e => a m = Fault e | Diverge => a m = Diverge end.
Lemma same_ret {X} (x : X) : same (ret x) (Ok x).
Proof. intros m. right. now exists m. Qed.
Lemma same_lift {X} (o : outcome X) : same (lift o) o.
Proof. intros m. right. unfold lift. destruct o as [x| |]; cbn; [now exists m|reflexivity|reflexivity]. Qed.
Lemma same_need k : same (need alloc k) (Ok tt).
Proof. intros m. unfold need. destruct (alloc k m) as [m'|]; cbn; [right; now exists m'|now left]. Qed.
Lemma same_seq {X Y} (a : R X) o (f : X -> R Y) g : same a o -> (forall x, same (f x) (g x)) -> same (seqm a f) (o >>= g).
Proof.
  intros H K m. unfold seqm. destruct (H m) as [->|E]; [now left|]. destruct o as [x| |]; [destruct E as [m' ->]|rewrite E; now right|rewrite E; now right].
  cbn. apply K.
Qed.
Lemma same_need_then {Y} k (f : unit -> R Y) g : same (f tt) g -> same (seqm (need alloc k) f) g.
Proof. intros H. change g with (Ok tt >>= fun _ => g). apply same_seq; [apply same_need|]. now intros []. Qed.
Definition like (F : rule action -> R (matched_result action)) (f : matcher action) : Prop := forall r, same (F r) (f r).
Lemma same_copy (r : rule action) : same (copy_m alloc r) (Ok r).
Proof. apply same_need_then, same_ret. Qed.
Lemma bind_ok {X} (o : outcome X) : o >>= (fun x => Ok x) = o.
Proof. destruct o; reflexivity. Qed.
Lemma same_then {X} (a : R X) o (f : X -> R X) : same a o -> (forall x, same (f x) (Ok x)) -> same (seqm a f) o.
Proof. intros H K. pose proof (same_seq a o f (fun x => Ok x) H K) as G. now rewrite bind_ok in G. Qed.
Lemma same_join (self : rule action) x : same (join_rule_mm alloc self x) (join_rule_m self x).
Proof.
  unfold join_rule_mm. apply same_then; [apply same_lift|]. intros r. apply same_need_then, same_ret.
Qed.
Lemma same_concat F f acc opt self : like F f -> same (concat_impl_m alloc F acc opt self) (concat_impl f acc opt self).
Proof.
  intros H. unfold concat_impl_m, concat_impl. destruct (tail self) as [t|]; [|apply same_copy]. apply same_seq; [apply H|]. intros [[s a]|].
  - destruct acc as [g|].
    + change (join_rule_m self (s, a ++ [(g, s)])) with (Ok (a ++ [(g, s)]) >>= fun a' => join_rule_m self (s, a')).
      apply same_seq; [apply same_need_then, same_ret|]. intros a'. apply same_join.
    + change (join_rule_m self (s, a)) with (Ok a >>= fun a' => join_rule_m self (s, a')). apply same_seq; [apply same_ret|]. intros a'. apply same_join.
  - destruct opt; [apply same_copy|apply same_ret].
Qed.
Lemma same_optional F f acc self : like F f -> same (optional_impl_m alloc F acc self) (optional_impl f acc self).
Proof.
  intros H. unfold optional_impl_m, optional_impl. destruct (tail self) as [t|]; [|apply same_copy]. apply same_seq; [now apply same_concat|]. intros r.
  destruct (tail r); [apply same_need_then, same_ret|apply same_copy].
Qed.
Lemma same_star_loop F f max fuel : like F f -> forall s len acc count, same (star_loop_m alloc fuel F max s len acc count) (star_loop fuel f max s len acc count).
Proof.
  intros H. induction fuel as [|fuel IH]; intros s len acc count; [apply same_lift|]. cbn [star_loop_m star_loop]. apply same_seq; [apply H|]. intros [[ms a]|]; [|apply same_ret].
  cbv zeta. destruct (N.ltb max _); [apply same_ret|]. destruct (Nat.ltb _ _); [apply same_lift|]. apply same_need_then, IH.
Qed.
Lemma same_star F f fuel min max self : like F f -> same (star_m alloc fuel F min max self) (star fuel f min max self).
Proof.
  intros H. unfold star_m, star. destruct (tail self) as [t|]; [|apply same_copy]. apply same_need_then. apply same_seq; [now apply same_star_loop|].
  intros [[len acc] count]. destruct (N.ltb count min); [apply same_ret|]. apply same_seq; [apply same_lift|]. intros t'. apply same_ret.
Qed.
Lemma same_alternative Fs fs self : Forall2 like Fs fs -> same (alternative_m alloc Fs self) (alternative fs self).
Proof.
  induction 1 as [|F f Fs fs H _ IH]; [apply same_ret|]. cbn [alternative_m alternative]. destruct (tail self) as [t|]; [|apply same_copy].
  apply same_seq; [apply H|]. intros [x|]; [apply same_join|exact IH].
Qed.
Lemma same_matched r self : same (matched_m alloc r self) (matched (A:=action) r self).
Proof.
  unfold matched_m. apply same_then; [apply same_lift|]. intros [x|]; [apply same_need_then, same_ret|apply same_ret].
Qed.
Lemma same_run sg fuel :
  (forall g, like (run_m alloc sg fuel g) (run sg fuel g))
  /\ (forall c r, same (run_chain_m alloc sg fuel c r) (run_chain sg fuel c r))
  /\ (forall gs, Forall2 like (run_all_m alloc sg fuel gs) (run_all sg fuel gs)).
Proof.
  apply gram_mut; intros; try (intros r; apply same_lift); cbn [run_m run run_chain_m run_chain run_all_m run_all].
  - intros r. apply same_seq; [apply H|]. intros x. apply same_matched.
  - apply same_ret.
  - apply same_seq; [apply H|]. intros x. now apply same_concat.
  - apply same_seq; [apply H|]. intros x. now apply same_optional.
  - apply same_seq; [apply H|]. intros x. now apply same_star.
  - apply same_seq; [apply H|]. intros x. now apply same_alternative.
  - constructor.
  - now constructor.
Qed.
Lemma same_accs l : forall p, same (run_accs_m alloc l p) (run_accs run_action l p).
Proof.
  induction l as [|[a s] l IH]; intros p; [apply same_ret|]. cbn [run_accs_m run_accs]. apply same_seq; [|exact IH].
  unfold run_action_m. destruct a; try apply same_lift; apply same_need_then, same_lift.
Qed.
Lemma same_done r p : same (done_m alloc r p) (done run_action r p).
Proof.
  unfold done_m, done. destruct (tail r) as [[|c t]|]; try apply same_ret. apply same_seq; [apply same_accs|]. intros p'. apply same_ret.
Qed.
Lemma same_parse sg fuel g s : same (parse_m alloc sg fuel g s) (parse_done (run sg fuel g) s).
Proof.
  unfold parse_m, parse_done, concat. apply same_seq; [apply same_concat, same_run|]. intros r. apply same_seq; [apply same_done|]. intros b. apply same_ret.
Qed.
Lemma same_split sg fuel s : same (split_m alloc sg fuel s) (split sg fuel s).
Proof. unfold split. rewrite uri_is. apply same_parse. Qed.
Lemma same_split_reference sg fuel s : same (split_reference_m alloc sg fuel s) (split_reference sg fuel s).
Proof. unfold split_reference. rewrite uri_reference_is. apply same_parse. Qed.
Lemma same_rds p : same (remove_dot_segments_m alloc p) (Ok (remove_dot_segments p)).
Proof. apply same_need_then, same_ret. Qed.
Lemma same_join_parts b r strict : same (join_parts_m alloc b r strict) (Ok (join_parts b r strict)).
Proof.
  unfold join_parts_m, join_parts. cbv zeta.
  set (rs := if negb strict && _ then None else p_scheme r). destruct rs as [s|].
  { change (Ok ?x) with (Ok (p_path r) >>= fun p => Ok (remove_dot_segments p) >>= fun p => Ok (mkparts (Some s) (p_authority r) p (p_query r) (p_fragment r))).
    apply same_seq; [apply same_need_then, same_ret|]. intros p. apply same_seq; [apply same_rds|]. intros p'. apply same_ret. }
  destruct (p_authority r) as [a|].
  { change (Ok ?x) with (Ok (p_path r) >>= fun p => Ok (remove_dot_segments p) >>= fun p => Ok (mkparts (p_scheme b) (Some a) p (p_query r) (p_fragment r))).
    apply same_seq; [apply same_need_then, same_ret|]. intros p. apply same_seq; [apply same_rds|]. intros p'. apply same_ret. }
  destruct (path_is_empty (p_path r)).
  { change (Ok ?x) with (Ok (p_path b) >>= fun p => Ok (mkparts (p_scheme b) (p_authority b) p (match p_query r with Some q => Some q | None => p_query b end) (p_fragment r))).
    apply same_seq; [apply same_need_then, same_ret|]. intros p. apply same_ret. }
  assert (E : Ok (if absolute (p_path r) then mkparts (p_scheme b) (p_authority b) (remove_dot_segments (p_path r)) (p_query r) (p_fragment r)
     else mkparts (p_scheme b) (p_authority b) (remove_dot_segments (merge b r)) (p_query r) (p_fragment r))
    = (Ok (if absolute (p_path r) then p_path r else merge b r) >>= fun p => Ok (remove_dot_segments p) >>= fun p => Ok (mkparts (p_scheme b) (p_authority b) p (p_query r) (p_fragment r))))
    by (destruct (absolute (p_path r)); reflexivity).
  rewrite E. apply same_seq; [apply same_need_then, same_ret|]. intros p. apply same_seq; [apply same_rds|]. intros p'. apply same_ret.
Qed.
Lemma same_join_m sg fuel base ref strict : same (join_m alloc sg fuel base ref strict) (join sg fuel base ref strict).
Proof.
  unfold join_m, join. apply same_seq; [apply same_split|]. intros [b|]; [|apply same_ret]. apply same_seq; [apply same_split_reference|]. intros [r|]; [|apply same_ret].
  change (Ok (Some (join_parts b r strict))) with (Ok (join_parts b r strict) >>= fun t => Ok (Some t)). apply same_seq; [apply same_join_parts|]. intros t. apply same_ret.
Qed.

(* enough memory: no exception *)
Definition calm {X} (a : R X) : Prop := forall m, a m <> Ok None.
Section Enough.
Hypothesis enough : forall k m, alloc k m <> None.
Lemma calm_ret {X} (x : X) : calm (ret x). Proof. intros m. discriminate. Qed.
Lemma calm_lift {X} (o : outcome X) : calm (lift o). Proof. intros m. unfold lift. destruct o; discriminate. Qed.
Lemma calm_need k : calm (need alloc k).
Proof. intros m. unfold need. specialize (enough k m). destruct (alloc k m); [discriminate|congruence]. Qed.
Lemma calm_seq {X Y} (a : R X) (f : X -> R Y) : calm a -> (forall x, calm (f x)) -> calm (seqm a f).
Proof. intros H K m. unfold seqm. specialize (H m). destruct (a m) as [[[x m']|]| |]; cbn; [apply K|congruence|discriminate|discriminate]. Qed.
Ltac calm := repeat match goal with
  | |- calm (ret _) => apply calm_ret
  | |- calm (lift _) => apply calm_lift
  | |- calm (need _ _) => apply calm_need
  | |- calm (seqm _ _) => apply calm_seq; [|intros ?]
  | |- calm (copy_m _ _) => unfold copy_m
  | |- calm (join_rule_mm _ _ _) => unfold join_rule_mm
  end.
Section Steps.
Variable F : rule action -> R (matched_result action).
Hypothesis HF : forall r, calm (F r).
Lemma calm_concat_impl acc opt self : calm (concat_impl_m alloc F acc opt self).
Proof.
  unfold concat_impl_m. destruct (tail self); calm; [apply HF|]. destruct x as [[ms a]|]; [destruct acc|destruct opt]; calm.
Qed.
Lemma calm_optional_impl acc self : calm (optional_impl_m alloc F acc self).
Proof. unfold optional_impl_m. destruct (tail self); calm; [apply calm_concat_impl|]. destruct (tail x); calm. Qed.
Lemma calm_star_loop max fuel : forall s len acc count, calm (star_loop_m alloc fuel F max s len acc count).
Proof.
  induction fuel as [|fuel IH]; intros s len acc count; cbn [star_loop_m]; calm; [apply HF|]. destruct x as [[ms a]|]; calm.
  cbv zeta. destruct (N.ltb _ _); calm. destruct (Nat.ltb _ _); calm. apply IH.
Qed.
Lemma calm_star fuel min max self : calm (star_m alloc fuel F min max self).
Proof.
  unfold star_m. destruct (tail self); calm; [apply calm_star_loop|]. destruct x0 as [[len acc] count]. destruct (N.ltb _ _); calm.
Qed.
End Steps.
Lemma calm_alternative (Fs : list (rule action -> R (matched_result action))) self : Forall (fun F => forall r, calm (F r)) Fs -> calm (alternative_m alloc Fs self).
Proof.
  induction 1 as [|F Fs HF _ IH]; cbn [alternative_m]; calm. destruct (tail self); calm; [apply HF|]. destruct x; [calm|exact IH].
Qed.
Lemma calm_run sg fuel :
  (forall g r, calm (run_m alloc sg fuel g r)) /\ (forall c r, calm (run_chain_m alloc sg fuel c r)) /\ (forall gs, Forall (fun F => forall r, calm (F r)) (run_all_m alloc sg fuel gs)).
Proof.
  apply gram_mut; intros; try (apply calm_lift); cbn [run_m run_chain_m run_all_m]; try (apply calm_seq; [apply H|intros x]).
  - unfold matched_m. calm. destruct x0; calm.
  - calm.
  - now apply calm_concat_impl.
  - now apply calm_optional_impl.
  - now apply calm_star.
  - now apply calm_alternative.
  - constructor.
  - now constructor.
Qed.
Lemma calm_concat sg fuel g s : calm (concat_impl_m alloc (run_m alloc sg fuel g) None false (rule_of s)).
Proof.
  unfold concat_impl_m, join_rule_mm. cbn [tail rule_of]. calm; [apply calm_run|]. destruct x as [[x a]|]; calm.
Qed.
Lemma calm_done r p : calm (done_m alloc r p).
Proof.
  unfold done_m. destruct (tail r) as [[|c t]|]; calm. generalize p. induction (accs r) as [|[a s] l IH]; intros q; cbn [run_accs_m]; calm; [|apply IH].
  unfold run_action_m. destruct a; calm.
Qed.
Lemma calm_parse sg fuel g s : calm (parse_m alloc sg fuel g s).
Proof. unfold parse_m. calm; [apply calm_concat|apply calm_done]. Qed.
Lemma calm_join sg fuel base ref strict : calm (join_m alloc sg fuel base ref strict).
Proof.
  unfold join_m. calm; [apply calm_parse|]. destruct x as [b|]; calm; [apply calm_parse|]. destruct x as [r|]; calm.
  unfold join_parts_m, remove_dot_segments_m. cbv zeta. destruct (if negb strict && _ then None else p_scheme r); calm. destruct (p_authority r); calm.
  destruct (path_is_empty _); calm.
Qed.
End Enough.
End Memory.
