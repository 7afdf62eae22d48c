(* valid () with steps: the same answer as parts_valid, in a linear number of steps. *)
From Verif Require Import Base ModelRule ModelUri SpanSim SpanUri SpanCost SpanCostUri SpecPlaces.
From Verif Require ModelSpan.
Local Open Scope list_scope.

Section Valid.
Variable sg : bool.
Variable fuel : nat.
Definition upto (K size : nat) (x : outcome bool) (y : ModelSpan.M bool) : Prop :=
  agree eq x y /\ forall b n, y = Ok (b, n) -> n <= K * size.
Lemma agree_eq {T} (x : outcome T) (y : ModelSpan.M T) : agree eq x y -> forall r, x = Ok r -> exists n, y = Ok (r, n).
Proof. destruct y as [[r n]|e|]; cbn; intros H u E; try congruence. destruct H as (v & -> & ->). injection E as ->. eauto. Qed.
Lemma upto_ret K b : upto K 0 (Ok b) (ModelSpan.ret b).
Proof. split; [cbn; eauto|]. intros c n E. injection E as <- <-. lia. Qed.
Lemma upto_and K a b x x' y y' : upto K a x x' -> upto K b y y' -> upto K (a + b) (andalso x y) (ModelSpan.andalso x' y').
Proof.
  intros [A1 N1] [A2 N2]. split.
  - eapply agree_bind; [exact A1|]. intros r u <-. destruct r; [exact A2|]. apply agree_ret. reflexivity.
  - intros r n H. unfold ModelSpan.andalso in H. apply mbind_inv in H. destruct H as (c & n1 & n2 & H1 & H2 & ->).
    apply N1 in H1. destruct c; [apply N2 in H2; lia|]. injection H2 as <- <-. lia.
Qed.
Lemma matches_agree buf f fv : sim buf f fv -> agree eq (matches f buf) (ModelSpan.matches buf fv).
Proof.
  intros H. unfold matches, ModelSpan.matches.
  pose proof (simc_concat buf (0, length buf) _ _ f fv (valid_whole buf) (simc_start buf (0, length buf)) H) as C.
  rewrite SpanUri.whole in C. cbn [bind] in C.
  eapply (agree_bind (fun r u => u = trule buf r /\ goodr (0, length buf) r)).
  { unfold simc in C. unfold ModelSpan.ret in C. cbn [ModelSpan.mbind] in C.
    destruct (ModelSpan.concat fv (ModelSpan.rule_of (0, length buf))) as [[r n]|e|]; exact C. }
  intros r u [-> G]. eapply agree_bind; [exact (done_texts buf r ModelSpan.no_parts G)|].
  intros [b q] u ->. apply agree_ret. reflexivity.
Qed.
Lemma upto_check K c f (fv : str -> ModelSpan.matcher action) s : (forall b, sim b f (fv b)) -> (forall b, fcost c (fv b)) -> total c <= K ->
  upto K (length s + 1) (matches f s) (ModelSpan.check fv s).
Proof.
  intros H1 H2 HK. split; [apply matches_agree, H1|]. intros b n E. apply (matches_steps s c) in E; [|apply H2]. nia.
Qed.
Lemma upto_opt K c f (fv : str -> ModelSpan.matcher action) s : (forall b, sim b f (fv b)) -> (forall b, fcost c (fv b)) -> total c <= K ->
  upto K (opt_size s) (opt_matches f s) (ModelSpan.check_opt fv s).
Proof. intros H1 H2 HK. destruct s; cbn [opt_matches ModelSpan.check_opt opt_size]; [eapply upto_check; eauto|apply upto_ret]. Qed.
Definition K := Nat.max (total c_scheme) (Nat.max (total c_host_r) (Nat.max (total c_userinfo_r) (Nat.max (total c_port_r)
  (Nat.max (total c_segment) (Nat.max (total c_query) (total c_fragment)))))).
Lemma upto_segments l : upto K (segs_size l) (segs_valid sg fuel l) (ModelSpan.check_segments sg fuel l).
Proof.
  induction l as [|s l IH]; cbn [segs_size segs_valid ModelSpan.check_segments fold_right]; [apply upto_ret|].
  apply upto_and; auto. apply (upto_check K c_segment); [intros; apply m_segment|intros; apply k_segment|unfold K; lia].
Qed.
Lemma upto_authority a : upto K (auth_size a) (authority_valid sg fuel a) (ModelSpan.check_authority sg fuel a).
Proof.
  unfold auth_size, authority_valid, ModelSpan.check_authority. rewrite <- Nat.add_assoc. apply upto_and; [|apply upto_and].
  - apply (upto_opt K c_userinfo_r); [intros; apply m_userinfo_r|intros; apply k_userinfo_r|unfold K; lia].
  - apply (upto_check K c_host_r); [intros; apply m_host_r|intros; apply k_host_r|unfold K; lia].
  - apply (upto_opt K c_port_r); [intros; apply m_port_r|intros; apply k_port_r|unfold K; lia].
Qed.
Lemma upto_parts p : upto K (parts_size p) (parts_valid sg fuel p) (ModelSpan.check_parts sg fuel p).
Proof.
  unfold parts_size, parts_valid, ModelSpan.check_parts. rewrite <- !Nat.add_assoc.
  apply upto_and; [|apply upto_and; [|apply upto_and; [|apply upto_and]]].
  - destruct (p_scheme p); cbn [opt_size]; [|apply upto_ret].
    apply (upto_check K c_scheme); [intros; apply m_scheme|intros; apply k_scheme|unfold K; lia].
  - destruct (p_authority p); [apply upto_authority|apply upto_ret].
  - apply upto_segments.
  - apply (upto_opt K c_query); [intros; apply m_query|intros; apply k_query|unfold K; lia].
  - apply (upto_opt K c_fragment); [intros; apply m_fragment|intros; apply k_fragment|unfold K; lia].
Qed.
End Valid.
Lemma K_value : K = 4542. Proof. vm_compute. reflexivity. Qed.
