(* Encoding and decoding several times *)
From Verif Require Import Base ModelUri ModelParts SpecPct SpecPuny SpecIcu SpecStore SpecViews SpecLayers PctFacts PartsHost PartsProps SendFacts CommuteUri.
Local Open Scope list_scope.

Lemma times_app {X} (R : X -> X -> Prop) n m x y z : times n R x y -> times m R y z -> times (n + m) R x z.
Proof. revert x. induction n as [|n IH]; intros x A B; [now cbn in A; subst|]. destruct A as (w & A & C). exists w. eauto. Qed.
Lemma times_last {X} (R : X -> X -> Prop) n x y : times (S n) R x y -> exists z, times n R x z /\ R z y.
Proof.
  revert x. induction n as [|n IH]; intros x (z & A & B); [cbn in B; subst; exists x; split; [reflexivity|exact A]|].
  apply IH in B as (w & B & C). exists w. split; [exists z; auto|exact C].
Qed.
(* --- one component whose set has the percent sign --------------------------------------------------------------- *)
Lemma decode_one (P : ascii -> Prop) s e t : P percent -> encodes P s e -> decodes e t -> t = s.
Proof. intros HP E D. eapply decodes_fun; [exact D|]. rewrite <- (app_nil_r e), <- (app_nil_r s). now eapply decodes_encoded; [exact HP|exact E|constructor]. Qed.
Lemma layers_text (P : ascii -> Prop) n k s e t : P percent -> k <= n -> times n (encodes P) s e -> times k decodes e t -> times (n - k) (encodes P) s t.
Proof.
  intros HP. revert n e. induction k as [|k IH]; intros n e L E D; [cbn in D; subst t; now rewrite Nat.sub_0_r|].
  destruct n as [|n]; [lia|]. apply times_last in E as (z & E & F). destruct D as (w & D1 & D2). rewrite (decode_one P z e w HP F D1) in D2. cbn [Nat.sub]. apply (IH n z); auto. lia.
Qed.
(* --- all components ------------------------------------------------------------------------------------------------ *)
Definition settles (f : field) : bool := match f with Scheme | Port | Host => true | _ => false end.
Definition no_xn_host (s : str) : Prop := forall ls l, labels dot s ls -> In l ls -> ~ has_prefix xn l.
Definition good (f : field) (s : str) : Prop := returns f s /\ (f = Host -> no_xn_host s).
(* decoding what does not need it *)
Lemma good_fixed f s t : settles f = true -> good f s -> decoded f s t -> t = s.
Proof.
  intros S [G X] D. destruct f; try discriminate S; try (eapply decodes_fun; [exact D|exact G]).
  eapply (decoded_fun Host); [exact D|]. specialize (X eq_refl). destruct (labels_exist ascii_dec dot s) as (l & ls & l0 & ls0 & E0 & E & F). injection E0 as <- <-.
  assert (H : host_decoded s s).
  { exists (l :: ls), (l :: ls). assert (Lb : labels dot s (l :: ls)) by (exists l, ls; auto). split; [exact Lb|]. split; [|exists l, ls; auto].
    assert (K : Forall (fun x => ~ has_prefix xn x) (l :: ls)) by (apply Forall_forall; intros x I; exact (X _ x Lb I)).
    clear - K. induction K; constructor; auto. left. auto. }
  destruct s as [|c s]; [right; auto|left; split; [exact H|discriminate]].
Qed.
Definition short (f : field) (s : str) : Prop := f = Host -> (N.of_nat (length s) < 2 ^ 32)%N.
Definition enc_step (f : field) (s e : str) : Prop := encoded f s e /\ short f s.
(* encoding again what is encoded *)
Lemma encoded_no_must f s e : settles f = true -> returns f s -> encoded f s e -> encoded f e e.
Proof.
  intros S G E.
  assert (U : forall n, ~ field_set Scheme (upper_hex n)).
  { intros n. assert (I : In (upper_hex n) (ss "0123456789ABCDEF")) by (unfold upper_hex; destruct (nth_in_or_default (N.to_nat n) (ss "0123456789ABCDEF") "0"%char) as [I| ->]; [exact I|now left]).
    revert I. generalize (upper_hex n). intros c I H. cbn in I. repeat (destruct I as [<-|I]; [destruct H as [[H|H]|H]; vm_compute in H; try discriminate H; now apply H|]). exact I. }
  destruct f; try discriminate S; cbn [encoded] in *.
  - clear G. induction E as [|c s t Pc E IH|c s t Nc E IH]; [constructor| |apply enc_copy; auto]. unfold escape. cbn [app].
    apply enc_copy; [intros [[H|H]|H]; vm_compute in H; try discriminate H; now apply H|]. apply enc_copy; [apply U|]. apply enc_copy; [apply U|exact IH].
  - clear G. destruct E as (cs & ok & us & es & _ & _ & (e1 & es' & -> & -> & _) & F). apply host_encoded_ascii. unfold ascii_only. rewrite Forall_map. apply joined_in.
    split; [|intros _; reflexivity]. revert F. generalize (e1 :: es'). clear. intros es F. induction F as [|u x us es H F IH]; constructor; [|exact IH].
    destruct H as [[A <-]|[_ (q & P & ->)]].
    + unfold ascii_only in A. now rewrite Forall_map in A.
    + apply Forall_app. split; [repeat constructor|]. apply Forall_forall. intros c I. destruct (punycode_chars u q P c I) as [->|[K|[_ K]]]; [reflexivity| |exact K].
      assert (X : forallb (fun c => (code c <? 0x80)%N) lower_digits = true) by (vm_compute; reflexivity). rewrite forallb_forall in X. apply N.ltb_lt, X, K.
  - clear G. induction E as [|c s t Pc E IH|c s t Nc E IH]; [constructor| |apply enc_copy; auto]. unfold escape. cbn [app].
    apply enc_copy; [intros [[H|H]|H]; vm_compute in H; try discriminate H; now apply H|]. apply enc_copy; [apply U|]. apply enc_copy; [apply U|exact IH].
Qed.
Lemma encoded_unique f s e e' : short f s -> encoded f s e -> encoded f s e' -> e = e'.
Proof.
  intros S A B. destruct f; try (eapply encodes_fun; eassumption). eapply (c26_unique Host); [exact (S eq_refl)|exact A|exact B].
Qed.
(* n encodings leave a settling field as one does *)
Lemma settled_chain f n s e : settles f = true -> returns f s -> times (S n) (enc_step f) s e -> encoded f s e.
Proof.
  intros S G. revert e. induction n as [|n IH]; intros e C.
  - destruct C as (z & [A _] & B). cbn in B. now subst.
  - apply times_last in C as (z & C & [D Sh]). apply IH in C. assert (z = e) as <-; [|exact C]. eapply encoded_unique; [exact Sh|eapply encoded_no_must; eassumption|exact D].
Qed.
Lemma fixed_chain f n s t : settles f = true -> good f s -> times n (decoded f) s t -> t = s.
Proof.
  intros S G. induction n as [|n IH]; [now intros ->|]. intros (z & A & B). rewrite (good_fixed f s z S G A) in B. auto.
Qed.
Lemma has_percent f : settles f = false -> field_set f percent.
Proof. destruct f; try discriminate; intros _; now right. Qed.
Lemma enc_step_times f n s e : settles f = false -> times n (enc_step f) s e -> times n (encodes (field_set f)) s e.
Proof.
  intros S. revert s. induction n as [|n IH]; intros s; [auto|]. intros (z & [A _] & B). exists z. split; [destruct f; try discriminate S; exact A|auto].
Qed.
Lemma dec_times f n s e : settles f = false -> times n (decoded f) s e -> times n decodes s e.
Proof. intros S. revert s. induction n as [|n IH]; intros s; [auto|]. intros (z & A & B). exists z. split; [destruct f; try discriminate S; exact A|auto]. Qed.
Lemma field_layers f n s e t : good f s -> times n (enc_step f) s e -> times n (decoded f) e t -> t = s.
Proof.
  intros G E D. destruct (settles f) eqn:S.
  - destruct n as [|n]; [cbn in *; congruence|]. apply (settled_chain f n s e S (proj1 G)) in E. destruct D as (z & A & B).
    assert (z = s) as -> by (eapply decoded_fun; [exact A|]; apply field_round; [apply G|exact E]). eapply fixed_chain; eassumption.
  - apply (enc_step_times f n s e S) in E. apply (dec_times f n e t S) in D. pose proof (layers_text _ n n s e t (has_percent f S) (le_n n) E D) as X. now rewrite Nat.sub_diag in X.
Qed.
(* what the host is after n encodings and k decodings *)
Lemma host_after f n k s e t : settles f = true -> good f s -> times n (enc_step f) s e -> times k (decoded f) e t -> t = s \/ (k = 0 /\ encoded f s t).
Proof.
  intros S G E D. destruct n as [|n]; [cbn in E; subst; left; eapply fixed_chain; eassumption|].
  apply (settled_chain f n s e S (proj1 G)) in E. destruct k as [|k]; [cbn in D; subst; auto|]. left. destruct D as (z & A & B).
  assert (z = s) as -> by (eapply decoded_fun; [exact A|]; apply field_round; [apply G|exact E]). eapply fixed_chain; eassumption.
Qed.
(* --- lifting to parts ------------------------------------------------------------------------------------------------ *)
Lemma opt_comp {A} (R S T : A -> A -> Prop) x y z : (forall a b c, R a b -> S b c -> T a c) -> opt_rel R x y -> opt_rel S y z -> opt_rel T x z.
Proof. intros C X Y. destruct X; inversion Y; subst; constructor; eauto. Qed.
Lemma parts_comp (R S T : field -> str -> str -> Prop) p q r : (forall f a b c, R f a b -> S f b c -> T f a c) -> parts_rel R p q -> parts_rel S q r -> parts_rel T p r.
Proof.
  intros C (X1 & X2 & X3 & X4 & X5 & X6) (Y1 & Y2 & Y3 & Y4 & Y5 & Y6).
  assert (O : forall f x y z, opt_rel (R f) x y -> opt_rel (S f) y z -> opt_rel (T f) x z) by (intros f x y z; apply opt_comp; apply C).
  split; [eapply O; eassumption|]. split; [|split; [congruence|split; [|split; eapply O; eassumption]]].
  - eapply opt_comp; [|exact X2|exact Y2]. intros a b c (A1 & A2 & A3) (B1 & B2 & B3). split; [eapply O; eassumption|split; [eauto|eapply O; eassumption]].
  - clear - X4 Y4 C. revert Y4. generalize (segments (p_path r)). induction X4 as [|x y l l' H F IH]; intros z Y; inversion Y; subst; constructor; eauto.
Qed.
Lemma parts_refl (T : field -> str -> str -> Prop) p : (forall f s, T f s s) -> parts_rel T p p.
Proof.
  intros H. assert (O : forall f o, opt_rel (T f) o o) by (intros f [x|]; constructor; auto).
  split; [apply O|]. split; [|split; [reflexivity|split; [|split; apply O]]].
  - destruct (p_authority p); constructor. split; [apply O|split; [apply H|apply O]].
  - induction (segments (p_path p)); constructor; auto.
Qed.
Lemma parts_times (R : field -> str -> str -> Prop) n p q : times n (parts_rel R) p q -> parts_rel (fun f => times n (R f)) p q.
Proof.
  revert p. induction n as [|n IH]; intros p; [intros ->; apply parts_refl; reflexivity|]. intros (m & A & B). apply IH in B.
  eapply parts_comp; [|exact A|exact B]. intros f a b c X Y. exists b. auto.
Qed.
Lemma parts_same (P : field -> str -> Prop) (T : field -> str -> str -> Prop) p q : (forall f s t, P f s -> T f s t -> t = s) -> parts_all P p -> parts_rel T p q -> q = p.
Proof.
  intros H (A1 & A2 & A3 & A4 & A5) (X1 & X2 & X3 & X4 & X5 & X6).
  assert (O : forall f o o', opt_all (P f) o -> opt_rel (T f) o o' -> o' = o) by (intros f o o' A X; destruct X; [reflexivity|f_equal; eapply H; eassumption]).
  destruct p as [sc au [ab sg] qq fr], q as [sc' au' [ab' sg'] qq' fr']. cbn [p_scheme p_authority p_path p_query p_fragment absolute segments] in *. f_equal.
  - eapply O; eassumption.
  - destruct X2 as [|[u h po] [u' h' po'] (K1 & K2 & K3)]; [reflexivity|]. destruct A2 as (B1 & B2 & B3). cbn [userinfo host port] in *. f_equal. f_equal; [exact (O Userinfo _ _ B1 K1)|exact (H Host _ _ B2 K2)|exact (O Port _ _ B3 K3)].
  - f_equal; [congruence|]. clear - A3 X4 H. induction X4; [reflexivity|]. inversion A3; subst. f_equal; [eapply H; eassumption|auto].
  - eapply O; eassumption.
  - eapply O; eassumption.
Qed.
Lemma all_good p : parts_all returns p -> no_xn p -> parts_all good p.
Proof.
  intros (A1 & A2 & A3 & A4 & A5) X. assert (G : forall f s, f <> Host -> returns f s -> good f s) by (intros f s N R; split; [exact R|intros K; now elim N]).
  assert (O : forall f o, f <> Host -> opt_all (returns f) o -> opt_all (good f) o) by (intros f [x|] N; cbn; auto).
  split; [apply O; [discriminate|exact A1]|]. split; [|split; [|split; apply O; try discriminate; assumption]].
  - unfold no_xn in X. destruct (p_authority p) as [a|]; [|exact I]. destruct A2 as (B1 & B2 & B3). split; [apply O; [discriminate|exact B1]|]. split; [|apply O; [discriminate|exact B3]].
    split; [exact B2|]. intros _ ls l. apply (X a); reflexivity.
  - eapply Forall_impl; [|exact A3]. intros s. apply G. discriminate.
Qed.
Lemma times_imp {X} (R S : X -> X -> Prop) n x y : (forall a b, R a b -> S a b) -> times n R x y -> times n S x y.
Proof. intros H. revert x. induction n as [|n IH]; intros x; [auto|]. intros (z & A & B). exists z. auto. Qed.
Lemma encode_call_rel p q : encode_call p q -> parts_rel enc_step p q.
Proof.
  intros (grow & store & vp & st & vq & P & S & E & T). destruct (c26_encode_text _ _ _ _ _ _ P S E) as (q' & T' & R). rewrite (shows_fun _ _ _ _ T' T) in R.
  pose proof (proper_short _ _ _ P S) as H. destruct R as (R1 & R2 & R3 & R4 & R5 & R6).
  assert (G : forall f s e, f <> Host -> encoded f s e -> enc_step f s e) by (intros f s e N X; split; [exact X|intros K; now elim N]).
  assert (O : forall f o o', f <> Host -> opt_rel (encoded f) o o' -> opt_rel (enc_step f) o o') by (intros f o o' N X; destruct X; constructor; auto).
  split; [apply O; [discriminate|exact R1]|]. split; [|split; [exact R3|split; [|split; (apply O; [discriminate|assumption])]]].
  - unfold short_hosts in H. destruct R2 as [|a b (B1 & B2 & B3)]; constructor. split; [apply O; [discriminate|exact B1]|]. split; [|apply O; [discriminate|exact B3]]. split; [exact B2|]. intros _. now apply H.
  - clear - R4 G. induction R4; constructor; auto. apply G; [discriminate|assumption].
Qed.
Lemma decode_call_rel p q : decode_call p q -> parts_rel decoded p q.
Proof.
  intros (grow & store & vp & st & vq & P & S & E & T). destruct (c26_decode_text _ _ _ _ _ _ P S E) as (q' & T' & R). now rewrite (shows_fun _ _ _ _ T' T) in R.
Qed.
Lemma layers n p q r : parts_all returns p -> no_xn p -> times n encode_call p q -> times n decode_call q r -> r = p.
Proof.
  intros A X E D. apply (times_imp _ _ _ _ _ encode_call_rel), parts_times in E. apply (times_imp _ _ _ _ _ decode_call_rel), parts_times in D.
  apply (parts_same good (fun f s t => exists e, times n (enc_step f) s e /\ times n (decoded f) e t)).
  - intros f s t G (e & B & C). eapply field_layers; eassumption.
  - now apply all_good.
  - eapply parts_comp; [|exact E|exact D]. intros f a b c U V. exists b. auto.
Qed.
(* --- decode does not fail --------------------------------------------------------------------------------------------- *)
Lemma decodable e t : decoded Host e t -> ~ host_undecodable e.
Proof.
  intros D (es & l & Lb & I & (q & El) & N). assert (H : exists t', host_decoded e t') by (destruct D as [[H _]|[H _]]; eauto). clear D t. destruct H as (t & es' & ts & Lb' & F & _).
  assert (es' = es) as -> by (eapply labels_fun; eassumption).
  clear Lb Lb'. assert (K : exists t', label_decoded l t') by (clear - F I; induction F as [|x y l1 l2 H F IH]; [destruct I|destruct I as [<-|I]; eauto]).
  destruct K as (t' & [[K _]|(q' & u & cs & ok & E & P & _)]); [apply K; now exists q|]. apply (N u). subst l. rewrite E. exact P.
Qed.
Lemma never_fails n k p q r : parts_all returns p -> no_xn p -> times n encode_call p q -> times k decode_call q r -> ~ decode_fails r.
Proof.
  intros A X E D (grow & store & vp & st & e & P & S & F). destruct (c26_decode grow store vp P) as [U _].
  destruct (proj1 U (ex_intro _ st (ex_intro _ e F))) as (a & s & Ea & Eh & Un). destruct P as (Out & _).
  destruct (shows_host _ _ _ _ _ Out S Ea Eh) as (b & Eb & Es).
  apply (times_imp _ _ _ _ _ encode_call_rel), parts_times in E. apply (times_imp _ _ _ _ _ decode_call_rel), parts_times in D.
  assert (C : parts_rel (fun f s t => exists e, times n (enc_step f) s e /\ times k (decoded f) e t) p r) by (eapply parts_comp; [|exact E|exact D]; intros f x y z V W; exists y; auto).
  destruct C as (_ & C & _). rewrite Eb in C. inversion C as [|a0 b0 (_ & (e0 & C1 & C2) & _) EA EB]; subst. apply (all_good p A) in X. destruct X as (_ & X & _). rewrite <- EA in X. destruct X as (_ & G & _).
  revert Un. destruct (host_after Host n k _ _ _ eq_refl G C1 C2) as [->|[_ H]].
  - destruct (G) as [R NX]. specialize (NX eq_refl). intros (es & l & Lb & I & Pf & _). exact (NX es l Lb I Pf).
  - eapply decodable. apply field_round; [apply G|exact H].
Qed.
