(* What follows for the calls made: determinacy, histories, exceptions at any point, termination *)
From Verif Require Import Base ModelRule ModelCalls SpecCalls CallFacts.
From Coq Require Import Lia.
Local Open Scope list_scope.

Section M.
Context {A U : Type}.
Variable cl : client A U.
Notation hist := (list (event A U)).

Ltac same IH H := let X := fresh in pose proof (IH _ _ H) as X; clear IH.
Lemma eval_fun : (forall g h s r h', eval cl g h s r h' -> forall r2 h2, eval cl g h s r2 h2 -> r2 = r /\ h2 = h')
  /\ (forall g max h s n r h', reps cl g max h s n r h' -> forall n2 r2 h2, reps cl g max h s n2 r2 h2 -> n2 = n /\ r2 = r /\ h2 = h').
Proof.
  apply eval_reps.
  - intros u h s m a rest E Es r2 h2 H. inversion H; subst; try congruence. split; [|reflexivity]. assert (Z : Some (Some (m0, a0)) = Some (Some (m, a))) by congruence. injection Z as -> ->.
    f_equal. match goal with H : _ ++ _ = _ ++ _ |- _ => apply app_inv_head in H; exact (eq_sym H) || exact H end.
  - intros u h s E r2 h2 H. inversion H; subst; try congruence. auto.
  - intros u h s E r2 h2 H. inversion H; subst; try congruence. auto.
  - intros u h r2 h2 H. inversion H; subst. auto.
  - intros u h c s E r2 h2 H. inversion H; subst; try congruence. auto.
  - intros u h c s E r2 h2 H. inversion H; subst; try congruence. auto.
  - intros u h c s E r2 h2 H. inversion H; subst; try congruence. auto.
  - intros g k h s m a t h1 r h2 E1 I1 E2 I2 r2 h3 H. inversion H; subst.
    + match goal with X : eval cl g _ _ (Yes _ _ _) _ |- _ => destruct (I1 _ _ X) as [Z ->]; injection Z as -> -> -> end.
      match goal with X : eval cl k _ _ _ _ |- _ => destruct (I2 _ _ X) as [-> ->] end. auto.
    + match goal with X : eval cl g _ _ _ _ |- _ => destruct (I1 _ _ X) as [-> ->] end. contradiction.
  - intros g k h s r h1 E1 I1 Nr r2 h3 H. inversion H; subst.
    + match goal with X : eval cl g _ _ (Yes _ _ _) _ |- _ => destruct (I1 _ _ X) as [<- ->] end. contradiction.
    + match goal with X : eval cl g _ _ _ _ |- _ => destruct (I1 _ _ X) as [-> ->] end. auto.
  - intros g x h s r h1 E1 I1 r2 h3 H. inversion H; subst. match goal with X : eval cl g _ _ _ _ |- _ => destruct (I1 _ _ X) as [-> ->] end. auto.
  - intros g h s r h1 E1 I1 r2 h3 H. inversion H; subst. match goal with X : eval cl g _ _ _ _ |- _ => destruct (I1 _ _ X) as [-> ->] end. auto.
  - intros g k h s r h1 E1 I1 Nr r2 h3 H. inversion H; subst.
    + match goal with X : eval cl g _ _ _ _ |- _ => exact (I1 _ _ X) end.
    + match goal with X : eval cl g _ _ No _ |- _ => destruct (I1 _ _ X) as [<- ->] end. contradiction.
  - intros g k h s h1 r h2 E1 I1 E2 I2 r2 h3 H. inversion H; subst.
    + match goal with X : eval cl g _ _ _ _ |- _ => destruct (I1 _ _ X) as [-> ->] end. contradiction.
    + match goal with X : eval cl g _ _ _ _ |- _ => destruct (I1 _ _ X) as [_ ->] end. match goal with X : eval cl k _ _ _ _ |- _ => exact (I2 _ _ X) end.
  - intros min max g h s n r h1 R I Hn Nt Hm r2 h3 H. inversion H; subst; match goal with X : reps cl g _ _ _ _ _ _ |- _ => destruct (I _ _ _ X) as (-> & -> & ->) end; try lia; try contradiction; auto.
  - intros min max g h s n r h1 R I Hn Nt Hm r2 h3 H. inversion H; subst; match goal with X : reps cl g _ _ _ _ _ _ |- _ => destruct (I _ _ _ X) as (E1 & E2 & E3); subst end; try lia; try contradiction; auto.
  - intros min max g h s n h1 R I Hn r2 h3 H. inversion H; subst; match goal with X : reps cl g _ _ _ _ _ _ |- _ => destruct (I _ _ _ X) as (E1 & E2 & E3); subst end; try contradiction; auto.
  - intros g max h s h1 E I n2 r2 h2 H. inversion H; subst; match goal with X : eval cl g _ _ _ _ |- _ => destruct (I _ _ X) as [Z ->]; try discriminate end; auto.
  - intros g max h s h1 E I n2 r2 h2 H. inversion H; subst; match goal with X : eval cl g _ _ _ _ |- _ => destruct (I _ _ X) as [Z ->]; try discriminate end; auto.
  - intros g h s m a t h1 E I n2 r2 h2 H. inversion H; subst; match goal with X : eval cl g _ _ _ _ |- _ => destruct (I _ _ X) as [Z ->]; try discriminate end; auto. contradiction.
  - intros g max h s m a t h1 n r h2 E I Nm R IR n2 r2 h3 H. inversion H; subst; match goal with X : eval cl g _ _ _ _ |- _ => destruct (I _ _ X) as [Z ->]; try discriminate end; try contradiction.
    injection Z as -> -> ->. match goal with X : reps cl g _ _ _ _ _ _ |- _ => destruct (IR _ _ _ X) as (-> & -> & ->) end. auto.
Qed.

Definition matching (e : event A U) : Prop := match e with Did _ _ => False | _ => True end.
(* h' is h and what was called; an exception was the end of it, if there was one *)
Inductive grows : hist -> bool -> hist -> Prop :=
| G_refl h : grows h false h
| G_threw h e : matching e -> threw cl h e -> grows h true (h ++ [e])
| G_call h e b h' : matching e -> ~ threw cl h e -> grows (h ++ [e]) b h' -> grows h b h'.
Lemma grows_trans h h1 b h2 : grows h false h1 -> grows h1 b h2 -> grows h b h2.
Proof. remember false as f. induction 1; intros G; [exact G|discriminate|]. econstructor; eauto. Qed.
Lemma grows_one h e : matching e -> ~ threw cl h e -> grows h false (h ++ [e]).
Proof. intros M N. econstructor; eauto. constructor. Qed.
Definition thrown (r : result A) : bool := match r with Thrown => true | _ => false end.
Lemma thrown_after m a r : thrown (after m a r) = thrown r. Proof. destruct r; reflexivity. Qed.
Lemma eval_grows : (forall g h s r h', eval cl g h s r h' -> grows h (thrown r) h') /\ (forall g max h s n r h', reps cl g max h s n r h' -> grows h (thrown r) h').
Proof.
  apply eval_reps; intros; cbn [thrown]; rewrite ?thrown_after; try assumption.
  1,2,5,6: apply grows_one; [exact I|cbn; congruence].
  1,3: apply G_threw; [exact I|assumption].
  - constructor.
  - eapply grows_trans; eassumption.
  - destruct r; assumption.
  - destruct r; assumption.
  - eapply grows_trans; eassumption.
  - destruct r; try contradiction; assumption.
  - eapply grows_trans; eassumption.
Qed.
Lemma grows_app h b h' : grows h b h' -> exists l, h' = h ++ l /\ Forall matching l.
Proof.
  induction 1 as [h|h e M T|h e b h' M N G (l & -> & F)].
  - exists []. rewrite app_nil_r. auto.
  - exists [e]. auto.
  - exists (e :: l). rewrite <- app_assoc. auto.
Qed.
Lemma grows_len h b h' : grows h b h' -> (length h <= length h')%nat.
Proof. intros G. destruct (grows_app _ _ _ G) as (l & -> & _). rewrite app_length. lia. Qed.
Lemma grows_where h b h' : grows h b h' -> forall l e l2, h' = h ++ l ++ e :: l2 -> (threw cl (h ++ l) e <-> b = true /\ l2 = []).
Proof.
  induction 1 as [h|h e M T|h e b h' M N G IH]; intros l f l2 E.
  - exfalso. apply (f_equal (@length _)) in E. rewrite !app_length in E. cbn in E. lia.
  - apply app_inv_head in E. destruct l as [|x l]; cbn in E; [|exfalso; injection E as _ E; destruct l; discriminate]. injection E as <- <-. rewrite app_nil_r. tauto.
  - destruct (grows_app _ _ _ G) as (k & Ek & _). destruct l as [|x l].
    + rewrite app_nil_r. rewrite Ek, <- app_assoc in E. apply app_inv_head in E. cbn in E. injection E as <- <-. split; [intros; contradiction|]. intros [-> ->]. exfalso.
      rewrite app_nil_r in Ek. subst h'. remember true as bt. remember (h ++ [e]) as hx eqn:Ex in G at 2. destruct G as [|hy f Mf Tf|hy f b' h' Mf Nf G]; [discriminate| |].
      * apply (f_equal (@length _)) in Ex. rewrite !app_length in Ex. cbn in Ex. lia.
      * pose proof (grows_len _ _ _ G) as Z. subst h'. rewrite !app_length in Z. cbn in Z. lia.
    + assert (Ex : x = e). { rewrite Ek, <- app_assoc in E. apply app_inv_head in E. cbn in E. congruence. } subst x.
      replace (h ++ e :: l) with ((h ++ [e]) ++ l) by (rewrite <- app_assoc; reflexivity). apply IH. rewrite E, <- app_assoc. reflexivity.
Qed.

(* actions *)
Lemma performs_says l : forall h ok h', performs cl l h ok h' <-> run_accs_e (did cl) l h = Ok (if ok then Some tt else None, h').
Proof.
  induction l as [|[a t] l IH]; intros h ok h'; cbn [run_accs_e].
  - split; [intros H; inversion H; subst; reflexivity|]. unfold gives. destruct ok; intros H; [injection H as <-; constructor|discriminate].
  - unfold andthen, did at 1. cbn [bind]. destruct (cl_act cl h a t) as [[]|] eqn:E.
    + rewrite <- IH. split; [intros H; inversion H; subst; [assumption|congruence]|]. intros H. now apply D_cons.
    + split; [intros H; inversion H; subst; [congruence|reflexivity]|]. destruct ok; [discriminate|]. intros H. injection H as <-. now apply D_throw.
Qed.
Lemma performs_total l : forall h, exists ok h', performs cl l h ok h'.
Proof.
  induction l as [|[a t] l IH]; intros h; [do 2 eexists; constructor|]. destruct (cl_act cl h a t) as [[]|] eqn:E.
  - destruct (IH (h ++ [Did a t])) as (ok & h' & P). exists ok, h'. now apply D_cons.
  - exists false, (h ++ [Did a t]). now apply D_throw.
Qed.
Lemma performs_list l : forall h ok h', performs cl l h ok h' -> exists k, h' = h ++ map (fun x => Did (fst x) (snd x)) (firstn k l) /\ (k <= length l)%nat /\ (ok = true -> k = length l)
  /\ (ok = false -> exists a t, (1 <= k)%nat /\ nth_error l (k - 1) = Some (a, t) /\ cl_act cl (h ++ map (fun x => Did (fst x) (snd x)) (firstn (k - 1) l)) a t = None)
  /\ (forall i a t, (S i < k)%nat \/ ok = true -> nth_error l i = Some (a, t) -> cl_act cl (h ++ map (fun x => Did (fst x) (snd x)) (firstn i l)) a t = Some tt).
Proof.
  intros h ok h'. induction 1 as [h|a t l h ok h' E P (k & -> & L & T & F & G)|a t l h E].
  - exists 0%nat. rewrite app_nil_r. split; [reflexivity|]. split; [auto|]. split; [auto|]. split; [discriminate|]. intros [|i] a t _ Z; discriminate.
  - exists (S k). cbn [firstn map fst snd length]. rewrite <- app_assoc. split; [reflexivity|]. split; [lia|]. split; [intros Z; f_equal; auto|]. split.
    + intros Z. destruct (F Z) as (b & u & K & Nb & Cb). exists b, u. split; [lia|]. destruct k as [|k]; [lia|]. cbn [Nat.sub] in *. rewrite Nat.sub_0_r in *. split; [exact Nb|].
      cbn [firstn map fst snd]. rewrite <- app_assoc in Cb. exact Cb.
    + intros [|i] b u Hi Nb; cbn in Nb.
      * injection Nb as <- <-. cbn. rewrite app_nil_r. exact E.
      * cbn [firstn map fst snd]. specialize (G i b u). rewrite <- app_assoc in G. apply G; [|exact Nb]. destruct Hi; [left; lia|right; assumption].
  - exists 1%nat. cbn [firstn map fst snd length]. split; [reflexivity|]. split; [lia|]. split; [discriminate|]. split.
    + intros _. exists a, t. split; [lia|]. cbn. rewrite app_nil_r. auto.
    + intros i b u [Hi|Hi] _; [lia|discriminate].
Qed.
End M.
Arguments grows {A U}.

(* --- another client that throws once there have been n calls --- *)
Section Crash.
Context {A U : Type}.
Variables (cl cl' : client A U) (n : nat).
Notation hist := (list (event A U)).
Hypothesis same_match : forall h u t, (length h < n)%nat -> cl_match cl' h u t = cl_match cl h u t.
Hypothesis same_test : forall h u c, (length h < n)%nat -> cl_test cl' h u c = cl_test cl h u c.
Hypothesis no_match : forall h u t, length h = n -> cl_match cl' h u t = None.
Hypothesis no_test : forall h u c, length h = n -> cl_test cl' h u c = None.
Definition cut (h' : hist) (r : result A) : result A := if Nat.leb (length h') n then r else Thrown.

Lemma cut_one (h : hist) e (r : result A) (P : result A -> hist -> Prop) : (length h <= n)%nat -> ((length h < n)%nat -> P r (h ++ [e])) -> (length h = n -> P Thrown (h ++ [e])) ->
  P (cut (h ++ [e]) r) (firstn (S n) (h ++ [e])).
Proof.
  intros L H1 H2. rewrite firstn_all2 by (rewrite app_length; cbn; lia). unfold cut. rewrite app_length. cbn. destruct (Nat.leb_spec (length h + 1) n); [apply H1; lia|apply H2; lia].
Qed.
Lemma firstn_short (h : hist) : (length h <= n)%nat -> firstn (S n) h = h. Proof. intros L. apply firstn_all2. lia. Qed.
Lemma firstn_longer (h h' : hist) b : grows cl h b h' -> (n < length h)%nat -> firstn (S n) h' = firstn (S n) h.
Proof. intros G L. destruct (grows_app _ _ _ _ G) as (l & -> & _). rewrite firstn_app. replace (S n - length h)%nat with 0%nat by lia. cbn. apply app_nil_r. Qed.
Lemma crash : (forall g h s r h', eval cl g h s r h' -> (length h <= n)%nat -> eval cl' g h s (cut h' r) (firstn (S n) h'))
  /\ (forall g max h s k r h', reps cl g max h s k r h' -> (length h <= n)%nat -> exists k', (k' <= k)%nat /\ ((length h' <= n)%nat -> k' = k) /\ reps cl' g max h s k' (cut h' r) (firstn (S n) h')).
Proof.
  pose proof (proj1 (eval_grows cl)) as GE. pose proof (proj2 (eval_grows cl)) as GR.
  apply eval_reps.
  - intros u h s m a rest E Es L. apply (cut_one h _ _ (fun r h' => eval cl' (User u) h s r h')); [exact L| |]; intros Z.
    + apply E_user; [now rewrite same_match|exact Es]. + apply E_user_throw. now apply no_match.
  - intros u h s E L. apply (cut_one h _ _ (fun r h' => eval cl' (User u) h s r h')); [exact L| |]; intros Z.
    + apply E_user_no. now rewrite same_match. + apply E_user_throw. now apply no_match.
  - intros u h s E L. apply (cut_one h _ _ (fun r h' => eval cl' (User u) h s r h')); [exact L| |]; intros Z.
    + apply E_user_throw. now rewrite same_match. + apply E_user_throw. now apply no_match.
  - intros u h L. rewrite firstn_short by exact L. unfold cut. rewrite (proj2 (Nat.leb_le _ _) L). constructor.
  - intros u h c s E L. apply (cut_one h _ _ (fun r h' => eval cl' (Chr u) h (c :: s) r h')); [exact L| |]; intros Z.
    + apply E_chr. now rewrite same_test. + apply E_chr_throw. now apply no_test.
  - intros u h c s E L. apply (cut_one h _ _ (fun r h' => eval cl' (Chr u) h (c :: s) r h')); [exact L| |]; intros Z.
    + apply E_chr_no. now rewrite same_test. + apply E_chr_throw. now apply no_test.
  - intros u h c s E L. apply (cut_one h _ _ (fun r h' => eval cl' (Chr u) h (c :: s) r h')); [exact L| |]; intros Z.
    + apply E_chr_throw. now rewrite same_test. + apply E_chr_throw. now apply no_test.
  - intros g k h s m a t h1 r h2 E1 I1 E2 I2 L. specialize (I1 L). pose proof (GE _ _ _ _ _ E2) as G2. pose proof (grows_len _ _ _ _ G2) as L2. unfold cut in *.
    destruct (Nat.leb_spec (length h1) n) as [L1|L1].
    + rewrite firstn_short in I1 by exact L1. specialize (I2 L1). replace (if Nat.leb (length h2) n then after m a r else Thrown) with (after m a (if Nat.leb (length h2) n then r else Thrown)) by (destruct (Nat.leb _ _); reflexivity).
      eapply E_seq; eassumption.
    + destruct (Nat.leb_spec (length h2) n); [lia|]. rewrite (firstn_longer _ _ _ G2 L1). apply E_seq_not; [exact I1|exact I].
  - intros g k h s r h1 E1 I1 Nr L. specialize (I1 L). unfold cut in *. apply E_seq_not; [exact I1|]. destruct (Nat.leb _ _); [exact Nr|exact I].
  - intros g x h s r h1 E1 I1 L. specialize (I1 L). unfold cut in *. replace (if Nat.leb (length h1) n then acting x r else Thrown) with (acting x (if Nat.leb (length h1) n then r else Thrown)) by (destruct (Nat.leb _ _); reflexivity).
    apply E_act. exact I1.
  - intros g h s r h1 E1 I1 L. specialize (I1 L). unfold cut in *. replace (if Nat.leb (length h1) n then or_empty s r else Thrown) with (or_empty s (if Nat.leb (length h1) n then r else Thrown)) by (destruct (Nat.leb _ _); reflexivity).
    apply E_opt. exact I1.
  - intros g k h s r h1 E1 I1 Nr L. specialize (I1 L). unfold cut in *. apply E_or; [exact I1|]. destruct (Nat.leb _ _); [exact Nr|discriminate].
  - intros g k h s h1 r h2 E1 I1 E2 I2 L. specialize (I1 L). pose proof (GE _ _ _ _ _ E2) as G2. pose proof (grows_len _ _ _ _ G2) as L2. unfold cut in *.
    destruct (Nat.leb_spec (length h1) n) as [L1|L1].
    + rewrite firstn_short in I1 by exact L1. specialize (I2 L1). eapply E_or_no; eassumption.
    + destruct (Nat.leb_spec (length h2) n); [lia|]. rewrite (firstn_longer _ _ _ G2 L1). apply E_or; [exact I1|discriminate].
  - intros min max g h s k r h1 R I Hn Nt Hm L. destruct (I L) as (k' & Lk & Ek & R'). unfold cut in *. destruct (Nat.leb_spec (length h1) n) as [L1|L1].
    + rewrite (Ek L1) in R'. eapply E_star; eassumption.
    + eapply E_star_throw; [exact R'|lia].
  - intros min max g h s k r h1 R I Hn Nt Hm L. destruct (I L) as (k' & Lk & Ek & R'). unfold cut in *. destruct (Nat.leb_spec (length h1) n) as [L1|L1].
    + rewrite (Ek L1) in R'. eapply E_star_few; eassumption.
    + eapply E_star_throw; [exact R'|lia].
  - intros min max g h s k h1 R I Hn L. destruct (I L) as (k' & Lk & Ek & R'). unfold cut in *. destruct (Nat.leb _ _); (eapply E_star_throw; [exact R'|lia]).
  - intros g max h s h1 E I1 L. specialize (I1 L). exists 0%nat. split; [lia|]. split; [auto|]. unfold cut in *. destruct (Nat.leb _ _); [now apply R_no|now apply R_throw].
  - intros g max h s h1 E I1 L. specialize (I1 L). exists 0%nat. split; [lia|]. split; [auto|]. unfold cut in *. destruct (Nat.leb _ _); now apply R_throw.
  - intros g h s m a t h1 E I1 L. specialize (I1 L). exists 0%nat. split; [lia|]. split; [auto|]. unfold cut in *. destruct (Nat.leb _ _); [eapply R_max; exact I1|now apply R_throw].
  - intros g max h s m a t h1 k r h2 E I1 Nm R IR L. specialize (I1 L). pose proof (GR _ _ _ _ _ _ _ R) as G2. pose proof (grows_len _ _ _ _ G2) as L2. unfold cut in *.
    destruct (Nat.leb_spec (length h1) n) as [L1|L1].
    + rewrite firstn_short in I1 by exact L1. destruct (IR L1) as (k' & Lk & Ek & R'). exists (S k'). split; [lia|]. split; [intros Z; f_equal; auto|].
      replace (if Nat.leb (length h2) n then after m a r else Thrown) with (after m a (if Nat.leb (length h2) n then r else Thrown)) by (destruct (Nat.leb _ _); reflexivity).
      eapply R_more; eassumption.
    + destruct (Nat.leb_spec (length h2) n); [lia|]. rewrite (firstn_longer _ _ _ G2 L1). exists 0%nat. split; [lia|]. split; [lia|]. apply R_throw. exact I1.
Qed.
End Crash.
