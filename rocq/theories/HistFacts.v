(* Simulation of the cursors of SpecHist by a class of iterators; the two classes. *)
From Verif Require Import Base ModelHist SpecHist.
Local Open Scope list_scope.

Lemma nth_put {A} (l : list A) k a j : nth_error (put l k a) j = if Nat.eqb j k then (match nth_error l k with Some _ => Some a | None => None end) else nth_error l j.
Proof.
  revert k j. induction l as [|x l IH]; intros k j.
  - cbn. destruct j, k; cbn; try reflexivity. destruct (j =? k)%nat; reflexivity.
  - destruct k as [|k], j as [|j]; cbn [put nth_error Nat.eqb]; try reflexivity. rewrite IH. destruct (j =? k)%nat; reflexivity.
Qed.
Lemma put_length {A} (l : list A) k a : length (put l k a) = length l.
Proof. revert k. induction l as [|x l IH]; intros [|k]; cbn; auto. Qed.

Lemma forall2_mono {A B} (P Q : A -> B -> Prop) l m : (forall a b, P a b -> Q a b) -> Forall2 P l m -> Forall2 Q l m.
Proof. intros H. induction 1; constructor; auto. Qed.

Section Sim.
Context {V : Type}.
Variables (C : iclass V) (out : list V) (ok : bool) (comparable : nat -> nat -> bool) (Rep : ic_it C -> nat -> Prop).
Definition value (it : ic_it C) (p : place) : outcome V := match p with InRange i => ic_range C i | InObject j => ic_inside C it j end.
(* the flag: never false for well-formed input, and final once the end has been reached *)
Definition flag_ok (fl reached : bool) : Prop := (ok = true -> fl = true) /\ (reached = true -> fl = ok).
Hypothesis Hbegin : forall fl r, flag_ok fl r -> exists it fl', ic_begin C fl = Ok (it, fl') /\ Rep it 0 /\ flag_ok fl' (r || Nat.eqb 0 (length out)).
Hypothesis Hend : Rep (ic_end C) (length out).
Hypothesis Hnext : forall it i fl r, Rep it i -> i < length out -> flag_ok fl r ->
  exists it' fl', ic_next C it fl = Ok (it', fl') /\ Rep it' (S i) /\ flag_ok fl' (r || Nat.eqb (S i) (length out)).
Hypothesis Hderef : forall it i v, Rep it i -> nth_error out i = Some v ->
  exists it' p, ic_deref C it = Ok (it', p) /\ Rep it' i /\ value it' p = Ok v
    /\ forall q, value it q = Ok v -> value it' q = Ok v.
Hypothesis Heq : forall a b i j, Rep a i -> Rep b j -> comparable i j = true -> ic_eq C a b = Nat.eqb i j.

(* a reference in use: still known to show the value of the iterator's present position *)
Definition ref_ok (objs : list (option (ic_it C))) (ats : list (option nat)) (x : nat * place) (r : reference (V := V)) : Prop :=
  fst x = r_of r /\ (r_valid r = true -> exists it i, nth_error objs (fst x) = Some (Some it) /\ nth_error ats (fst x) = Some (Some i)
     /\ nth_error out i = Some (r_value r) /\ value it (snd x) = Ok (r_value r)).
Definition obj_ok (o : option (ic_it C)) (a : option nat) : Prop :=
  match o, a with Some it, Some i => Rep it i | None, None => True | _, _ => False end.
Definition sim (m : machine C) (c : cursors (V := V)) : Prop :=
  Forall2 obj_ok (m_objs C m) (c_at c) /\ Forall2 (ref_ok (m_objs C m) (c_at c)) (m_refs C m) (c_refs c) /\ flag_ok (m_flag C m) (c_end_reached c).

Lemma sim_object m c k i : sim m c -> cursor c k = Some i -> exists it, object C m k = Ok it /\ nth_error (m_objs C m) k = Some (Some it) /\ nth_error (c_at c) k = Some (Some i) /\ Rep it i.
Proof.
  intros (O & _) H. unfold cursor in H. unfold object. revert k H. induction O as [|o a l m' X _ IH]; intros [|k] H; cbn in H; try discriminate.
  - destruct a as [a|]; [|discriminate]. injection H as ->. destruct o as [it|]; [|contradiction]. exists it. cbn. auto.
  - destruct (IH k H) as (it & A). exists it. exact A.
Qed.
Lemma forall2_app_one {A B} (P : A -> B -> Prop) l m a b : Forall2 P l m -> P a b -> Forall2 P (l ++ [a]) (m ++ [b]).
Proof. intros H X. apply Forall2_app; [exact H|]. constructor; [exact X|constructor]. Qed.
Lemma nth_app_some {A} (l : list A) k x a : nth_error l k = Some x -> nth_error (l ++ [a]) k = Some x.
Proof. intros H. rewrite nth_error_app1; [exact H|]. apply nth_error_Some. congruence. Qed.
Lemma refs_add objs ats refs rs a i : Forall2 (ref_ok objs ats) refs rs -> Forall2 (ref_ok (objs ++ [a]) (ats ++ [i])) refs rs.
Proof.
  intros H. eapply forall2_mono; [|exact H]. intros x r [E K]. split; [exact E|]. intros Vd. destruct (K Vd) as (it & n & A & B & D). exists it, n.
  split; [apply nth_app_some; exact A|]. split; [apply nth_app_some; exact B|]. exact D.
Qed.
Lemma refs_put objs ats refs rs k a i : Forall2 (ref_ok objs ats) refs rs -> Forall2 (ref_ok (put objs k a) (put ats k i)) refs (drop_refs k rs).
Proof.
  induction 1 as [|x r refs rs [E K] _ IH]; [constructor|]. cbn [drop_refs map]. constructor; [|exact IH]. unfold ref_ok in *. destruct (Nat.eqb_spec (r_of r) k) as [Ek|Nk]; cbn [r_of r_value r_valid].
  - split; [exact E|discriminate].
  - split; [exact E|]. intros Vd. destruct (K Vd) as (it & n & A & B & D). exists it, n. rewrite !nth_put. assert (Nat.eqb (fst x) k = false) as -> by (apply Nat.eqb_neq; congruence). auto.
Qed.
Lemma objs_put objs ats k a i : Forall2 obj_ok objs ats -> obj_ok a i -> Forall2 obj_ok (put objs k a) (put ats k i).
Proof. intros H X. revert k. induction H as [|o n l m Y H IH]; intros [|k]; cbn [put]; constructor; auto. Qed.

Lemma sim_step o m c c' x : sim m c -> cursor_step out ok comparable o c = Some (c', x) -> exists m', step C o m = Ok (m', x) /\ sim m' c'.
Proof.
  intros S E. pose proof S as (O & R & F). destruct o as [| |k|k j|k|k|k|k|r|k j|]; cbn [cursor_step] in E.
  - injection E as <- <-. destruct (Hbegin _ _ F) as (it & fl & B & P & F'). exists (fresh C m it fl). cbn [step]. rewrite B. cbn [bind]. split; [reflexivity|].
    split; [apply forall2_app_one; [exact O|exact P]|]. split; [apply refs_add; exact R|exact F'].
  - injection E as <- <-. exists (fresh C m (ic_end C) (m_flag C m)). split; [reflexivity|]. split; [apply forall2_app_one; [exact O|exact Hend]|]. split; [apply refs_add; exact R|exact F].
  - destruct (cursor c k) as [i|] eqn:Ek; [|discriminate]. injection E as <- <-. destruct (sim_object m c k i S Ek) as (it & A & _ & _ & P).
    exists (fresh C m it (m_flag C m)). cbn [step]. rewrite A. split; [reflexivity|]. split; [apply forall2_app_one; [exact O|exact P]|]. split; [apply refs_add; exact R|exact F].
  - destruct (cursor c k) as [i|] eqn:Ek; [|discriminate]. destruct (cursor c j) as [i'|] eqn:Ej; [|discriminate]. injection E as <- <-.
    destruct (sim_object m c k i S Ek) as (it & A & _). destruct (sim_object m c j i' S Ej) as (it' & A' & _ & _ & P').
    exists (store C m k (Some it') (m_flag C m)). cbn [step]. rewrite A, A'. split; [reflexivity|]. split; [apply objs_put; [exact O|exact P']|]. split; [apply refs_put; exact R|exact F].
  - destruct (cursor c k) as [i|] eqn:Ek; [|discriminate]. destruct (Nat.ltb_spec i (length out)) as [L|]; [|discriminate]. injection E as <- <-.
    destruct (sim_object m c k i S Ek) as (it & A & _ & _ & P). destruct (Hnext it i _ _ P L F) as (it' & fl & N & P' & F').
    exists (store C m k (Some it') fl). cbn [step]. rewrite A. cbn [bind]. rewrite N. split; [reflexivity|]. split; [apply objs_put; [exact O|exact P']|]. split; [apply refs_put; exact R|exact F'].
  - destruct (cursor c k) as [i|] eqn:Ek; [|discriminate]. destruct (Nat.ltb_spec i (length out)) as [L|]; [|discriminate]. injection E as <- <-.
    destruct (sim_object m c k i S Ek) as (it & A & _ & _ & P). destruct (Hnext it i _ _ P L F) as (it' & fl & N & P' & F').
    exists (fresh C (store C m k (Some it') fl) it fl). cbn [step]. rewrite A. cbn [bind]. rewrite N. split; [reflexivity|].
    split; [apply forall2_app_one; [apply objs_put; [exact O|exact P']|exact P]|]. split; [apply refs_add, refs_put; exact R|exact F'].
  - destruct (cursor c k) as [i|] eqn:Ek; [|discriminate]. injection E as <- <-. destruct (sim_object m c k i S Ek) as (it & A & _).
    exists (store C m k None (m_flag C m)). cbn [step]. rewrite A. split; [reflexivity|]. split; [apply objs_put; [exact O|exact I]|]. split; [apply refs_put; exact R|exact F].
  - destruct (cursor c k) as [i|] eqn:Ek; [|discriminate]. destruct (nth_error out i) as [v|] eqn:Ev; [|discriminate]. injection E as <- <-.
    destruct (sim_object m c k i S Ek) as (it & A & B & D & P). destruct (Hderef it i v P Ev) as (it' & p & G & P' & Gv & K).
    eexists. cbn [step]. rewrite A. cbn [bind]. rewrite G. cbn [bind]. split; [reflexivity|]. split; [|split; [|exact F]].
    + assert (Z : c_at c = put (c_at c) k (Some i)).
      { clear - D. revert k D. induction (c_at c) as [|y l IH]; intros [|k] D; cbn in *; try discriminate; [congruence|]. now rewrite <- IH. }
      cbn [m_objs c_at]. rewrite Z. apply objs_put; [exact O|exact P'].
    + cbn [m_objs m_refs c_at c_refs]. apply forall2_app_one.
      * eapply forall2_mono; [|exact R]. intros y r [Ey Ky]. split; [exact Ey|]. intros Vd. destruct (Ky Vd) as (it0 & n & A0 & B0 & D0 & W0). rewrite nth_put.
        destruct (Nat.eqb_spec (fst y) k) as [Ek'|Nk]; [|exists it0, n; auto]. rewrite Ek' in *. rewrite B in A0. injection A0 as <-. rewrite D in B0. injection B0 as <-.
        exists it', i. rewrite B. split; [reflexivity|]. split; [exact D|]. split; [exact D0|]. rewrite Ev in D0. injection D0 as D0. rewrite <- D0 in *. apply K. exact W0.
      * split; [reflexivity|]. intros _. exists it', i. cbn [fst snd r_value]. rewrite nth_put, Nat.eqb_refl, B. auto.
  - destruct (nth_error (c_refs c) r) as [[k v [|]]|] eqn:Er; try discriminate. injection E as <- <-. cbn [step].
    assert (X : exists y, nth_error (m_refs C m) r = Some y /\ ref_ok (m_objs C m) (c_at c) y (Reference k v true)).
    { clear - R Er. revert r Er. induction R as [|y z l l' H _ IH]; intros [|r] Er; cbn in Er; try discriminate; [injection Er as ->; exists y; auto|]. apply IH. exact Er. }
    destruct X as ([k' p] & Ey & (Ek & K)). cbn in Ek. subst k'. destruct (K eq_refl) as (it & i & A & B & D & W). rewrite Ey. cbn [fst snd r_value] in *.
    exists m. split; [|exact S]. destruct p as [n|j]; cbn [value] in W; [rewrite W; reflexivity|]. unfold object. rewrite A. cbn [bind]. rewrite W. reflexivity.
  - destruct (cursor c k) as [i|] eqn:Ek; [|discriminate]. destruct (cursor c j) as [i'|] eqn:Ej; [|discriminate]. destruct (comparable i i') eqn:Ec; [|discriminate]. injection E as <- <-.
    destruct (sim_object m c k i S Ek) as (it & A & _ & _ & P). destruct (sim_object m c j i' S Ej) as (it' & A' & _ & _ & P').
    exists m. cbn [step]. rewrite A, A'. cbn [bind]. rewrite (Heq it it' i i' P P' Ec). auto.
  - destruct (ok || c_end_reached c) eqn:Eo; [|discriminate]. injection E as <- <-. exists m. cbn [step]. split; [|exact S].
    do 3 f_equal. f_equal. destruct F as [F1 F2]. apply orb_true_iff in Eo as [Eo|Eo]; [rewrite Eo in *; auto|auto].
Qed.
Lemma sim_steps ops : forall m c x, sim m c -> cursor_steps out ok comparable ops c = Some x -> steps C ops m = Ok x.
Proof.
  induction ops as [|o ops IH]; intros m c x S E; cbn in *; [congruence|]. destruct (cursor_step out ok comparable o c) as [[c' y]|] eqn:Es; [|discriminate].
  destruct (cursor_steps out ok comparable ops c') as [z|] eqn:Ez; [|discriminate]. injection E as <-. destruct (sim_step _ _ _ _ _ S Es) as (m' & -> & S'). cbn [bind].
  rewrite (IH _ _ _ S' Ez). reflexivity.
Qed.
Lemma sim_run ops x : cursor_run out ok comparable ops = Some x -> run C ops = Ok x.
Proof. apply sim_steps. split; [constructor|]. split; [constructor|]. split; [reflexivity|discriminate]. Qed.
End Sim.
