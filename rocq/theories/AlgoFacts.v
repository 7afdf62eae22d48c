From Verif Require Import Base ModelAlgo SpecPuny.

Lemma flf_loop_spec {A} (f : A -> bool) l first found :
  flf_loop f l first found = (first + length l,
    match snd (flf_loop f l 0 None) with Some p => Some (first + p) | None => found end).
Proof.
  revert first found; induction l as [|x l IH]; intros first found; cbn.
  - f_equal; lia.
  - rewrite IH, (IH 1). destruct (f x); cbn.
    + f_equal; [lia|]. destruct (snd (flf_loop f l 0 None)); f_equal; lia.
    + f_equal; [lia|]. destruct (snd (flf_loop f l 0 None)); [f_equal; lia|reflexivity].
Qed.

Lemma find_last_forward_app {A} (f : A -> bool) a x b : f x = true -> (forall y, In y b -> f y = false) ->
  find_last_forward f (a ++ x :: b) = (length a, length (a ++ x :: b)).
Proof.
  intros Hx Hb. unfold find_last_forward. rewrite flf_loop_spec.
  assert (Hnone : forall b, (forall y, In y b -> f y = false) -> snd (flf_loop f b 0 None) = None).
  { clear. induction b as [|y b IH]; intros H; cbn; [reflexivity|]. rewrite (H y (or_introl eq_refl)), flf_loop_spec. cbn.
    rewrite IH; auto. intros; apply H; right; auto. }
  assert (E : snd (flf_loop f (a ++ x :: b) 0 None) = Some (length a)).
  { induction a as [|y a IH]; cbn.
    - rewrite Hx, flf_loop_spec. cbn. rewrite Hnone; auto.
    - rewrite flf_loop_spec. cbn. rewrite IH. reflexivity. }
  rewrite E. reflexivity.
Qed.

Lemma find_last_forward_none {A} (f : A -> bool) l : (forall y, In y l -> f y = false) ->
  find_last_forward f l = (length l, length l).
Proof.
  intros H. unfold find_last_forward. rewrite flf_loop_spec.
  assert (snd (flf_loop f l 0 None) = None) as ->; [|reflexivity].
  induction l as [|y l IH]; cbn; [reflexivity|]. rewrite (H y (or_introl eq_refl)), flf_loop_spec. cbn.
  rewrite IH; auto. intros; apply H; right; auto.
Qed.

Lemma ranges_find_app {A} (f : A -> bool) a x b : f x = true -> (forall y, In y a -> f y = false) ->
  ranges_find f (a ++ x :: b) = length a.
Proof.
  intros Hx. induction a as [|y a IH]; intros Ha; cbn; [rewrite Hx; reflexivity|].
  rewrite (Ha y (or_introl eq_refl)), IH; auto. intros; apply Ha; right; auto.
Qed.
Lemma ranges_find_none {A} (f : A -> bool) l : (forall y, In y l -> f y = false) -> ranges_find f l = length l.
Proof.
  induction l as [|y l IH]; intros H; cbn; [reflexivity|]. rewrite (H y (or_introl eq_refl)), IH; auto.
  intros; apply H; right; auto.
Qed.

Lemma last_split {A} (f : A -> bool) l :
  (forall y, In y l -> f y = false) \/
  exists a x b, l = a ++ x :: b /\ f x = true /\ forall y, In y b -> f y = false.
Proof.
  induction l as [|y l [H|(a & x & b & -> & Hx & Hb)]]; [left; intros ? []| |].
  - destruct (f y) eqn:E.
    + right. exists [], y, l. auto.
    + left. intros z [<-|Hz]; auto.
  - right. exists (y :: a), x, b. auto.
Qed.

Lemma find_last_bidi_app {A} (f : A -> bool) a x b : f x = true -> (forall y, In y b -> f y = false) ->
  find_last_bidi f (a ++ x :: b) = Ok (length a, length (a ++ x :: b)).
Proof.
  intros Hx Hb. unfold find_last_bidi. destruct (a ++ x :: b) eqn:E; [destruct a; discriminate|]. rewrite <- E. clear E.
  rewrite rev_app_distr. cbn [rev]. rewrite <- !app_assoc. cbn [app].
  rewrite ranges_find_app; auto; [|intros y Hy; apply Hb; apply in_rev; auto].
  rewrite rev_length, find_last_forward_app; auto.
  assert (Hl : length (a ++ x :: b) = length a + S (length b)) by (rewrite app_length; reflexivity).
  destruct (Nat.eqb_spec (length b) (length (a ++ x :: b))); [lia|].
  destruct (length (a ++ x :: b) - length b) as [|p] eqn:Ep; [lia|]. assert (p = length a) as -> by lia.
  cbn [fst snd]. rewrite !Nat.eqb_refl. reflexivity.
Qed.
Lemma find_last_bidi_none {A} (f : A -> bool) l : (forall y, In y l -> f y = false) ->
  find_last_bidi f l = Ok (length l, length l).
Proof.
  intros H. unfold find_last_bidi. destruct l eqn:E; [reflexivity|]. rewrite <- E in *. clear E.
  rewrite ranges_find_none, rev_length, Nat.eqb_refl; [reflexivity|]. intros y Hy; apply H, in_rev; auto.
Qed.

Lemma find_last_bidi_forward {A} (f : A -> bool) l : find_last_bidi f l = Ok (find_last_forward f l).
Proof.
  destruct (last_split f l) as [H|(a & x & b & -> & Hx & Hb)].
  - rewrite find_last_bidi_none, find_last_forward_none; auto.
  - rewrite find_last_bidi_app, find_last_forward_app; auto.
Qed.

Lemma find_last_spec {A} (f : A -> bool) l p e : find_last_forward f l = (p, e) ->
  e = length l /\ (p < e -> last_at (fun x => f x = true) l p) /\ (p = e <-> forall x, In x l -> f x = false) /\ p <= e.
Proof.
  destruct (last_split f l) as [H|(a & x & b & -> & Hx & Hb)].
  - rewrite find_last_forward_none; auto. intros [= <- <-]. repeat split; auto; lia.
  - rewrite find_last_forward_app; auto. intros [= <- <-].
    assert (Hl : length (a ++ x :: b) = length a + S (length b)) by (rewrite app_length; reflexivity).
    repeat split; auto; try lia.
    + intros _. exists a, x, b. repeat split; auto. intros y Hy; rewrite Hb; auto.
    + intros H. rewrite (H x) in Hx; [discriminate|]. apply in_or_app; right; left; reflexivity.
Qed.

Lemma last_at_unique {A} (P : A -> Prop) l p q : last_at P l p -> last_at P l q -> p = q.
Proof.
  intros (a & x & b & -> & <- & Hx & Hb) (a' & x' & b' & E & <- & Hx' & Hb').
  revert a' E; induction a as [|y a IH]; intros [|y' a'] E; cbn in *; injection E as -> E.
  - reflexivity.
  - subst b. exfalso. apply (Hb x'); auto. apply in_or_app; right; left; reflexivity.
  - subst b'. exfalso. apply (Hb' x); auto. apply in_or_app; right; left; reflexivity.
  - f_equal. auto.
Qed.

Lemma starts_with_spec {A B} (pred : A -> B -> bool) l1 l2 :
  starts_with pred l1 l2 = true <-> exists p q, l1 = p ++ q /\ Forall2 (fun a b => pred a b = true) p l2.
Proof.
  unfold starts_with. revert l2; induction l1 as [|a l1 IH]; intros [|b l2]; cbn.
  - split; auto. intros _. exists [], []. auto.
  - split; [discriminate|]. intros (p & q & E & H). destruct p; [inversion H|discriminate].
  - split; auto. intros _. exists [], (a :: l1). auto.
  - destruct (pred a b) eqn:E.
    + destruct (mismatch pred l1 l2) as [i j] eqn:Em. cbn. specialize (IH l2). rewrite Em in IH. cbn in IH.
      rewrite IH. split.
      * intros (p & q & -> & H). exists (a :: p), q. auto.
      * intros (p & q & E1 & H). destruct p as [|a' p]; [inversion H|]. injection E1 as -> E1. inversion H; subst. eauto.
    + cbn. split; [discriminate|]. intros (p & q & E1 & H). inversion H; subst. injection E1 as -> E1. congruence.
Qed.
