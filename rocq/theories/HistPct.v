(* The percent-decoding iterators as cursors over the decoded text. *)
From Verif Require Import Base ModelPct SpecPct PctFacts ModelHist SpecHist HistFacts.
From Coq Require Import Lia.
Local Open Scope list_scope.

Lemma char_skipn s i k : char_at s (i + k) = char_at (skipn i s) k.
Proof. unfold char_at. assert (E : nth_error s (i + k) = nth_error (skipn i s) k); [|now rewrite E]. revert i; induction s as [|x l IH]; intros [|i]; cbn; try reflexivity; [destruct k; reflexivity|apply IH]. Qed.
Lemma pit_next_spec s it fl : skipn (i_pos it) s <> [] ->
  pit_next s it fl = Ok (Pit (i_pos it + if esc (skipn (i_pos it) s) then 3 else 1) (i_hex it), fl).
Proof.
  intros N. unfold pit_next. rewrite <- skipn_length. rewrite !char_skipn. replace (char_at s (i_pos it)) with (char_at (skipn (i_pos it) s) 0) by (rewrite <- char_skipn; f_equal; lia).
  destruct (skipn (i_pos it) s) as [|c r]; [contradiction|]. unfold char_at. cbn [length Nat.eqb nth_error bind].
  destruct r as [|h [|l r]]; try (cbn; reflexivity). cbn [length Nat.leb nth_error bind esc andb]. unfold percent.
  destruct (Ascii.eqb c "%"); cbn [bind andb]; [|reflexivity]. rewrite hexes_bad, negb_involutive. reflexivity.
Qed.
Lemma pit_deref_spec s it b r : skipn (i_pos it) s = r -> (escaped_at r b (skipn 3 r) \/ (esc r = false /\ nth_error r 0 = Some b)) ->
  exists it' p, pit_deref s it = Ok (it', p) /\ i_pos it' = i_pos it /\ value (pct_class s) it' p = Ok b
   /\ forall q, value (pct_class s) it q = Ok b -> value (pct_class s) it' q = Ok b.
Proof.
  intros E H. unfold pit_deref. rewrite <- skipn_length. rewrite !char_skipn. assert (C0 : char_at s (i_pos it) = char_at r 0) by (rewrite <- E, <- char_skipn; f_equal; lia). rewrite C0, E.
  destruct H as [(h & l & x & y & -> & E1 & E2 & ->)|[N H0]].
  - unfold char_at at 1 2 3. cbn [nth_error bind length]. cbn [Ascii.eqb Bool.eqb negb orb Nat.ltb Nat.leb]. rewrite hexes_bad. unfold ishex. rewrite E1, E2. cbn [andb negb].
    do 2 eexists. split; [reflexivity|]. split; [reflexivity|]. destruct (hex2dec_spec h) as [D1 H1], (hex2dec_spec l) as [D2 H2]. rewrite E1 in D1. rewrite E2 in D2.
    cbn. rewrite D1, D2, combine by auto. split; [reflexivity|]. intros [i|j]; cbn; auto.
  - destruct r as [|c r]; [discriminate|]. injection H0 as ->. assert (V : value (pct_class s) it (InRange (i_pos it)) = Ok b) by (cbn [value]; exact C0).
    unfold char_at. cbn [nth_error bind]. exists it, (InRange (i_pos it)).
    assert (G : forall P : Prop, P -> P /\ i_pos it = i_pos it /\ value (pct_class s) it (InRange (i_pos it)) = Ok b /\ (forall q, value (pct_class s) it q = Ok b -> value (pct_class s) it q = Ok b)) by auto.
    apply G. clear G. destruct r as [|h [|l r]]; try (destruct (Ascii.eqb b "%"); reflexivity). cbn [esc] in N. unfold percent in N. cbn [length Nat.ltb Nat.leb nth_error bind orb].
    rewrite orb_false_r. destruct (Ascii.eqb b "%"); cbn [negb]; [|reflexivity]. rewrite hexes_bad. cbn [andb] in N. rewrite N. reflexivity.
Qed.

Section Pct.
Variables (s t : str).
Hypothesis D : decodes s t.
Fixpoint posn (i : nat) : nat := match i with O => 0 | S i => posn i + if esc (skipn (posn i) s) then 3 else 1 end.
Lemma skipn_add {A} (l : list A) a b : skipn (a + b) l = skipn b (skipn a l).
Proof. revert a; induction l as [|x l IH]; intros [|a]; cbn; try reflexivity; [destruct b; reflexivity|apply IH]. Qed.
Lemma posn_decodes i : i <= length t -> decodes (skipn (posn i) s) (skipn i t).
Proof.
  induction i as [|i IH]; intros H; [exact D|]. specialize (IH ltac:(lia)). cbn [posn]. rewrite skipn_add. replace (S i) with (i + 1) by lia. rewrite skipn_add.
  assert (L : length (skipn i t) <> 0) by (rewrite skipn_length; lia). revert IH L. generalize (skipn i t) (skipn (posn i) s). intros q r IH L.
  destruct IH as [|r b rest q X Y|c r q X Y]; [cbn in L; contradiction| |].
  - assert (esc r = true) as -> by (apply esc_iff; eauto). destruct X as (h & l & x & y & -> & _). cbn. exact Y.
  - assert (esc (c :: r) = false) as -> by (apply not_true_iff_false; rewrite esc_iff; intros (b & rest & Z); exact (X b rest Z)). cbn. exact Y.
Qed.
Lemma posn_lt i j : i < j -> posn i < posn j.
Proof. induction 1 as [|j H IH]; cbn [posn]; [destruct (esc _); lia|]. destruct (esc (skipn (posn j) s)); lia. Qed.
Lemma posn_bound i : i < length t -> posn i < length s.
Proof.
  intros H. pose proof (posn_decodes i ltac:(lia)) as X. destruct (Nat.lt_ge_cases (posn i) (length s)) as [|G]; [assumption|].
  rewrite (skipn_all2 s G) in X. apply decodes_length in X. rewrite skipn_length in X. cbn in X. lia.
Qed.
Lemma posn_end : posn (length t) = length s.
Proof.
  pose proof (posn_decodes (length t) ltac:(lia)) as X. rewrite skipn_all in X. apply decodes_length in X. rewrite skipn_length in X. cbn [length] in X.
  destruct (length t) as [|n] eqn:En; [cbn in *; lia|]. pose proof (posn_bound n ltac:(lia)) as B. cbn [posn] in *.
  destruct (esc (skipn (posn n) s)) eqn:Ee; [|lia]. apply esc_iff in Ee as (b & rest & h & l & x & y & Z & _).
  assert (length (skipn (posn n) s) >= 3) by (rewrite Z; cbn; lia). rewrite skipn_length in *. lia.
Qed.

Lemma posn_head i v : nth_error t i = Some v -> let r := skipn (posn i) s in escaped_at r v (skipn 3 r) \/ (esc r = false /\ nth_error r 0 = Some v).
Proof.
  intros H r. assert (L : i < length t) by (apply nth_error_Some; congruence). pose proof (posn_decodes i ltac:(lia)) as X. fold r in X.
  assert (E : exists q, skipn i t = v :: q).
  { clear - H. revert i H. induction t as [|x l IH]; intros [|i] H; cbn in H; try discriminate; [injection H as ->; exists l; reflexivity|]. apply IH. exact H. }
  destruct E as [q E]. rewrite E in X. inversion X as [|r' b rest q' Z Y|c r' q' Z Y]; subst.
  - left. destruct Z as (h & l & x & y & -> & Z). exists h, l, x, y. auto.
  - right. split; [|reflexivity]. apply not_true_iff_false. rewrite esc_iff. intros (b & rest & W). exact (Z b rest W).
Qed.
Definition PRep (it : pit) (i : nat) : Prop := i <= length t /\ i_pos it = posn i.
Lemma pct_begin fl r : flag_ok true fl r -> exists it fl', ic_begin (pct_class s) fl = Ok (it, fl') /\ PRep it 0 /\ flag_ok true fl' (r || Nat.eqb 0 (length t)).
Proof. intros F. do 2 eexists. split; [reflexivity|]. split; [cbn; split; [lia|reflexivity]|]. destruct F as [F1 F2]. split; auto. Qed.
Lemma pct_end : PRep (ic_end (pct_class s)) (length t).
Proof. split; [lia|]. symmetry. exact posn_end. Qed.
Lemma pct_next it i fl r : PRep it i -> i < length t -> flag_ok true fl r ->
  exists it' fl', ic_next (pct_class s) it fl = Ok (it', fl') /\ PRep it' (S i) /\ flag_ok true fl' (r || Nat.eqb (S i) (length t)).
Proof.
  intros [L P] I F. do 2 eexists. split; [apply pit_next_spec|].
  - rewrite P. intros N. pose proof (posn_bound i I). assert (length (skipn (posn i) s) = 0) by now rewrite N. rewrite skipn_length in *. lia.
  - cbn [i_pos]. split; [|destruct F as [F1 F2]; split; auto]. split; [lia|]. cbn [i_pos]. rewrite P. reflexivity.
Qed.
Lemma pct_deref it i v : PRep it i -> nth_error t i = Some v ->
  exists it' p, ic_deref (pct_class s) it = Ok (it', p) /\ PRep it' i /\ value (pct_class s) it' p = Ok v
    /\ forall q, value (pct_class s) it q = Ok v -> value (pct_class s) it' q = Ok v.
Proof.
  intros [L P] E. destruct (pit_deref_spec s it v (skipn (posn i) s) ltac:(now rewrite P) (posn_head i v E)) as (it' & p & A & B & W & K).
  exists it', p. split; [exact A|]. split; [split; [exact L|congruence]|]. split; [exact W|exact K].
Qed.
Lemma pct_eq a b i j : PRep a i -> PRep b j -> (fun _ _ : nat => true) i j = true -> ic_eq (pct_class s) a b = Nat.eqb i j.
Proof.
  intros [_ A] [_ B] _. cbn [ic_eq pct_class]. rewrite A, B. destruct (Nat.lt_trichotomy i j) as [G|[->|G]].
  - pose proof (posn_lt i j G). rewrite (proj2 (Nat.eqb_neq i j)) by lia. apply Nat.eqb_neq. lia.
  - now rewrite !Nat.eqb_refl.
  - pose proof (posn_lt j i G). rewrite (proj2 (Nat.eqb_neq i j)) by lia. apply Nat.eqb_neq. lia.
Qed.
Lemma pct_run ops x : cursor_run t true (fun _ _ => true) ops = Some x -> run (pct_class s) ops = Ok x.
Proof. exact (sim_run (pct_class s) t true (fun _ _ => true) PRep pct_begin pct_end pct_next pct_deref pct_eq ops x). Qed.
End Pct.
