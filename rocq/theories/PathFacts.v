(* remove_dot_segments: the in-place loop, the segment-stack reading, RFC 3986 5.2.4 *)
From Verif Require Import Base ModelUri Rfc3986 SpecPath.
From Coq Require Import Lia ZifyBool ZifyNat ZifyN.
Ltac inv H := inversion H; subst; clear H.

(* --- booleans ------------------------------------------------------------ *)
Lemma str_eqb_spec a b : reflect (a = b) (str_eqb a b).
Proof. unfold str_eqb. destruct (list_eq_dec ascii_dec a b); constructor; auto. Qed.
Lemma str_eqb_refl a : str_eqb a a = true.
Proof. destruct (str_eqb_spec a a); congruence. Qed.
Lemma is_dot_spec s : reflect (s = dot) (is_dot s).
Proof. apply str_eqb_spec. Qed.
Lemma is_dotdot_spec s : reflect (s = dotdot) (is_dotdot s).
Proof. apply str_eqb_spec. Qed.
Definition dotty (s : str) : bool := is_dot s || is_dotdot s.
Lemma dotty_spec s : reflect (is_dots s) (dotty s).
Proof.
  unfold dotty, is_dots. destruct (is_dot_spec s) as [->|H]; [constructor; auto|].
  destruct (is_dotdot_spec s) as [->|H2]; constructor; tauto.
Qed.

(* --- the stack reading ----------------------------------------------------- *)
Fixpoint stk (st segs : list str) : list str :=
  match segs with
  | [] => st
  | s :: r => if is_dot s then stk st r else if is_dotdot s then stk (removelast st) r else stk (st ++ [s]) r
  end.
Lemma stk_app st a b : stk st (a ++ b) = stk (stk st a) b.
Proof. revert st. induction a as [|x a IH]; intros st; cbn; auto. destruct (is_dot x); auto. destruct (is_dotdot x); auto. Qed.
Lemma removelast_snoc {T} (l : list T) x : removelast (l ++ [x]) = l.
Proof. rewrite removelast_app by discriminate. cbn. apply app_nil_r. Qed.
Lemma stk_resolves l k : resolves l k -> stk [] l = k.
Proof.
  induction 1 as [|l k _ IH|l _ IH|l k x _ IH|l k x H1 H2 _ IH]; [reflexivity|..]; rewrite stk_app, IH; cbn [stk].
  - destruct (is_dot_spec dot); [reflexivity|congruence].
  - reflexivity.
  - change (is_dot dotdot) with false. change (is_dotdot dotdot) with true. cbn iota. apply removelast_snoc.
  - destruct (is_dot_spec x); [congruence|]. destruct (is_dotdot_spec x); [congruence|]. reflexivity.
Qed.
Lemma resolves_stk l : resolves l (stk [] l).
Proof.
  induction l as [|x l IH] using rev_ind; [constructor|]. rewrite stk_app. cbn [stk].
  destruct (is_dot_spec x) as [->|H1]; [now constructor|].
  destruct (is_dotdot_spec x) as [->|H2]; [|now constructor].
  destruct (stk [] l) as [|y k _] using rev_ind; [now constructor|].
  rewrite removelast_snoc. econstructor; eauto.
Qed.
Lemma resolves_iff l k : resolves l k <-> stk [] l = k.
Proof. split; [apply stk_resolves|]. intros <-. apply resolves_stk. Qed.

(* --- the in-place loop ------------------------------------------------------ *)
Lemma upd_length {T} i (v : T) l : length (upd i v l) = length l.
Proof. revert i. induction l as [|x l IH]; intros [|i]; cbn; auto. Qed.
Lemma upd_firstn {T} i (v : T) l : i < length l -> firstn (S i) (upd i v l) = firstn i l ++ [v].
Proof.
  revert i. induction l as [|x l IH]; intros [|i] H; cbn in *; try lia; auto.
  f_equal. apply IH. lia.
Qed.
Lemma upd_skipn {T} i j (v : T) l : i < j -> skipn j (upd i v l) = skipn j l.
Proof. revert i j. induction l as [|x l IH]; intros [|i] [|j] H; cbn in *; try lia; auto. apply IH. lia. Qed.
Lemma firstn_snoc {T} i (l : list T) d : i < length l -> firstn (S i) l = firstn i l ++ [nth i l d].
Proof. revert i. induction l as [|x l IH]; intros [|i] H; cbn in *; try lia; auto. f_equal. apply IH. lia. Qed.
Lemma skipn_cons {T} i (l : list T) d : i < length l -> skipn i l = nth i l d :: skipn (S i) l.
Proof. revert i. induction l as [|x l IH]; intros [|i] H; cbn in *; try lia; auto. apply IH. lia. Qed.
Lemma removelast_firstn {T} n (l : list T) : n <= length l -> removelast (firstn n l) = firstn (pred n) l.
Proof.
  intros H. destruct n as [|n]; [reflexivity|]. cbn [pred]. apply removelast_firstn. lia.
Qed.

Definition dirlike (s : str) : bool := is_dot s || is_dotdot s || is_empty s.
Lemma rds_loop_stk n : forall it outit ld segs, outit <= it -> it + n = length segs ->
  exists o segs', rds_loop n it outit ld segs = (o, match skipn it segs with [] => ld | _ => dirlike (last segs []) end, segs')
    /\ firstn o segs' = stk (firstn outit segs) (skipn it segs).
Proof.
  induction n as [|n IH]; intros it outit ld segs H1 H2; cbn [rds_loop].
  - exists outit, segs. rewrite skipn_all2 by lia. auto.
  - rewrite (skipn_cons it segs []) by lia. set (cur := nth it segs []).
    assert (Hlast : skipn (S it) segs = [] -> last segs [] = cur).
    { intros E. assert (length (skipn (S it) segs) = 0) by now rewrite E. rewrite skipn_length in H.
      rewrite <- (firstn_skipn it segs), (skipn_cons it segs []), E by lia. apply last_last. }
    cbn [stk]. destruct (is_dot cur) eqn:E1; [|destruct (is_dotdot cur) eqn:E2].
    + destruct (IH (S it) outit true segs) as (o & s' & E & F); [lia|lia|]. exists o, s'. rewrite E, F. split; auto. do 2 f_equal.
      destruct (skipn (S it) segs) eqn:Es; auto. rewrite Hlast; auto. unfold dirlike. now rewrite E1.
    + destruct (IH (S it) (pred outit) true segs) as (o & s' & E & F); [lia|lia|]. exists o, s'. rewrite E, F. split.
      * do 2 f_equal. destruct (skipn (S it) segs) eqn:Es; auto. rewrite Hlast; auto. unfold dirlike. now rewrite E1, E2.
      * now rewrite removelast_firstn by lia.
    + set (segs2 := if Nat.eqb outit it then segs else upd outit cur segs).
      assert (L2 : length segs2 = length segs) by (unfold segs2; destruct (Nat.eqb outit it); [auto|apply upd_length]).
      assert (S2 : skipn (S it) segs2 = skipn (S it) segs).
      { unfold segs2. destruct (Nat.eqb_spec outit it); auto. apply upd_skipn. lia. }
      assert (F2 : firstn (S outit) segs2 = firstn outit segs ++ [cur]).
      { unfold segs2. destruct (Nat.eqb_spec outit it) as [->|]; [apply firstn_snoc; lia|apply upd_firstn; lia]. }
      destruct (IH (S it) (S outit) (is_empty cur) segs2) as (o & s' & E & F); [lia|lia|]. exists o, s'. rewrite E, F, S2, F2. split; auto.
      do 2 f_equal. destruct (skipn (S it) segs) as [|y l] eqn:Es.
      * rewrite Hlast; auto. unfold dirlike. now rewrite E1, E2.
      * f_equal. rewrite <- (firstn_skipn (S it) segs2), <- (firstn_skipn (S it) segs), S2, Es.
        rewrite !last_app_nonempty || idtac.
        assert (G : forall (T : Type) (a b : list T) y l d, last (a ++ y :: l) d = last (b ++ y :: l) d).
        { clear. intros T a b y l d. assert (K : forall a, last (a ++ y :: l) d = last (y :: l) d).
          { induction a0 as [|z a0 IH]; auto. rewrite <- app_comm_cons, <- IH. destruct (a0 ++ y :: l) eqn:E; auto.
            destruct a0; discriminate. }
          now rewrite !K. }
        apply G.
Qed.
Lemma rds_segments_stk segs : rds_segments segs =
  let k := stk [] segs in
  if match segs with [] => false | _ => dirlike (last segs []) end then
    match k with [] => [[]] | _ => if is_empty (last k []) then k else k ++ [[]] end
  else k.
Proof.
  unfold rds_segments. destruct (rds_loop_stk (length segs) 0 0 false segs) as (o & s' & E & F); [lia|lia|].
  rewrite E. cbn [skipn firstn] in *. rewrite F. destruct segs; reflexivity.
Qed.

(* --- C11 ------------------------------------------------------------------- *)
Lemma stk_no_dots st l : Forall (fun s => ~ is_dots s) st -> Forall (fun s => ~ is_dots s) (stk st l).
Proof.
  revert st. induction l as [|x l IH]; intros st H; cbn; auto.
  destruct (is_dot_spec x) as [|E1]; auto. destruct (is_dotdot_spec x) as [|E2]; apply IH.
  - destruct st as [|y st _] using rev_ind; auto. rewrite removelast_snoc. apply Forall_app in H. tauto.
  - apply Forall_app. split; auto. constructor; auto. unfold is_dots. tauto.
Qed.
Lemma stk_normal st l : Forall (fun s => ~ is_dots s) l -> stk st l = st ++ l.
Proof.
  intros H. revert st. induction H as [|x l Hx _ IH]; intros st; cbn; [now rewrite app_nil_r|].
  destruct (is_dot_spec x); [exfalso; apply Hx; left; auto|].
  destruct (is_dotdot_spec x); [exfalso; apply Hx; right; auto|].
  rewrite IH, <- app_assoc. reflexivity.
Qed.
Lemma nil_not_dots : ~ is_dots [].
Proof. intros [H|H]; discriminate. Qed.
Lemma rds_no_dots segs : Forall (fun s => ~ is_dots s) (rds_segments segs).
Proof.
  rewrite rds_segments_stk. cbn zeta. assert (H := stk_no_dots [] segs ltac:(constructor)).
  destruct (match segs with [] => false | _ => _ end); auto.
  destruct (stk [] segs) as [|y k] eqn:E; [repeat constructor; apply nil_not_dots|]. destruct (is_empty _); auto.
  apply Forall_app. split; auto. repeat constructor. apply nil_not_dots.
Qed.
Lemma last_in {T} (l : list T) d : l <> [] -> In (last l d) l.
Proof. induction l as [|x [|y l] IH]; intros H; [congruence|left; auto|]. right. apply IH. discriminate. Qed.
Lemma rds_normal segs : Forall (fun s => ~ is_dots s) segs -> rds_segments segs = segs.
Proof.
  intros H. rewrite rds_segments_stk, stk_normal by auto. cbn zeta. rewrite app_nil_l. destruct segs as [|x l]; auto.
  assert (Hl : ~ is_dots (last (x :: l) [])). { rewrite Forall_forall in H. apply H, last_in. discriminate. }
  unfold dirlike. destruct (is_dot_spec (last (x :: l) [])); [exfalso; apply Hl; left; auto|].
  destruct (is_dotdot_spec (last (x :: l) [])); [exfalso; apply Hl; right; auto|]. cbn [orb].
  destruct (is_empty (last (x :: l) [])) eqn:E; auto.
Qed.
Lemma rds_idem segs : rds_segments (rds_segments segs) = rds_segments segs.
Proof. apply rds_normal, rds_no_dots. Qed.

Lemma subseq_nil {T} (l : list T) : subseq [] l.
Proof. induction l; constructor; auto. Qed.
Lemma subseq_refl {T} (l : list T) : subseq l l.
Proof. induction l; [apply sub_nil|now apply sub_take]. Qed.
Lemma subseq_app {T} (a b c d : list T) : subseq a b -> subseq c d -> subseq (a ++ c) (b ++ d).
Proof. induction 1; cbn; intros; auto; [apply sub_skip|apply sub_take]; auto. Qed.
Lemma subseq_skip_end {T} (a b : list T) x : subseq a b -> subseq a (b ++ [x]).
Proof. intros H. rewrite <- (app_nil_r a). apply subseq_app; auto. apply subseq_nil. Qed.
Lemma subseq_removelast {T} (a b : list T) : subseq a b -> subseq (removelast a) b.
Proof.
  induction 1 as [|x a b H IH|x a b H IH]; [constructor|now apply sub_skip|]. cbn. destruct a; [apply subseq_nil|now apply sub_take].
Qed.
Lemma resolves_subseq l k : resolves l k -> subseq k l.
Proof.
  induction 1 as [|l k _ IH|l _ IH|l k x _ IH|l k x H1 H2 _ IH]; [constructor|..].
  - now apply subseq_skip_end. - apply subseq_nil.
  - apply subseq_skip_end. apply subseq_removelast in IH. now rewrite removelast_snoc in IH.
  - apply subseq_app; auto. apply subseq_refl.
Qed.
Lemma is_empty_spec (s : str) : reflect (s = []) (is_empty s).
Proof. destruct s; constructor; congruence. Qed.

(* the exact result in terms of [resolves] *)
Lemma last_snoc {T} (l : list T) x d : last (l ++ [x]) d = x.
Proof. apply last_last. Qed.
Lemma rds_segments_result segs : exists k, resolves segs k /\ rds_result segs k (rds_segments segs).
Proof.
  exists (stk [] segs). split; [apply resolves_stk|]. rewrite rds_segments_stk. cbn zeta.
  destruct segs as [|x l _] using rev_ind.
  { right. split; auto. intros [(l & x & E & _) _]. destruct l; discriminate. }
  replace (match l ++ [x] with [] => false | _ => dirlike (last (l ++ [x]) []) end) with (dirlike x)
    by (rewrite last_snoc; destruct l; reflexivity).
  assert (D : (exists l0 x0, l ++ [x] = l0 ++ [x0] /\ is_dots x0) <-> is_dots x).
  { split; [intros (l0 & x0 & E & H); apply app_inj_tail in E; now destruct E as [_ <-]|eauto]. }
  assert (Hempty : x = [] -> exists k', stk [] (l ++ [x]) = k' ++ [[]]).
  { intros ->. rewrite stk_app. cbn. eauto. }
  set (k := stk [] (l ++ [x])) in *.
  destruct (dotty_spec x) as [Hd|Hd].
  - assert (dirlike x = true) as -> by (unfold dirlike; destruct Hd as [->| ->]; reflexivity).
    destruct k as [|y k0 _] using rev_ind.
    + left. split; [now apply D|]. split; [intros k' E; destruct k'; discriminate|reflexivity].
    + rewrite last_snoc. destruct (is_empty_spec y) as [->|Hy].
      * right. split; [|destruct k0; reflexivity]. intros [_ H]. eapply H; eauto.
      * left. split; [now apply D|]. split; [intros k' E; apply app_inj_tail in E; destruct E; congruence|].
        destruct k0; reflexivity.
  - right. split; [rewrite D; tauto|]. unfold dirlike.
    destruct (is_dot_spec x); [exfalso; apply Hd; left; auto|]. destruct (is_dotdot_spec x); [exfalso; apply Hd; right; auto|].
    cbn [orb]. destruct (is_empty_spec x) as [Ex|]; auto. destruct (Hempty Ex) as (k' & ->). rewrite last_snoc.
    destruct k'; reflexivity.
Qed.
