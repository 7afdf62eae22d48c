(* Threads over one view: every thread sees what it would see alone, and when there is no race. *)
From Verif Require Import Base ModelHist SpecHist HistFacts ModelConc SpecConc.
From Coq Require Import Lia.
Local Open Scope list_scope.

Lemma firstn_put_ge {A} (l : list A) k a n : n <= k -> firstn n (put l k a) = firstn n l.
Proof. revert k n. induction l as [|x l IH]; intros [|k] [|n] H; cbn; try reflexivity; try lia. f_equal. apply IH. lia. Qed.
Lemma firstn_app_le {A} (l m : list A) n : n <= length l -> firstn n (l ++ m) = firstn n l.
Proof. intros H. rewrite firstn_app. replace (n - length l) with 0 by lia. cbn. apply app_nil_r. Qed.
Lemma forall2_firstn {A B} (P : A -> B -> Prop) l m n : Forall2 P l m -> Forall2 P (firstn n l) (firstn n m).
Proof. intros H. revert n. induction H; intros [|n]; cbn; constructor; auto. Qed.
Lemma nth_firstn {A} (l : list A) n k : k < n -> nth_error (firstn n l) k = nth_error l k.
Proof. revert n k. induction l as [|x l IH]; intros [|n] [|k] H; cbn; try reflexivity; try lia. apply IH. lia. Qed.
Lemma put_app {A} (l m : list A) k a : k < length l -> put (l ++ m) k a = put l k a ++ m.
Proof. revert k. induction l as [|x l IH]; intros [|k] H; cbn in *; try lia; [reflexivity|]. f_equal. apply IH. lia. Qed.
Lemma forall2_right {A B} (P : A -> B -> Prop) a b c d : length a = length c -> Forall2 P (a ++ b) (c ++ d) -> Forall2 P b d.
Proof. revert c. induction a as [|x a IH]; intros [|y c] L H; cbn in *; try discriminate; [exact H|]. inversion H; subst. apply (IH c); auto. Qed.
Lemma firstn_exact {A} (l m : list A) : firstn (length l) (l ++ m) = l.
Proof. rewrite firstn_app_le by lia. apply firstn_all. Qed.

Section Conc.
Context {V : Type}.
Variables (C : iclass V) (dw : ic_it C -> bool) (out : list V) (ok : bool) (comparable : nat -> nat -> bool) (Rep : ic_it C -> nat -> Prop).
Hypothesis Hbegin : forall fl r, flag_ok ok fl r -> exists it fl', ic_begin C fl = Ok (it, fl') /\ Rep it 0 /\ flag_ok ok fl' (r || Nat.eqb 0 (length out)).
Hypothesis Hend : Rep (ic_end C) (length out).
Hypothesis Hnext : forall it i fl r, Rep it i -> i < length out -> flag_ok ok fl r ->
  exists it' fl', ic_next C it fl = Ok (it', fl') /\ Rep it' (S i) /\ flag_ok ok fl' (r || Nat.eqb (S i) (length out)).
Hypothesis Hderef : forall it i v, Rep it i -> nth_error out i = Some v ->
  exists it' p, ic_deref C it = Ok (it', p) /\ Rep it' i /\ value C it' p = Ok v
    /\ forall q, value C it q = Ok v -> value C it' q = Ok v.
Hypothesis Heq : forall a b i j, Rep a i -> Rep b j -> comparable i j = true -> ic_eq C a b = Nat.eqb i j.
Hypothesis Hmono_begin : forall it fl, ic_begin C false = Ok (it, fl) -> fl = false.
Hypothesis Hmono_next : forall it it' fl, ic_next C it false = Ok (it', fl) -> fl = false.

Notation Sim := (sim C out ok Rep).
Let step_sim o m c c' x := sim_step C out ok comparable Rep Hbegin Hend Hnext Hderef Heq o m c c' x.

Lemma step_mono o m m' x : step C o m = Ok (m', x) -> m_flag C m = false -> m_flag C m' = false.
Proof.
  intros E F. destruct o; cbn [step] in E; rewrite ?F in E;
  repeat match type of E with
  | bind ?e _ = _ => let X := fresh "X" in destruct e as [| |] eqn:X; cbn [bind] in E; try discriminate
  | (let (_, _) := ?p in _) = _ => destruct p
  | match ?e with _ => _ end = _ => let X := fresh "Y" in destruct e eqn:X; cbn [bind] in E; try discriminate
  end; injection E as <- <-; cbn [m_flag fresh store]; eauto.
Qed.

(* where the shared cursors are *)
Definition inv (w : world C) (cs : nat -> cursors (V := V)) (ats : list (option nat)) : Prop :=
  length (w_shared C w) = length ats /\ forall i, firstn (length ats) (c_at (cs i)) = ats /\ Sim (view_of_thread C w i) (cs i).

Lemma cursor_firstn o c c' x n : n <= length (c_at c) -> const_use n o -> cursor_step out ok comparable o c = Some (c', x) -> firstn n (c_at c') = firstn n (c_at c).
Proof.
  intros L U E. destruct o; cbn [cursor_step const_use] in *;
  repeat match type of E with match ?e with _ => _ end = _ => destruct e; try discriminate end; injection E as <- <-; cbn [c_at];
  rewrite ?firstn_app_le by (rewrite ?put_length; lia); rewrite ?firstn_put_ge by assumption; try reflexivity.
Qed.
(* the shared part after a step *)
Lemma step_shared o m m' x n : n <= length (m_objs C m) -> const_use n o -> step C o m = Ok (m', x) ->
  firstn n (m_objs C m') = firstn n (m_objs C m) \/ exists k it it' p, o = Deref k /\ k < n /\ nth_error (m_objs C m) k = Some (Some it) /\ ic_deref C it = Ok (it', p) /\ m_objs C m' = put (m_objs C m) k (Some it').
Proof.
  intros L U E. destruct o as [| |k|k j|k|k|k|k|r|k j|]; cbn [step const_use] in *.
  8: { destruct (object C m k) as [it| |] eqn:Eo; cbn [bind] in E; try discriminate. destruct (ic_deref C it) as [[it' p]| |] eqn:Ed; cbn [bind] in E; try discriminate. injection E as <- <-. cbn [m_objs].
       destruct (Nat.lt_ge_cases k n) as [Lk|Gk]; [|left; apply firstn_put_ge; exact Gk]. right. exists k, it, it', p. unfold object in Eo.
       destruct (nth_error (m_objs C m) k) as [[it0|]|] eqn:En; try discriminate. injection Eo as ->. auto. }
  all: left; repeat match type of E with
  | bind ?e _ = _ => let X := fresh "X" in destruct e as [| |] eqn:X; cbn [bind] in E; try discriminate
  | (let (_, _) := ?p in _) = _ => destruct p
  | match ?e with _ => _ end = _ => let X := fresh "Y" in destruct e eqn:X; cbn [bind] in E; try discriminate
  end; injection E as <- <-; cbn [m_objs fresh store]; rewrite ?firstn_app_le by (rewrite ?put_length; lia); rewrite ?firstn_put_ge by assumption; reflexivity.
Qed.

Lemma thread_sim i o w cs ats c' x : inv w cs ats -> const_use (length ats) o -> cursor_step out ok comparable o (cs i) = Some (c', x) ->
  exists w', thread_step C dw i o w = Ok (w', x, accesses C dw i (length ats) o (view_of_thread C w i)) /\ inv w' (set cs i c') ats.
Proof.
  intros [L I] U E. destruct (I i) as [Fi Si]. destruct (step_sim o _ _ _ _ Si E) as (m' & Em & S').
  assert (Lo : length ats <= length (m_objs C (view_of_thread C w i))) by (cbn; rewrite app_length; lia).
  assert (Lc : length ats <= length (c_at (cs i))). { rewrite <- Fi, firstn_length. lia. }
  unfold thread_step. rewrite L, Em. cbn [bind]. eexists. split; [reflexivity|].
  pose proof (cursor_firstn _ _ _ _ _ Lc U E) as Fc. rewrite Fi in Fc.
  assert (Lm : length (firstn (length ats) (m_objs C m')) = length ats).
  { destruct S' as (O & _). apply (forall2_firstn _ _ _ (length ats)) in O. rewrite Fc in O. clear - O. induction O; cbn; auto. }
  split; [exact Lm|]. intros j. unfold view_of_thread, set. cbn [w_shared w_own w_refs w_flag]. destruct (Nat.eqb_spec j i) as [->|Nj].
  - split; [exact Fc|]. rewrite firstn_skipn. destruct m' as [a b d]. exact S'.
  - destruct (I j) as [Fj Sj]. split; [exact Fj|]. destruct Sj as (Oj & Rj & Gj). destruct S' as (O' & R' & G'). cbn [view_of_thread m_objs m_refs m_flag] in Oj, Rj, Gj.
    assert (Ej : c_at (cs j) = ats ++ skipn (length ats) (c_at (cs j))) by (rewrite <- Fj at 1; symmetry; apply firstn_skipn).
    unfold sim. cbn [m_objs m_refs m_flag]. split; [|split].
    + rewrite Ej. apply Forall2_app.
      * pose proof (forall2_firstn _ _ _ (length ats) O') as Q. rewrite Fc in Q. exact Q.
      * rewrite Ej in Oj. apply (forall2_right _ _ _ _ _ L Oj).
    + destruct (step_shared _ _ _ _ _ Lo U Em) as [Es|(k & it & it' & p & -> & Lk & En & Ed & Eo)].
      * rewrite Es. cbn [view_of_thread m_objs]. rewrite <- L, firstn_exact. exact Rj.
      * rewrite Eo. cbn [view_of_thread m_objs] in *. rewrite put_app by lia. rewrite <- L at 1. rewrite <- (put_length (w_shared C w) k (Some it')) at 1. rewrite firstn_exact.
        rewrite <- put_app by lia. rewrite nth_error_app1 in En by lia.
        cbn [cursor_step] in E. destruct (cursor (cs i) k) as [a|] eqn:Ec; [|discriminate]. destruct (nth_error out a) as [v|] eqn:Ev; [|discriminate].
        assert (Ra : Rep it a). { destruct (sim_object C out ok Rep _ _ k a Si Ec) as (it1 & _ & X & _ & Y). cbn in X. rewrite nth_error_app1 in X by lia. rewrite En in X. injection X as <-. exact Y. }
        destruct (Hderef it a v Ra Ev) as (it2 & p2 & Ed2 & _ & _ & K). rewrite Ed in Ed2. injection Ed2 as <- <-.
        eapply forall2_mono; [|exact Rj]. intros y r [Ey Ky]. split; [exact Ey|]. intros Vd. destruct (Ky Vd) as (it0 & n0 & A0 & B0 & D0 & W0). rewrite nth_put.
        destruct (Nat.eqb_spec (fst y) k) as [Ek|_]; [|exists it0, n0; auto]. rewrite Ek in *. rewrite nth_error_app1 in A0 by lia. rewrite En in A0. injection A0 as <-.
        exists it', n0. rewrite nth_error_app1 by lia. rewrite En. split; [reflexivity|]. split; [exact B0|]. split; [exact D0|].
        assert (n0 = a). { unfold cursor in Ec. destruct (nth_error (c_at (cs i)) k) as [[b|]|] eqn:Eb; try discriminate. injection Ec as ->.
          assert (nth_error ats k = Some (Some a)) by (rewrite <- Fi, nth_firstn by exact Lk; exact Eb). assert (nth_error ats k = Some (Some n0)) by (rewrite <- Fj, nth_firstn by exact Lk; exact B0). congruence. }
        subst n0. assert (r_value r = v) as Er by congruence. rewrite Er in *. apply K. exact W0.
    + destruct G' as [G1 _], Gj as [_ G2]. split; [exact G1|]. intros X. specialize (G2 X). destruct ok eqn:Ek; [apply G1; reflexivity|]. apply (step_mono _ _ _ _ Em). exact G2.
Qed.

(* every thread sees what its part of the program sees of the cursors *)
Lemma of_thread_cons {A} i j (o : A) g : of_thread j ((i, o) :: g) = if Nat.eqb i j then o :: of_thread j g else of_thread j g.
Proof. unfold of_thread. cbn [filter fst]. destruct (Nat.eqb i j); reflexivity. Qed.
Lemma of_thread_app {A} i (a b : list (nat * A)) : of_thread i (a ++ b) = of_thread i a ++ of_thread i b.
Proof. unfold of_thread. rewrite filter_app. apply map_app. Qed.
Lemma of_thread_pair {A} i j (x : list A) : of_thread j (map (pair i) x) = if Nat.eqb i j then x else [].
Proof. induction x as [|a x IH]; [destruct (Nat.eqb i j); reflexivity|]. cbn [map]. rewrite of_thread_cons, IH. destruct (Nat.eqb i j); reflexivity. Qed.

(* the step in which a thread first reaches the end of ill-formed input writes to the flag *)
Lemma end_writes o m c c' x : Sim m c -> cursor_step out ok comparable o c = Some (c', x) -> c_end_reached c = false -> c_end_reached c' = true -> ok = false -> writes_flag C o m = true.
Proof.
  intros (O & R & F) E N T K. assert (S1 : Sim (Machine C (m_objs C m) (m_refs C m) true) c).
  { split; [exact O|]. split; [exact R|]. split; [reflexivity|]. cbn. congruence. }
  destruct (step_sim o _ _ _ _ S1 E) as (m' & Em & (_ & _ & G)). unfold writes_flag. rewrite Em. rewrite (proj2 G T), K. reflexivity.
Qed.

(* a bound on the events, given one for each step *)
Variable Good : event -> Prop.
Variable allowed : nat -> op -> Prop.
Hypothesis Hgood : forall i o w cs ats c' x, inv w cs ats -> const_use (length ats) o -> allowed (length ats) o -> cursor_step out ok comparable o (cs i) = Some (c', x) ->
  Forall Good (accesses C dw i (length ats) o (view_of_thread C w i)).

Lemma threads_sim ats g : forall w cs x, inv w cs ats -> Forall (fun y => const_use (length ats) (snd y)) g -> Forall (fun y => allowed (length ats) (snd y)) g ->
  (forall i, cursor_steps out ok comparable (of_thread i g) (cs i) = Some (x i)) ->
  exists obs evs, threads C dw g w = Ok (obs, evs) /\ (forall i, of_thread i obs = x i) /\ Forall Good evs
   /\ (ok = false -> forall i c', c_end_reached (cs i) = false -> cursors_after out ok comparable (of_thread i g) (cs i) = Some c' -> c_end_reached c' = true -> In (Event i WellFormedFlag true) evs).
Proof.
  induction g as [|[i o] g IH]; intros w cs x I U Al R.
  - exists [], []. split; [reflexivity|]. split; [|split; [constructor|]].
    + intros i. specialize (R i). cbn in R. injection R as <-. reflexivity.
    + intros _ i c' F E T. cbn in E. congruence.
  - inversion U as [|? ? U1 U2]; subst. inversion Al as [|? ? A1 A2]; subst. cbn [snd] in *. pose proof (R i) as Ri. rewrite of_thread_cons, Nat.eqb_refl in Ri. cbn [cursor_steps] in Ri.
    destruct (cursor_step out ok comparable o (cs i)) as [[c' a]|] eqn:Ec; [|discriminate]. destruct (cursor_steps out ok comparable (of_thread i g) c') as [b|] eqn:Eb; [|discriminate]. injection Ri as Ri.
    destruct (thread_sim i o w cs ats c' a I U1 Ec) as (w' & Et & I').
    destruct (IH w' (set cs i c') (set x i b) I' U2 A2) as (obs & evs & E & X & G & W).
    { intros j. unfold set. destruct (Nat.eqb_spec j i) as [->|Nj]; [exact Eb|]. specialize (R j). rewrite of_thread_cons in R. destruct (Nat.eqb_spec i j) as [|_]; [congruence|exact R]. }
    cbn [threads]. rewrite Et. cbn [bind]. rewrite E. cbn [bind]. do 2 eexists. split; [reflexivity|]. split.
    + intros j. rewrite of_thread_app, of_thread_pair, X. unfold set. destruct (Nat.eqb_spec i j) as [<-|Nj]; [rewrite Nat.eqb_refl; exact Ri|]. destruct (Nat.eqb_spec j i); [congruence|reflexivity].
    + split; [apply Forall_app; split; [|exact G]; eapply Hgood; eassumption|]. intros Ek j cj F Ej T. rewrite in_app_iff. unfold set in W.
      specialize (W Ek j cj). rewrite of_thread_cons in Ej. rewrite (Nat.eqb_sym j i) in W. destruct (Nat.eqb_spec i j) as [<-|Nj]; [|right; apply W; auto].
      cbn [cursors_after] in Ej. rewrite Ec in Ej. destruct (c_end_reached c') eqn:Er; [|right; apply W; auto]. left. unfold accesses. rewrite !in_app_iff. right. right.
      rewrite (end_writes o (view_of_thread C w i) (cs i) c' a (proj2 (proj2 I i)) Ec F Er Ek). left. reflexivity.
Qed.

(* the setup *)
Lemma setup_sim ops : forall m c y, Sim m c -> cursor_steps out ok comparable ops c = Some y ->
  exists m' c', steps_to C ops m = Ok m' /\ Sim m' c' /\ length (c_at c') = length (c_at c) + made ops
   /\ (cursors_after out ok comparable ops c = Some c' /\ forall rest, cursors_after out ok comparable (ops ++ rest) c = cursors_after out ok comparable rest c')
   /\ forall rest z, cursor_steps out ok comparable (ops ++ rest) c = Some z -> exists z', z = y ++ z' /\ cursor_steps out ok comparable rest c' = Some z'.
Proof.
  induction ops as [|o ops IH]; intros m c y S E; cbn [cursor_steps] in E.
  - injection E as <-. exists m, c. split; [reflexivity|]. split; [exact S|]. split; [cbn; lia|]. split; [split; reflexivity|]. intros rest z Z. exists z. auto.
  - destruct (cursor_step out ok comparable o c) as [[c1 a]|] eqn:Ec; [|discriminate]. destruct (cursor_steps out ok comparable ops c1) as [b|] eqn:Eb; [|discriminate]. injection E as <-.
    destruct (step_sim o _ _ _ _ S Ec) as (m1 & Em & S1). destruct (IH m1 c1 b S1 Eb) as (m' & c' & A & B & D & L & K). exists m', c'. cbn [steps_to]. rewrite Em. cbn [bind]. split; [exact A|]. split; [exact B|]. split.
    + rewrite D. cbn [made fold_right]. fold (made ops). assert (length (c_at c1) = length (c_at c) + makes o); [|lia].
      clear - Ec. destruct o; cbn [cursor_step] in Ec; repeat match type of Ec with match ?e with _ => _ end = _ => destruct e; try discriminate end; injection Ec as <- <-; cbn [c_at makes]; rewrite ?app_length, ?put_length; cbn [length]; lia.
    + split; [split; [cbn [cursors_after]; rewrite Ec; exact (proj1 L)|intros rest; cbn [app cursors_after]; rewrite Ec; apply (proj2 L)]|].
      intros rest z Z. cbn [app cursor_steps] in Z. rewrite Ec in Z. destruct (cursor_steps out ok comparable (ops ++ rest) c1) as [d|] eqn:Ed; [|discriminate]. injection Z as <-.
      destruct (K rest d Ed) as (z' & -> & Z'). exists z'. split; [apply app_assoc|exact Z'].
Qed.

Lemma threads_run setup g y x : cursor_run out ok comparable setup = Some y -> Forall (fun z => const_use (made setup) (snd z)) g -> Forall (fun z => allowed (made setup) (snd z)) g ->
  (forall i, cursor_run out ok comparable (setup ++ of_thread i g) = Some (y ++ x i)) ->
  exists obs evs, run_threads C dw setup g = Ok (obs, evs) /\ (forall i, of_thread i obs = x i) /\ Forall Good evs
   /\ (ok = false -> forall i, ~ at_end out ok comparable setup -> at_end out ok comparable (setup ++ of_thread i g) -> In (Event i WellFormedFlag true) evs).
Proof.
  intros S U Al R. assert (S0 : Sim (Machine C [] [] true) (Cursors [] [] false)).
  { split; [constructor|]. split; [constructor|]. split; [reflexivity|discriminate]. }
  destruct (setup_sim setup _ _ _ S0 S) as (m & c & A & B & D & L & K). cbn in D. unfold run_threads. rewrite A. cbn [bind].
  assert (Af : cursors_after out ok comparable setup (Cursors [] [] false) = Some c /\ forall rest, cursors_after out ok comparable (setup ++ rest) (Cursors [] [] false) = cursors_after out ok comparable rest c) by exact L.
  cut (exists obs evs, threads C dw g (start C m) = Ok (obs, evs) /\ (forall i, of_thread i obs = x i) /\ Forall Good evs
   /\ (ok = false -> forall i c', c_end_reached c = false -> cursors_after out ok comparable (of_thread i g) c = Some c' -> c_end_reached c' = true -> In (Event i WellFormedFlag true) evs)).
  { intros (obs & evs & A1 & A2 & A3 & A4). exists obs, evs. split; [exact A1|]. split; [exact A2|]. split; [exact A3|]. intros Ek i N (c' & E & T). rewrite (proj2 Af) in E.
    apply (A4 Ek i c'); auto. destruct (c_end_reached c) eqn:Er; [|reflexivity]. exfalso. apply N. exists c. split; [exact (proj1 Af)|exact Er]. }
  apply (threads_sim (c_at c) g (start C m) (fun _ => c) x).
  - split.
    + destruct B as (O & _). cbn [start w_shared]. clear - O. induction O; cbn; auto.
    + intros i. split; [apply firstn_all|]. unfold view_of_thread, start. cbn [w_shared w_own w_refs w_flag]. rewrite app_nil_r. destruct m; exact B.
  - rewrite D. exact U.
  - rewrite D. exact Al.
  - intros i. destruct (K _ _ (R i)) as (z' & Ez & Z). apply app_inv_head in Ez. rewrite Ez. exact Z.
Qed.

(* reads only *)
Lemma accesses_reads i n o m c c' x : ok = true -> Sim m c -> cursor_step out ok comparable o c = Some (c', x) -> const_use n o ->
  (no_deref n o \/ forall it, dw it = false) -> Forall (fun e => e_write e = false) (accesses C dw i n o m).
Proof.
  intros Ek S E U D. assert (Wf : writes_flag C o m = false).
  { pose proof S as (O & R & F). assert (Machine C (m_objs C m) (m_refs C m) true = m) as Em by (destruct m as [a b f]; cbn; f_equal; symmetry; apply (proj1 F Ek)).
    destruct (step_sim o _ _ _ _ S E) as (m' & E' & (_ & _ & G)). unfold writes_flag. rewrite Em, E'. rewrite (proj1 G Ek). reflexivity. }
  unfold accesses. rewrite Wf, app_nil_r. apply Forall_app. split; [|destruct o; repeat constructor].
  apply Forall_forall. intros e He. apply in_map_iff in He as ([k b] & <- & Hk). apply filter_In in Hk as [Hk Lk]. cbn [fst snd e_write] in *. apply Nat.ltb_lt in Lk.
  destruct o as [| |a|a a'|a|a|a|a|r|a a'|]; cbn [touches const_use no_deref] in *; try contradiction.
  - destruct Hk as [Hk|[]]. congruence.
  - destruct Hk as [Hk|[Hk|[]]]; [|congruence]. injection Hk as -> <-. lia.
  - destruct Hk as [Hk|[]]. injection Hk as -> <-. lia.
  - destruct Hk as [Hk|[]]. injection Hk as -> <-. lia.
  - destruct Hk as [Hk|[]]. injection Hk as -> <-. lia.
  - destruct (object C m a) as [it| |]; [|contradiction|contradiction]. destruct Hk as [Hk|[]]. injection Hk as -> <-. destruct D as [D|D]; [lia|apply D].
  - destruct (nth_error (m_refs C m) r) as [[a [|]]|]; try contradiction. destruct Hk as [Hk|[]]. congruence.
  - destruct Hk as [Hk|[Hk|[]]]; congruence.
Qed.
End Conc.
Lemma reads_no_race evs : Forall (fun e => e_write e = false) evs -> ~ race evs.
Proof. intros F (a & b & A & B & _ & _ & W). rewrite Forall_forall in F. pose proof (F _ A). pose proof (F _ B). destruct W; congruence. Qed.
