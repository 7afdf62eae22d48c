(* Simulation of the cursors of SpecLifetimes by the views and iterators of ModelViews *)
From Verif Require Import Base ModelPct SpecPct ModelIcu SpecIcu IcuUtf8 IcuRead8 IcuEnc IcuView IcuViewAll IcuProps ModelHist HistFacts HistPct HistView ModelViews SpecLifetimes.
From Coq Require Import Lia.
Local Open Scope list_scope.
Local Open Scope nat_scope.

Section Sim.
Context {V It : Type}.
Variables (K : kind V It) (shown : nat -> list V) (fine : nat -> bool) (R : rules) (Rep : nat -> It -> nat -> Prop).
Hypothesis Hbegin : forall n fl r, flag_ok (fine n) fl r -> exists it fl', k_begin K n fl = Ok (it, fl') /\ Rep n it 0 /\ flag_ok (fine n) fl' (r || Nat.eqb 0 (length (shown n))).
Hypothesis Hend : forall n, Rep n (k_end K n) (length (shown n)).
Hypothesis Hnext : forall n it i fl r, Rep n it i -> i < length (shown n) -> flag_ok (fine n) fl r ->
  exists it' fl', k_next K n it fl = Ok (it', fl') /\ Rep n it' (S i) /\ flag_ok (fine n) fl' (r || Nat.eqb (S i) (length (shown n))).
Hypothesis Hvalue : forall n it i v, Rep n it i -> nth_error (shown n) i = Some v -> exists it', k_value K n it = Ok (it', v) /\ Rep n it' i.
Hypothesis Heq : forall n a b i j, Rep n a i -> Rep n b j -> comparable R (length (shown n)) i j = true -> k_eq K a b = Nat.eqb i j.
Hypothesis Rmove : k_next_asks K = move_needs_view R.
Hypothesis Rread : k_value_asks K = read_needs_view R.
Hypothesis Requal : k_eq_parents K = equal_needs_view R.

Definition view_ok (o : option vobj) (s : option sview) : Prop :=
  match o, s with Some w, Some x => w_text w = s_text x /\ flag_ok (fine (s_text x)) (w_flag w) (s_seen x) | None, None => True | _, _ => False end.
Definition it_ok (o : option (iobj (It := It))) (s : option scursor) : Prop :=
  match o, s with Some x, Some y => o_view x = s_view y /\ o_text x = s_of y /\ Rep (s_of y) (o_it x) (s_at y) | None, None => True | _, _ => False end.
Definition sims (m : world (It := It)) (c : sworld) : Prop := Forall2 view_ok (views m) (s_views c) /\ Forall2 it_ok (its m) (s_its c).

Lemma f2_nth {A B} (P : A -> B -> Prop) l l' k b : Forall2 P l l' -> nth_error l' k = Some b -> exists a, nth_error l k = Some a /\ P a b.
Proof. intros H. revert k. induction H as [|x y l l' X _ IH]; intros [|k] E; cbn in E; try discriminate; [injection E as <-; exists x; auto|]. exact (IH k E). Qed.
Lemma f2_len {A B} (P : A -> B -> Prop) l l' : Forall2 P l l' -> length l = length l'. Proof. induction 1; cbn; auto. Qed.
Lemma f2_put {A B} (P : A -> B -> Prop) l l' k a b : Forall2 P l l' -> P a b -> Forall2 P (put l k a) (put l' k b).
Proof. intros H X. revert k. induction H as [|x y l l' Y H IH]; intros [|k]; cbn [put]; constructor; auto. Qed.
Lemma find_view m c v x : sims m c -> view c v = Some x -> exists w, the_view m v = Ok w /\ w_text w = s_text x /\ flag_ok (fine (s_text x)) (w_flag w) (s_seen x).
Proof.
  intros [S _] E. unfold view in E. destruct (nth_error (s_views c) v) as [[y|]|] eqn:N; try discriminate. injection E as ->.
  destruct (f2_nth _ _ _ _ _ S N) as (a & A & P). destruct a as [w|]; [|contradiction]. exists w. unfold the_view. rewrite A. auto.
Qed.
Lemma find_it m c k y : sims m c -> cur c k = Some y -> exists x, the_it m k = Ok x /\ o_view x = s_view y /\ o_text x = s_of y /\ Rep (s_of y) (o_it x) (s_at y).
Proof.
  intros [_ S] E. unfold cur in E. destruct (nth_error (s_its c) k) as [[z|]|] eqn:N; try discriminate. injection E as ->.
  destruct (f2_nth _ _ _ _ _ S N) as (a & A & P). destruct a as [x|]; [|contradiction]. exists x. unfold the_it. rewrite A. auto.
Qed.
Lemma asks_ok m c x y : sims m c -> o_view x = s_view y -> o_text x = s_of y -> in_place c y = true ->
  exists w s, view c (s_view y) = Some s /\ s_text s = s_of y /\ asks m x = Ok w /\ w_text w = s_of y /\ flag_ok (fine (s_of y)) (w_flag w) (s_seen s).
Proof.
  intros S E1 E2 I. unfold in_place in I. destruct (view c (s_view y)) as [s|] eqn:Vs; [|discriminate]. apply Nat.eqb_eq in I.
  destruct (find_view m c _ s S Vs) as (w & A & T & F). exists w, s. unfold asks. rewrite E1, A. cbn [bind]. rewrite E2, T, I, Nat.eqb_refl. rewrite I in *. auto.
Qed.
Lemma put_same {A} (l : list A) k x : nth_error l k = Some x -> put l k x = l.
Proof. revert k. induction l as [|y l IH]; intros [|k] E; cbn in *; try discriminate; [congruence|]. now rewrite IH. Qed.

Lemma vsim_step o m c c' x : sims m c -> spec_step shown fine R o c = Some (c', x) -> exists m', vstep K o m = Ok (m', x) /\ sims m' c'.
Proof.
  intros S E. pose proof S as [SV SI]. destruct o as [n|v|v w|v|v|v|v|k|k j|k|k|k|k j]; cbn [spec_step] in E.
  - injection E as <- <-. eexists. split; [reflexivity|]. split; [apply forall2_app_one; [exact SV|]|exact SI]. cbn. split; [reflexivity|]. split; [auto|discriminate].
  - destruct (view c v) as [s|] eqn:Ev; [|discriminate]. injection E as <- <-. destruct (find_view m c v s S Ev) as (w & A & T & F). eexists. cbn [vstep]. rewrite A. split; [reflexivity|].
    split; [apply forall2_app_one; [exact SV|cbn; auto]|exact SI].
  - destruct (view c v) as [s|] eqn:Ev; [|discriminate]. destruct (view c w) as [s'|] eqn:Ew; [|discriminate]. injection E as <- <-.
    destruct (find_view m c v s S Ev) as (y & A & _). destruct (find_view m c w s' S Ew) as (y' & A' & T & F). eexists. cbn [vstep]. rewrite A, A'. split; [reflexivity|].
    split; [apply f2_put; [exact SV|cbn; auto]|exact SI].
  - destruct (view c v) as [s|] eqn:Ev; [|discriminate]. injection E as <- <-. destruct (find_view m c v s S Ev) as (w & A & _). eexists. cbn [vstep]. rewrite A. split; [reflexivity|].
    split; [apply f2_put; [exact SV|exact I]|exact SI].
  - destruct (view c v) as [s|] eqn:Ev; [|discriminate]. destruct (fine (s_text s) || s_seen s)%bool eqn:Eo; [|discriminate]. injection E as <- <-.
    destruct (find_view m c v s S Ev) as (w & A & T & F1 & F2). exists m. cbn [vstep]. rewrite A. cbn [bind]. split; [|exact S].
    do 3 f_equal. f_equal. apply orb_true_iff in Eo as [Eo|Eo]; [rewrite Eo in *; auto|auto].
  - destruct (view c v) as [s|] eqn:Ev; [|discriminate]. injection E as <- <-. destruct (find_view m c v s S Ev) as (w & A & T & F). destruct (Hbegin _ _ _ F) as (it & fl & B & P & F').
    eexists. cbn [vstep]. rewrite A. cbn [bind]. rewrite T, B. cbn [bind]. split; [reflexivity|]. split; cbn [views its add_it set_view s_views s_its].
    + apply f2_put; [exact SV|]. cbn. auto.
    + apply forall2_app_one; [exact SI|]. cbn. auto.
  - destruct (view c v) as [s|] eqn:Ev; [|discriminate]. injection E as <- <-. destruct (find_view m c v s S Ev) as (w & A & T & F). eexists. cbn [vstep]. rewrite A. cbn [bind]. rewrite T. split; [reflexivity|].
    split; [exact SV|]. apply forall2_app_one; [exact SI|]. cbn. auto.
  - destruct (cur c k) as [y|] eqn:Ek; [|discriminate]. injection E as <- <-. destruct (find_it m c k y S Ek) as (z & A & P). eexists. cbn [vstep]. rewrite A. split; [reflexivity|].
    split; [exact SV|]. apply forall2_app_one; [exact SI|]. exact P.
  - destruct (cur c k) as [y|] eqn:Ek; [|discriminate]. destruct (cur c j) as [y'|] eqn:Ej; [|discriminate]. injection E as <- <-. destruct (find_it m c k y S Ek) as (z & A & _). destruct (find_it m c j y' S Ej) as (z' & A' & P).
    eexists. cbn [vstep]. rewrite A, A'. split; [reflexivity|]. split; [exact SV|]. apply f2_put; [exact SI|exact P].
  - destruct (cur c k) as [y|] eqn:Ek; [|discriminate]. injection E as <- <-. destruct (find_it m c k y S Ek) as (z & A & _). eexists. cbn [vstep]. rewrite A. split; [reflexivity|].
    split; [exact SV|]. apply f2_put; [exact SI|exact I].
  - destruct (cur c k) as [y|] eqn:Ek; [|discriminate]. destruct (Nat.ltb_spec (s_at y) (length (shown (s_of y)))) as [L|]; [|discriminate]. cbn [negb] in E. destruct (find_it m c k y S Ek) as (z & A & E1 & E2 & P).
    cbn [vstep]. rewrite A. cbn [bind]. rewrite Rmove. destruct (move_needs_view R).
    + destruct (view c (s_view y)) as [s|] eqn:Ev; [|discriminate]. destruct (in_place c y) eqn:Ip; [|discriminate]. injection E as <- <-.
      destruct (asks_ok m c z y S E1 E2 Ip) as (w & s' & Ev' & T & B & Tw & F). rewrite Ev in Ev'. injection Ev' as <-. rewrite B. cbn [bind].
      destruct (Hnext _ _ _ _ _ P L F) as (it & fl & N & P' & F'). rewrite E2, N. cbn [bind]. eexists. split; [reflexivity|]. rewrite E1. split; cbn [views its set_it set_view s_views s_its].
      * apply f2_put; [exact SV|]. cbn. rewrite T. split; [exact Tw|]. exact F'.
      * apply f2_put; [exact SI|]. cbn. auto.
    + injection E as <- <-. assert (F : flag_ok (fine (s_of y)) true false) by (split; [auto|discriminate]). destruct (Hnext _ _ _ _ _ P L F) as (it & fl & N & P' & F'). rewrite E2, N. cbn [bind].
      eexists. split; [reflexivity|]. split; [exact SV|]. apply f2_put; [exact SI|]. cbn. auto.
  - destruct (cur c k) as [y|] eqn:Ek; [|discriminate]. destruct (find_it m c k y S Ek) as (z & A & E1 & E2 & P). destruct (read_needs_view R && negb (in_place c y))%bool eqn:Er; [discriminate|].
    destruct (nth_error (shown (s_of y)) (s_at y)) as [v|] eqn:Ev; [|discriminate]. injection E as <- <-. destruct (Hvalue _ _ _ _ P Ev) as (it & G & P').
    cbn [vstep]. rewrite A. cbn [bind]. rewrite Rread.
    assert (B : (if read_needs_view R then do _ <- asks m z; Ok tt else Ok tt) = Ok tt).
    { destruct (read_needs_view R); [|reflexivity]. cbn in Er. apply negb_false_iff in Er. destruct (asks_ok m c z y S E1 E2 Er) as (w & s' & _ & _ & B & _). now rewrite B. }
    rewrite B. cbn [bind]. rewrite E2, G. cbn [bind]. eexists. split; [reflexivity|]. split; [exact SV|]. cbn [set_it its].
    unfold cur in Ek. destruct (nth_error (s_its c) k) as [[q|]|] eqn:Nk; try discriminate. injection Ek as ->. rewrite <- (put_same (s_its c) k (Some y) Nk). apply f2_put; [exact SI|]. cbn. auto.
  - destruct (cur c k) as [y|] eqn:Ek; [|discriminate]. destruct (cur c j) as [y'|] eqn:Ej; [|discriminate]. destruct (find_it m c k y S Ek) as (z & A & E1 & E2 & P). destruct (find_it m c j y' S Ej) as (z' & A' & E1' & E2' & P').
    destruct (Nat.eqb (s_of y) (s_of y') && _ && _)%bool eqn:Ec; [|discriminate]. injection E as <- <-. apply andb_true_iff in Ec as [Ec C3]. apply andb_true_iff in Ec as [C1 C2].
    exists m. split; [|exact S]. cbn [vstep]. rewrite A, A'. cbn [bind]. rewrite E2, E2', C1, E1, E1', Requal. cbn [negb]. apply Nat.eqb_eq in C1. rewrite C1 in *. rewrite (Heq _ _ _ _ _ P P' C3), C2, andb_true_r. reflexivity.
Qed.
Lemma vsim_steps ops : forall m c x, sims m c -> spec_steps shown fine R ops c = Some x -> vsteps K ops m = Ok x.
Proof.
  induction ops as [|o ops IH]; intros m c x S E; cbn in *; [congruence|]. destruct (spec_step shown fine R o c) as [[c' y]|] eqn:Es; [|discriminate].
  destruct (spec_steps shown fine R ops c') as [z|] eqn:Ez; [|discriminate]. injection E as <-. destruct (vsim_step _ _ _ _ _ S Es) as (m' & -> & S'). cbn [bind].
  rewrite (IH _ _ _ S' Ez). reflexivity.
Qed.
Lemma vsim_run ops x : spec_run shown fine R ops = Some x -> vrun K ops = Ok x.
Proof. apply vsim_steps. split; constructor. Qed.
(* an iterator that asks a view which is gone, or which shows another text *)
Lemma vsim_state ops : forall m c c', sims m c -> state_after shown fine R ops c = Some c' -> exists m', sims m' c' /\ forall o e, vstep K o m' = Fault e -> vsteps K (ops ++ [o]) m = Fault e.
Proof.
  induction ops as [|o ops IH]; intros m c c' S E; cbn [state_after] in E.
  - injection E as <-. exists m. split; [exact S|]. intros o e F. cbn. now rewrite F.
  - destruct (spec_step shown fine R o c) as [[c1 y]|] eqn:Es; [|discriminate]. destruct (vsim_step _ _ _ _ _ S Es) as (m1 & M & S1). destruct (IH m1 c1 c' S1 E) as (m' & S' & F).
    exists m'. split; [exact S'|]. intros o' e F'. cbn [app vsteps]. rewrite M. cbn [bind]. now rewrite (F o' e F').
Qed.
Lemma asks_not m c x y : sims m c -> o_view x = s_view y -> o_text x = s_of y -> in_place c y = false -> asks m x = Fault dangling_view.
Proof.
  intros [S _] E1 E2 I. unfold asks, the_view. unfold in_place, view in I. rewrite E1, E2. destruct (nth_error (s_views c) (s_view y)) as [o|] eqn:N.
  - destruct (f2_nth _ _ _ _ _ S N) as (a & A & P). rewrite A. destruct a as [w|], o as [s|]; try contradiction; [|reflexivity]. cbn [bind]. destruct P as [-> _]. now rewrite I.
  - assert (L : nth_error (views m) (s_view y) = None). { apply nth_error_None. apply nth_error_None in N. apply f2_len in S. lia. }
    now rewrite L.
Qed.
Lemma abandoned_fault ops k : abandoned shown fine R ops k ->
  (move_needs_view R = true -> vrun K (ops ++ [IncIt k]) = Fault dangling_view) /\ (read_needs_view R = true -> vrun K (ops ++ [ValueOf k]) = Fault dangling_view).
Proof.
  intros (c & y & E & C & P). destruct (vsim_state ops (World [] []) (Sworld [] []) c (conj (Forall2_nil _) (Forall2_nil _)) E) as (m & S & F).
  destruct (find_it m c k y S C) as (x & A & E1 & E2 & _). pose proof (asks_not m c x y S E1 E2 P) as N.
  split; intros Q; apply F; cbn [vstep]; rewrite A; cbn [bind].
  - rewrite Rmove, Q, N. reflexivity.
  - rewrite Rread, Q, N. reflexivity.
Qed.
End Sim.

Lemma read_at_ok {V} (C : iclass V) it it' p v : ic_deref C it = Ok (it', p) -> value C it' p = Ok v -> read_at C it = Ok (it', v).
Proof. intros E W. unfold read_at. rewrite E. cbn [bind]. unfold value in W. now rewrite W. Qed.

Section Percent.
Variables (text shown : nat -> str).
Hypothesis D : forall n, decodes (text n) (shown n).
Lemma percent_all (K : kind ascii pit) R : K = pctdecode_views text /\ R = pctdecode_view_rules \/ K = pctdecoders text /\ R = pctdecoder_rules ->
  (forall ops x, spec_run shown (fun _ => true) R ops = Some x -> vrun K ops = Ok x)
  /\ forall ops k, abandoned shown (fun _ => true) R ops k ->
    (move_needs_view R = true -> vrun K (ops ++ [IncIt k]) = Fault dangling_view) /\ (read_needs_view R = true -> vrun K (ops ++ [ValueOf k]) = Fault dangling_view).
Proof.
  intros H.
  assert (H1 : forall n fl r, flag_ok true fl r -> exists it fl', k_begin K n fl = Ok (it, fl') /\ PRep (text n) (shown n) it 0 /\ flag_ok true fl' (r || Nat.eqb 0 (length (shown n)))).
  { intros n fl r F. destruct H as [[-> _]|[-> _]]; exact (pct_begin (text n) (shown n) fl r F). }
  assert (H2 : forall n, PRep (text n) (shown n) (k_end K n) (length (shown n))).
  { intros n. destruct H as [[-> _]|[-> _]]; exact (pct_end (text n) (shown n) (D n)). }
  assert (H3 : forall n it i fl r, PRep (text n) (shown n) it i -> i < length (shown n) -> flag_ok true fl r ->
    exists it' fl', k_next K n it fl = Ok (it', fl') /\ PRep (text n) (shown n) it' (S i) /\ flag_ok true fl' (r || Nat.eqb (S i) (length (shown n)))).
  { intros n it i fl r. destruct H as [[-> _]|[-> _]]; exact (pct_next (text n) (shown n) (D n) it i fl r). }
  assert (H4 : forall n it i v, PRep (text n) (shown n) it i -> nth_error (shown n) i = Some v -> exists it', k_value K n it = Ok (it', v) /\ PRep (text n) (shown n) it' i).
  { intros n it i v P E. destruct (pct_deref (text n) (shown n) (D n) it i v P E) as (it' & p & A & B & W & _). exists it'. split; [|exact B].
    destruct H as [[-> _]|[-> _]]; exact (read_at_ok (pct_class (text n)) it it' p v A W). }
  assert (H5 : forall n a b i j, PRep (text n) (shown n) a i -> PRep (text n) (shown n) b j -> comparable R (length (shown n)) i j = true -> k_eq K a b = Nat.eqb i j).
  { intros n a b i j A B _. destruct H as [[-> _]|[-> _]]; exact (pct_eq (text n) (shown n) a b i j A B eq_refl). }
  assert (H6 : k_next_asks K = move_needs_view R /\ k_value_asks K = read_needs_view R /\ k_eq_parents K = equal_needs_view R) by (destruct H as [[-> ->]|[-> ->]]; auto).
  destruct H6 as (H6 & H7 & H8). split.
  - intros ops x. exact (vsim_run K shown (fun _ => true) R (fun n => PRep (text n) (shown n)) H1 H2 H3 H4 H5 H6 H7 H8 ops x).
  - intros ops k. exact (abandoned_fault K shown (fun _ => true) R (fun n => PRep (text n) (shown n)) H1 H2 H3 H4 H5 H6 H7 H8 ops k).
Qed.
End Percent.

Section Transcode.
Variables (T : tcdr) (cap : nat) (valid : N -> Prop) (Inv : tc_st T -> Prop).
Hypothesis HT : viewable T cap valid Inv.
Hypothesis Hcap : cap < 16.
Hypothesis Hnil : transcode T [] = Ok ([], true).
Variables (text shown : nat -> list N) (fine : nat -> bool).
Hypothesis Hvalid : forall n, Forall valid (text n).
Hypothesis Htr : forall n, transcode T (text n) = Ok (shown n, fine n).
Lemma transcode_all :
  (forall ops x, spec_run shown fine transcode_view_rules ops = Some x -> vrun (transcode_views T cap text) ops = Ok x)
  /\ forall ops k, abandoned shown fine transcode_view_rules ops k -> vrun (transcode_views T cap text) (ops ++ [IncIt k]) = Fault dangling_view.
Proof.
  set (K := transcode_views T cap text). set (Rp := fun n => Rep T cap Inv (text n) (shown n) (fine n)).
  assert (H1 : forall n fl r, flag_ok (fine n) fl r -> exists it fl', k_begin K n fl = Ok (it, fl') /\ Rp n it 0 /\ flag_ok (fine n) fl' (r || Nat.eqb 0 (length (shown n)))).
  { intros n. exact (begin_rep T cap valid Inv HT Hcap (text n) (Hvalid n) Hnil (shown n) (fine n) (Htr n)). }
  assert (H2 : forall n, Rp n (k_end K n) (length (shown n))). { intros n. exact (end_rep T cap Inv (text n) (shown n) (fine n)). }
  assert (H3 : forall n it i fl r, Rp n it i -> i < length (shown n) -> flag_ok (fine n) fl r ->
    exists it' fl', k_next K n it fl = Ok (it', fl') /\ Rp n it' (S i) /\ flag_ok (fine n) fl' (r || Nat.eqb (S i) (length (shown n)))).
  { intros n. exact (next_rep T cap valid Inv HT Hcap (text n) (Hvalid n) (shown n) (fine n) (Htr n)). }
  assert (H4 : forall n it i v, Rp n it i -> nth_error (shown n) i = Some v -> exists it', k_value K n it = Ok (it', v) /\ Rp n it' i).
  { intros n it i v P E. destruct (deref_rep T cap Inv Hcap (text n) (shown n) (fine n) it i v P E) as (it' & p & A & B & W & _). exists it'. split; [|exact B].
    exact (read_at_ok (view_class T cap (text n)) it it' p v A W). }
  assert (H5 : forall n a b i j, Rp n a i -> Rp n b j -> comparable transcode_view_rules (length (shown n)) i j = true -> k_eq K a b = Nat.eqb i j).
  { intros n a b i j A B C. exact (eq_rep T cap Inv Hcap (text n) (shown n) (fine n) a b i j A B C). }
  split.
  - intros ops x. exact (vsim_run K shown fine transcode_view_rules Rp H1 H2 H3 H4 H5 eq_refl eq_refl eq_refl ops x).
  - intros ops k A. exact (proj1 (abandoned_fault K shown fine transcode_view_rules Rp H1 H2 H3 H4 H5 eq_refl eq_refl eq_refl ops k A) eq_refl).
Qed.
End Transcode.

Lemma transcode_kinds T cap bound text shown fine : view_of T cap bound -> (forall n, Forall (fun u => (u < bound)%N) (text n)) -> (forall n, transcode T (text n) = Ok (shown n, fine n)) ->
  (forall ops x, spec_run shown fine transcode_view_rules ops = Some x -> vrun (transcode_views T cap text) ops = Ok x)
  /\ forall ops k, abandoned shown fine transcode_view_rules ops k -> vrun (transcode_views T cap text) (ops ++ [IncIt k]) = Fault dangling_view.
Proof.
  intros W F E. assert (A : forall n, Forall okany (text n)) by (intros n; apply Forall_forall; intros; exact I).
  destruct W; (eapply transcode_all; [|unfold max_output_8, max_output_16, max_output_32, max_output_16_8, max_output_16_32, longest_sequence_8, longest_sequence_16, longest_sequence_32; lia|reflexivity| |exact E]);
   first [apply viewable_8_8|apply viewable_8_16|apply viewable_8_32|apply viewable_16_8|apply viewable_16_16|apply viewable_16_32|apply viewable_32_8|apply viewable_32_16|apply viewable_32_32|exact F|exact A].
Qed.
