(* Where the iterators of a transcode view are in the input *)
From Verif Require Import Base ModelIcu SpecIcu IcuUtf8 IcuRead8 IcuEnc IcuView IcuViewAll IcuProps ModelHist SpecHist HistFacts HistView SpecBase.
From Coq Require Import Lia.
Local Open Scope list_scope.

Lemma view_at_is T cap base i : view_at T cap base i = nth_it T cap base i.
Proof. induction i as [|i IH]; [reflexivity|]. cbn [view_at nth_it]. rewrite IH. reflexivity. Qed.

Lemma firstn_S_nth {A} (l : list A) n u : nth_error l n = Some u -> firstn (S n) l = firstn n l ++ [u].
Proof. revert n; induction l as [|x l IH]; intros [|n] H; cbn in *; try discriminate; [congruence|]. f_equal. now apply IH. Qed.
Lemma writes_fun T l k n m : writes T l k n -> writes T l k m -> n = m.
Proof. intros (s & w & E & <-) (s' & w' & E' & <-). rewrite E in E'. congruence. Qed.
Lemma feed_mono T l k k' s w s' w' : (k <= k')%nat -> feed T (tc_init T) (firstn k l) = Ok (s, w) -> feed T (tc_init T) (firstn k' l) = Ok (s', w') -> exists v, w' = w ++ v.
Proof.
  intros L E E'. replace (firstn k' l) with (firstn k l ++ skipn k (firstn k' l)) in E'.
  2: { rewrite <- (firstn_skipn k (firstn k' l)) at 2. rewrite firstn_firstn, Nat.min_l by lia. reflexivity. }
  rewrite feed_app, E in E'. cbn [bind] in E'. destruct (feed T s (skipn k (firstn k' l))) as [[s2 w2]| |]; try discriminate. cbn [bind] in E'. injection E' as <- <-. eauto.
Qed.
Lemma writes_mono T l k k' n n' : (k <= k')%nat -> writes T l k n -> writes T l k' n' -> (n <= n')%nat.
Proof. intros L (s & w & E & <-) (s' & w' & E' & <-). destruct (feed_mono _ _ _ _ _ _ _ _ L E E') as [v ->]. rewrite app_length. lia. Qed.

Lemma belongs_unique T l i b b' : belongs T l i b -> belongs T l i b' -> b = b'.
Proof.
  intros (L & c & W & C & P & Q) (L' & c' & W' & C' & P' & Q').
  assert (c = c') as <- by (pose proof (Q _ _ L' W' C'); pose proof (Q' _ _ L W C); lia).
  destruct (Nat.lt_trichotomy b b') as [H|[H|H]]; [|exact H|].
  - specialize (P' _ _ H W). lia.
  - specialize (P _ _ H W'). lia.
Qed.

Lemma stands_unique T base out i b b' : stands T base out i b -> stands T base out i b' -> b = b'.
Proof. intros [[L B]|[-> ->]] [[L' B']|[E ->]]; try lia. now apply (belongs_unique T base i). Qed.

Section B.
Variables (T : tcdr) (cap : nat) (valid : N -> Prop) (Inv : tc_st T -> Prop).
Hypothesis HT : viewable T cap valid Inv.
Hypothesis Hcap : (cap < 16)%nat.
Variable base : list N.
Hypothesis Hbase : Forall valid base.
Hypothesis Hnil : transcode T [] = Ok ([], true).
Variables (out : list N) (ok : bool).
Hypothesis Htr : transcode T base = Ok (out, ok).
Notation after k s w := (feed T (tc_init T) (firstn k base) = Ok (s, w)).

Lemma loop_writes fuel : forall next tc w0 n' t' o, after next tc w0 -> (next < length base)%nat -> fill_loop T cap base fuel next tc [] = Ok (n', t', o) ->
  (next < n' <= length base)%nat /\ after n' t' (w0 ++ o) /\ (forall k, (next <= k < n')%nat -> exists s, after k s w0) /\ (o = [] -> n' = length base).
Proof.
  induction fuel as [|fuel IH]; intros next tc w0 n' t' o A L E.
  - cbn [fill_loop] in E. destruct (nth_error base next) as [u|] eqn:Hu; [discriminate|]. apply nth_error_None in Hu. lia.
  - cbn [fill_loop] in E. destruct (nth_error base next) as [u|] eqn:Hu; [|apply nth_error_None in Hu; lia].
    destruct (tc_op T tc u) as [[s1 w]| |] eqn:Eo; cbn [bind app] in E; try discriminate. destruct (Nat.ltb cap (length w)); [discriminate|].
    assert (A1 : after (S next) s1 (w0 ++ w)). { rewrite (firstn_S_nth _ _ _ Hu), feed_app, A. cbn [bind feed]. rewrite Eo. cbn [bind]. now rewrite app_nil_r. }
    destruct w as [|x w].
    + rewrite app_nil_r in A1. destruct (Nat.eq_dec (S next) (length base)) as [El|Nl].
      * assert (Z : nth_error base (S next) = None) by (apply nth_error_None; lia).
        assert (F : fill_loop T cap base fuel (S next) s1 [] = Ok (S next, s1, [])) by (destruct fuel; cbn [fill_loop]; rewrite Z; reflexivity).
        rewrite F in E. injection E as <- <- <-. rewrite app_nil_r. split; [lia|]. split; [exact A1|]. split; [|auto]. intros k Hk. assert (k = next) as -> by lia. eauto.
      * destruct (IH _ _ _ _ _ _ A1 ltac:(lia) E) as (B1 & B2 & B3 & B4). split; [lia|]. split; [exact B2|]. split; [|exact B4].
        intros k Hk. destruct (Nat.eq_dec k next) as [->|]; [eauto|]. apply B3. lia.
    + assert (F : fill_loop T cap base fuel (S next) s1 (x :: w) = Ok (S next, s1, x :: w)) by (destruct fuel; reflexivity).
      rewrite F in E. injection E as <- <- <-. split; [lia|]. split; [exact A1|]. split; [|discriminate]. intros k Hk. assert (k = next) as -> by lia. eauto.
Qed.

(* the k-th unit of the buffer is shown; w0 was written before the buffer was filled *)
Definition stand (it : vit T) (i : nat) : Prop := exists w0 s0 k,
  after (v_current T it) s0 w0 /\ i = (length w0 + k)%nat /\ v_first T it = N.of_nat k /\ (k < length (v_out T it) < 16)%nat /\ v_last T it = N.of_nat (length (v_out T it))
  /\ (v_current T it < v_next T it <= length base)%nat /\ (forall j, (v_current T it <= j < v_next T it)%nat -> exists s, after j s w0)
  /\ ((v_next T it < length base)%nat -> after (v_next T it) (v_tc T it) (w0 ++ v_out T it))
  /\ (forall j n, (j < v_current T it)%nat -> writes T base j n -> (n < length w0)%nat).

Lemma fill_stand it fl it' fl' s0 w0 : v_next T it = v_current T it' -> (v_next T it < length base)%nat -> after (v_next T it) (v_tc T it) w0 -> s0 = v_tc T it ->
  fill T cap base (length base) it fl = Ok (it', fl') -> (0 < length (v_out T it') < 16)%nat ->
  (forall j n, (j < v_next T it)%nat -> writes T base j n -> (n < length w0)%nat) -> stand it' (length w0).
Proof.
  intros Hc Hn A -> E Lo P. unfold fill in E. destruct (negb _); [discriminate|].
  destruct (fill_loop T cap base (length base) (v_next T it) (v_tc T it) []) as [[[n' t'] o]| |] eqn:EF; cbn [bind] in E; try discriminate.
  destruct (loop_writes _ _ _ _ _ _ _ A Hn EF) as (B1 & B2 & B3 & B4).
  destruct (Nat.eqb_spec n' (length base)) as [El|Nl].
  - destruct (tc_end T t') as [[t2 w2]| |] eqn:Et; cbn [bind] in E; try discriminate. destruct (Nat.ltb_spec cap (length (o ++ w2))) as [|Lc]; [discriminate|]. injection E as <- <-.
    cbn [v_current v_next v_out v_tc v_first v_last] in *. exists w0, (v_tc T it), 0%nat. cbn [v_current v_next v_out v_tc v_first v_last].
    rewrite (small_mod cap) by lia. repeat split; auto; try lia.
  - cbn [bind] in E. destruct (Nat.ltb_spec cap (length o)) as [|Lc]; [discriminate|]. injection E as <- <-.
    cbn [v_current v_next v_out v_tc v_first v_last] in *. exists w0, (v_tc T it), 0%nat. cbn [v_current v_next v_out v_tc v_first v_last].
    rewrite (small_mod cap) by lia. repeat split; auto; try lia.
Qed.
Lemma at_stand i : (i < length out)%nat -> exists it, nth_it T cap base i = Ok it /\ Rep T cap Inv base out ok it i /\ stand it i.
Proof.
  induction i as [|i IH]; intros L.
  - destruct (begin_rep T cap valid Inv HT Hcap base Hbase Hnil out ok Htr true false) as (it & fl & E & R & _); [split; auto; discriminate|].
    exists it. cbn [nth_it]. rewrite E. split; [reflexivity|]. split; [exact R|].
    destruct R as [(_ & _ & k & rest & Hf & Hl & Hk & Hc & Hr & Hs)|[Z _]]; [|lia].
    unfold vbegin in E. destruct (Nat.eqb_spec 0 (length base)) as [Z|Z].
    { exfalso. lia. }
    assert (Cu : v_current T it = 0%nat).
    { clear - E. unfold fill in E. cbn [negb v_first v_last] in E. change (negb (0 =? 0)%N) with false in E. cbv iota in E.
      destruct (fill_loop _ _ _ _ _ _ _) as [[[n t] o]| |]; cbn [bind] in E; try discriminate. destruct (Nat.eqb n (length base)).
      - destruct (tc_end T t) as [[? ?]| |]; cbn [bind] in E; try discriminate. destruct (Nat.ltb _ _); [discriminate|]. injection E as <- <-. reflexivity.
      - cbn [bind] in E. destruct (Nat.ltb _ _); [discriminate|]. injection E as <- <-. reflexivity. }
    eapply (fill_stand (Vit T 0 0 [] (tc_init T) 0 0) true it fl _ []); cbn [v_next v_tc]; try exact E; auto; try lia.
  - destruct (IH ltac:(lia)) as (it & N & R & S). destruct (next_rep T cap valid Inv HT Hcap base Hbase out ok Htr it i true false R ltac:(lia)) as (it' & fl & E & R' & _); [split; auto; discriminate|].
    exists it'. cbn [nth_it]. rewrite N. cbn [bind]. rewrite E. split; [reflexivity|]. split; [exact R'|].
    destruct R' as [(_ & _ & k' & rest & Hf & Hl & Hk & Hc & Hr & Hs)|[Z _]]; [|lia].
    destruct S as (w0 & s0 & k & A & Ei & F & K & La & Cn & J & Nx & P).
    unfold vnext in E. assert (NE : (v_first T it =? v_last T it)%N = false) by (apply N.eqb_neq; lia). rewrite NE in E. cbn [v_first v_last] in E.
    assert (Hf' : ((v_first T it + 1) mod 2 ^ 4)%N = N.of_nat (S k)).
    { rewrite F. replace (N.of_nat k + 1)%N with (N.of_nat (S k)) by lia. apply (small_mod cap); lia. }
    rewrite Hf', La in E. set (it0 := Vit T (v_current T it) (v_next T it) (v_out T it) (v_tc T it) (N.of_nat (S k)) (N.of_nat (length (v_out T it)))) in *.
    destruct (N.eqb_spec (N.of_nat (S k)) (N.of_nat (length (v_out T it)))) as [El|Nl].
    + assert (Cu : v_current T it' = v_next T it).
      { clear - E. unfold fill in E. destruct (negb _); [discriminate|].
        destruct (fill_loop _ _ _ _ _ _ _) as [[[n t] o]| |]; cbn [bind] in E; try discriminate. destruct (Nat.eqb n (length base)).
        - destruct (tc_end T t) as [[? ?]| |]; cbn [bind] in E; try discriminate. destruct (Nat.ltb _ _); [discriminate|]. injection E as <- <-. reflexivity.
        - cbn [bind] in E. destruct (Nat.ltb _ _); [discriminate|]. injection E as <- <-. reflexivity. }
      assert (Ln : (v_next T it < length base)%nat) by lia. specialize (Nx Ln).
      replace (S i) with (length (w0 ++ v_out T it)) by (rewrite app_length; lia).
      eapply (fill_stand it0 true it' fl _ (w0 ++ v_out T it)); cbn [v_next v_tc it0]; try exact E; auto; try lia.
      intros j n Hj W. destruct (Nat.lt_ge_cases j (v_current T it)) as [Lj|Gj].
      * specialize (P _ _ Lj W). rewrite app_length. lia.
      * destruct (J j ltac:(lia)) as [s As]. assert (n = length w0) as ->. { apply (writes_fun T base j); [exact W|]. exists s, w0. auto. } rewrite app_length. lia.
    + injection E as <- <-. exists w0, s0, (S k). cbn [it0 v_current v_next v_out v_tc v_first v_last] in *. repeat split; auto; try lia.
Qed.
Lemma stand_belongs it i : stand it i -> belongs T base i (v_current T it).
Proof.
  intros (w0 & s0 & k & A & Ei & F & K & La & Cn & J & Nx & P). split; [lia|]. exists (length w0). split; [exists s0, w0; auto|]. split; [lia|]. split; [exact P|].
  intros j n Lj W Ln. destruct (Nat.lt_ge_cases j (v_next T it)) as [Hj|Hj].
  - destruct (Nat.lt_ge_cases j (v_current T it)) as [Lc|Gc]; [specialize (P _ _ Lc W); lia|].
    destruct (J j ltac:(lia)) as [s As]. assert (n = length w0) as ->; [|lia]. apply (writes_fun T base j); [exact W|]. exists s, w0. auto.
  - assert (Lv : (v_next T it < length base)%nat) by lia. specialize (Nx Lv).
    assert (G : (length (w0 ++ v_out T it) <= n)%nat). { apply (writes_mono T base (v_next T it) j); [exact Hj| |exact W]. exists (v_tc T it), (w0 ++ v_out T it). auto. }
    rewrite app_length in G. lia.
Qed.
Lemma rep_stands it i : Rep T cap Inv base out ok it i -> stands T base out i (v_current T it).
Proof.
  intros [(L & N & In)|[-> C]]; [|right; auto]. left. split; [exact L|]. destruct (at_stand i L) as (it1 & N1 & _ & S). rewrite N in N1. injection N1 as <-. now apply stand_belongs.
Qed.
Lemma eq_stands equal a b i j : (forall i j, (i <= length out)%nat -> (j <= length out)%nat -> (equal i j = true <-> exists p, stands T base out i p /\ stands T base out j p)) ->
  Rep T cap Inv base out ok a i -> Rep T cap Inv base out ok b j -> ic_eq (view_class T cap base) a b = equal i j.
Proof.
  intros H A B. pose proof (rep_stands _ _ A) as Sa. pose proof (rep_stands _ _ B) as Sb.
  assert (Li : (i <= length out)%nat) by (destruct Sa as [[? _]|[? _]]; lia). assert (Lj : (j <= length out)%nat) by (destruct Sb as [[? _]|[? _]]; lia).
  specialize (H i j Li Lj). cbn [ic_eq view_class]. destruct (equal i j).
  - destruct (proj1 H eq_refl) as (p & Pi & Pj). rewrite (stands_unique _ _ _ _ _ _ Sa Pi), (stands_unique _ _ _ _ _ _ Sb Pj). apply Nat.eqb_refl.
  - apply Nat.eqb_neq. intros E. enough (false = true) by discriminate. apply H. exists (v_current T a). split; [exact Sa|rewrite E; exact Sb].
Qed.
Lemma run_as equal ops x : (forall i j, (i <= length out)%nat -> (j <= length out)%nat -> (equal i j = true <-> exists p, stands T base out i p /\ stands T base out j p)) ->
  cursor_run_as out ok equal ops = Some x -> run (view_class T cap base) ops = Ok x.
Proof.
  intros H. unfold cursor_run_as, run.
  assert (G : forall ops m c x, sim (view_class T cap base) out ok (Rep T cap Inv base out ok) m c -> cursor_steps_as out ok equal ops c = Some x -> steps (view_class T cap base) ops m = Ok x).
  { clear ops x. induction ops as [|o ops IH]; intros m c x S E; cbn [cursor_steps_as steps] in *; [congruence|].
    destruct (cursor_step_as out ok equal o c) as [[c' y]|] eqn:Es; [|discriminate].
    destruct (cursor_steps_as out ok equal ops c') as [z|] eqn:Ez; [|discriminate]. injection E as <-.
    assert (St : exists m', step (view_class T cap base) o m = Ok (m', y) /\ sim (view_class T cap base) out ok (Rep T cap Inv base out ok) m' c').
    { assert (Other : cursor_step out ok (fun _ _ => false) o c = Some (c', y) -> exists m', step (view_class T cap base) o m = Ok (m', y) /\ sim (view_class T cap base) out ok (Rep T cap Inv base out ok) m' c').
      { apply (sim_step (view_class T cap base) out ok (fun _ _ => false) (Rep T cap Inv base out ok)).
        - exact (begin_rep T cap valid Inv HT Hcap base Hbase Hnil out ok Htr).
        - exact (end_rep T cap Inv base out ok).
        - exact (next_rep T cap valid Inv HT Hcap base Hbase out ok Htr).
        - exact (deref_rep T cap Inv Hcap base out ok).
        - discriminate.
        - exact S. }
      destruct o; try exact (Other Es). cbn [cursor_step_as] in Es.
      destruct (cursor c k) as [i|] eqn:Ek; [|discriminate]. destruct (cursor c j) as [i'|] eqn:Ej; [|discriminate]. injection Es as <- <-.
      destruct (sim_object _ _ _ _ m c k i S Ek) as (it & A & _ & _ & P). destruct (sim_object _ _ _ _ m c j i' S Ej) as (it' & A' & _ & _ & P').
      exists m. cbn [step]. rewrite A, A'. cbn [bind]. rewrite (eq_stands equal it it' i i' H P P'). auto. }
    destruct St as (m' & -> & S'). cbn [bind]. rewrite (IH _ _ _ S' Ez). reflexivity. }
  apply G. split; [constructor|]. split; [constructor|]. split; [reflexivity|discriminate].
Qed.
End B.
