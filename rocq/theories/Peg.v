(* Pure PEG parsers and the proof that the rule combinators of the model compute them. *)
From Verif Require Import Base ModelRule.
From Coq Require Import ZifyBool ZifyNat ZifyN.

#[global] Arguments Nat.ltb : simpl never.
Ltac inv H := inversion H; subst; clear H.

(* --- finite sweeps over bytes --------------------------------------------- *)
Definition all_ascii : list ascii := map ascii_of_nat (seq 0 256).
Lemma all_ascii_in c : In c all_ascii.
Proof.
  unfold all_ascii. rewrite in_map_iff. exists (nat_of_ascii c). split.
  - apply ascii_nat_embedding.
  - apply in_seq. pose proof (nat_ascii_bounded c). lia.
Qed.
Lemma sweep (f : ascii -> bool) : forallb f all_ascii = true -> forall c, f c = true.
Proof. intros H c. rewrite forallb_forall in H. apply H, all_ascii_in. Qed.

(* [high c]: a byte that is negative as a signed char and is not EOF *)
Definition high (c : ascii) : bool := (128 <=? code c)%N && (code c <? 255)%N.

Section Peg.
Variable A : Type.
Local Notation acceptors := (acceptors A).
Local Notation matcher := (matcher A).
Local Notation rule := (rule A).

Definition res := option (str * acceptors * str).       (* matched text, acceptors, rest *)
Definition parser := str -> res.

Definition pchr (f : ascii -> bool) : parser := fun s =>
  match s with c :: r => if f c then Some ([c], [], r) else None | [] => None end.
Definition pnot (f : ascii -> bool) : parser := fun s =>
  match s with c :: r => if f c then None else Some ([], [], s) | [] => Some ([], [], s) end.
Definition oseq (o : res) (q : parser) : res :=
  match o with
  | Some (m, a, r) => match q r with Some (m', a', r') => Some (m ++ m', a ++ a', r') | None => None end
  | None => None
  end.
Definition pseq (p q : parser) : parser := fun s => oseq (p s) q.
Definition pact (p : parser) (g : A) : parser := fun s =>
  match p s with Some (m, a, r) => Some (m, a ++ [(g, m)], r) | None => None end.
Definition popt (p : parser) : parser := fun s =>
  match p s with Some x => Some x | None => Some ([], [], s) end.
Definition palt (p q : parser) : parser := fun s =>
  match p s with Some x => Some x | None => q s end.
Fixpoint palts (ps : list parser) : parser := fun s =>
  match ps with [] => None | p :: ps' => match p s with Some x => Some x | None => palts ps' s end end.
Fixpoint prep (n : nat) (p : parser) (s : str) : str * acceptors * nat * str :=
  match n with
  | O => ([], [], O, s)
  | S n' => match p s with
            | None => ([], [], O, s)
            | Some (m, a, r) => let '(m', a', k, r') := prep n' p r in (m ++ m', a ++ a', S k, r')
            end
  end.
Definition pstar (min : nat) (max : option nat) (p : parser) : parser := fun s =>
  let '(m, a, k, r) := prep (match max with Some n => n | None => length s end) p s in
  if Nat.ltb k min then None else Some (m, a, r).

Lemma pseq_assoc p q t s : pseq (pseq p q) t s = pseq p (pseq q t) s.
Proof.
  unfold pseq, oseq. destruct (p s) as [[[m a] r]|]; auto.
  destruct (q r) as [[[m' a'] r']|]; auto.
  destruct (t r') as [[[m2 a2] r2]|]; auto. now rewrite !app_assoc.
Qed.

(* a parser returns a prefix and the corresponding rest *)
Definition wf (p : parser) := forall s m a r, p s = Some (m, a, r) -> s = m ++ r.
(* a parser never succeeds on the empty prefix *)
Definition prog (p : parser) := forall s m a r, p s = Some (m, a, r) -> m <> [].

Lemma wf_chr f : wf (pchr f).
Proof. intros [|c s] m a r; cbn; [discriminate|]. destruct (f c); intros H; inv H; auto. Qed.
Lemma prog_chr f : prog (pchr f).
Proof. intros [|c s] m a r; cbn; [discriminate|]. destruct (f c); intros H; inv H; congruence. Qed.
Lemma wf_not f : wf (pnot f).
Proof. intros [|c s] m a r; cbn; [now intros H; inv H|]. destruct (f c); intros H; inv H; auto. Qed.
Lemma wf_seq p q : wf p -> wf q -> wf (pseq p q).
Proof.
  intros Hp Hq s m a r. unfold pseq, oseq.
  destruct (p s) as [[[m1 a1] r1]|] eqn:E; [|discriminate].
  destruct (q r1) as [[[m2 a2] r2]|] eqn:E2; [|discriminate].
  intros H; inv H. apply Hp in E. apply Hq in E2. subst. now rewrite app_assoc.
Qed.
Lemma prog_seq_l p q : prog p -> prog (pseq p q).
Proof.
  intros Hp s m a r. unfold pseq, oseq.
  destruct (p s) as [[[m1 a1] r1]|] eqn:E; [|discriminate].
  destruct (q r1) as [[[m2 a2] r2]|] eqn:E2; [|discriminate].
  intros H; inv H. apply Hp in E. destruct m1; cbn; congruence.
Qed.
Lemma wf_act p g : wf p -> wf (pact p g).
Proof.
  intros Hp s m a r. unfold pact. destruct (p s) as [[[m1 a1] r1]|] eqn:E; [|discriminate].
  intros H; inv H. eapply Hp; eauto.
Qed.
Lemma prog_act p g : prog p -> prog (pact p g).
Proof.
  intros Hp s m a r. unfold pact. destruct (p s) as [[[m1 a1] r1]|] eqn:E; [|discriminate].
  intros H; inv H. eapply Hp; eauto.
Qed.
Lemma wf_opt p : wf p -> wf (popt p).
Proof.
  intros Hp s m a r. unfold popt. destruct (p s) as [[[m1 a1] r1]|] eqn:E; intros H; inv H; auto.
  eapply Hp; eauto.
Qed.
Lemma wf_alt p q : wf p -> wf q -> wf (palt p q).
Proof.
  intros Hp Hq s m a r. unfold palt. destruct (p s) as [[[m1 a1] r1]|] eqn:E; intros H.
  - inv H; eapply Hp; eauto. - eapply Hq; eauto.
Qed.
Lemma wf_alts ps : Forall wf ps -> wf (palts ps).
Proof.
  induction 1 as [|p ps Hp _ IH]; intros s m a r; cbn; [discriminate|].
  destruct (p s) as [[[m1 a1] r1]|] eqn:E; intros H.
  - inv H; eapply Hp; eauto. - eapply IH; eauto.
Qed.
Lemma prog_alts ps : Forall prog ps -> prog (palts ps).
Proof.
  induction 1 as [|p ps Hp _ IH]; intros s m a r; cbn; [discriminate|].
  destruct (p s) as [[[m1 a1] r1]|] eqn:E; intros H.
  - inv H; eapply Hp; eauto. - eapply IH; eauto.
Qed.
Lemma wf_prep n p : wf p -> forall s m a k r, prep n p s = (m, a, k, r) -> s = m ++ r.
Proof.
  intros Hp. induction n as [|n IH]; cbn; intros s m a k r H; [now inv H|].
  destruct (p s) as [[[m1 a1] r1]|] eqn:E; [|now inv H].
  destruct (prep n p r1) as [[[m2 a2] k2] r2] eqn:E2. inv H.
  apply Hp in E. apply IH in E2. subst. now rewrite app_assoc.
Qed.
Lemma wf_star min max p : wf p -> wf (pstar min max p).
Proof.
  intros Hp s m a r. unfold pstar.
  destruct (prep _ p s) as [[[m1 a1] k1] r1] eqn:E. destruct (Nat.ltb k1 min); intros H; inv H.
  eapply wf_prep; eauto.
Qed.
Lemma prep_count n p : prog p -> forall s m a k r,
  prep n p s = (m, a, k, r) -> k <= length m /\ k <= n.
Proof.
  intros Hp. induction n as [|n IH]; cbn; intros s m a k r H; [inv H; cbn; lia|].
  destruct (p s) as [[[m1 a1] r1]|] eqn:E; [|inv H; cbn; lia].
  destruct (prep n p r1) as [[[m2 a2] k2] r2] eqn:E2. inv H.
  apply IH in E2. apply Hp in E. rewrite app_length. destruct m1; [congruence|]. cbn. lia.
Qed.
Lemma prog_star1 max p : prog p -> prog (pstar 1 max p).
Proof.
  intros Hp s m a r. unfold pstar.
  destruct (prep _ p s) as [[[m1 a1] k1] r1] eqn:E. destruct (Nat.ltb k1 1) eqn:El; intros H; inv H.
  apply prep_count in E; auto. intros ->. cbn in E. lia.
Qed.

(* ------------------------------------------------------------------------- *)
Variable sg : bool.
Variable fuel : nat.

Definition bad {T} (s : str) (c : outcome T) :=
  sg = true /\ Exists (fun c => high c = true) s /\ c = Fault ctype_domain.

Definition proj (o : res) : matched_result A :=
  match o with Some (m, a, _) => Some (m, a) | None => None end.
Definition fits (s : str) := (N.of_nat (length s) < 2 ^ 32)%N /\ length s < fuel.

Definition impl (f : matcher) (p : parser) :=
  wf p /\ forall s, fits s -> f (rule_of s) = Ok (proj (p s)) \/ bad s (f (rule_of s)).

Definition to_rule (o : res) : rule :=
  match o with Some (_, a, r) => mkrule (Some r) a | None => rule_fail end.

(* [chain s c o]: the chain of rule operations c, started on rule{s}, computes o *)
Definition chain (s : str) (c : outcome rule) (o : res) :=
  (forall m a r, o = Some (m, a, r) -> s = m ++ r) /\ (c = Ok (to_rule o) \/ bad s c).

Lemma bad_suffix {T} m r (c : outcome T) : bad r c -> bad (m ++ r) c.
Proof. intros (H1 & H2 & H3). repeat split; auto. apply Exists_app. now right. Qed.
Lemma fits_suffix m r : fits (m ++ r) -> fits r.
Proof. unfold fits. rewrite app_length. lia. Qed.
Lemma skipn_app_exact {T} (a b : list T) : skipn (length a) (a ++ b) = b.
Proof. induction a; cbn; auto. Qed.
Lemma firstn_app_exact {T} (a b : list T) : firstn (length (a ++ b) - length b) (a ++ b) = a.
Proof.
  rewrite app_length. replace (length a + length b - length b) with (length a) by lia.
  induction a; cbn; f_equal; auto.
Qed.
Lemma substr_from_app a b : substr_from (length a) (a ++ b) = Ok b.
Proof.
  unfold substr_from. destruct (Nat.ltb_spec (length (a ++ b)) (length a)) as [H|H].
  - rewrite app_length in H. lia. - now rewrite skipn_app_exact.
Qed.

Lemma impl_ext f p q : (forall s, p s = q s) -> impl f p -> impl f q.
Proof.
  intros E [H1 H2]. split.
  - intros s m a r H. rewrite <- E in H. eauto.
  - intros s Hs. rewrite <- E. auto.
Qed.

Lemma chain_matched s c o : chain s c o ->
  (c >>= matched (rule_of s)) = Ok (proj o) \/ bad s (c >>= matched (rule_of s)).
Proof.
  intros [Hw [-> | (H1 & H2 & ->)]]; [left|right; repeat split; auto].
  destruct o as [[[m a] r]|]; cbn; auto. unfold matched; cbn.
  rewrite (Hw _ _ _ eq_refl).
  destruct (Nat.ltb_spec (length (m ++ r)) (length r)) as [Hl|Hl]; [rewrite app_length in Hl; lia|].
  now rewrite firstn_app_exact.
Qed.

Lemma impl_chain (t : rule -> outcome rule) p :
  wf p -> (forall s, fits s -> chain s (t (rule_of s)) (p s)) ->
  impl (fun r => t r >>= matched r) p.
Proof. intros Hw H. split; auto. intros s Hs. apply chain_matched. auto. Qed.

(* concat_impl on a rule in the middle of a chain *)
Lemma chain_concat_gen s c o f p (acc : option A) : fits s -> chain s c o -> impl f p ->
  chain s (c >>= concat_impl f acc false)
        (oseq o (match acc with None => p | Some g => pact p g end)).
Proof.
  intros Hs [Hw Hc] [Hp Hf]. split.
  - intros m a r H. destruct o as [[[m1 a1] r1]|]; [|discriminate]. cbn in H.
    specialize (Hw _ _ _ eq_refl).
    destruct acc as [g|]; unfold pact in H;
      destruct (p r1) as [[[m2 a2] r2]|] eqn:E; inv H; apply Hp in E; subst; now rewrite app_assoc.
  - destruct Hc as [-> | (H1 & H2 & ->)]; [|right; repeat split; auto].
    destruct o as [[[m a] r]|]; [|left; reflexivity].
    rewrite (Hw _ _ _ eq_refl) in Hs |- *. cbn [bind to_rule]. unfold concat_impl; cbn [tail].
    destruct (Hf r (fits_suffix _ _ Hs)) as [E|E].
    + left. rewrite E. cbn [bind oseq].
      destruct acc as [g|]; unfold pact; destruct (p r) as [[[m2 a2] r2]|] eqn:E2; cbn [proj];
        try reflexivity; apply Hp in E2; subst r; unfold join_rule_m; cbn [tail fst snd accs];
        now rewrite substr_from_app.
    + right. destruct E as (H1 & H2 & ->). repeat split; auto. apply Exists_app; auto.
Qed.

Lemma oseq_nil s q : oseq (Some ([], [], s)) q = q s.
Proof. cbn. destruct (q s) as [[[? ?] ?]|]; auto. Qed.

Lemma chain_start s : chain s (Ok (rule_of s)) (Some ([], [], s)).
Proof. split; [|left; reflexivity]. intros m a r H; inv H; auto. Qed.

Lemma chain_concat s c p f q : fits s -> chain s c (p s) -> impl f q ->
  chain s (c >>= concat f) (pseq p q s).
Proof. intros. now apply (chain_concat_gen s c (p s) f q None). Qed.
Lemma chain_concat0 s f q : fits s -> impl f q -> chain s (Ok (rule_of s) >>= concat f) (q s).
Proof.
  intros. rewrite <- (oseq_nil s q). apply (chain_concat_gen s _ _ f q None); auto using chain_start.
Qed.
Lemma chain_concat_a s c p f q g : fits s -> chain s c (p s) -> impl f q ->
  chain s (c >>= concat_a f g) (pseq p (pact q g) s).
Proof. intros. now apply (chain_concat_gen s c (p s) f q (Some g)). Qed.
Lemma chain_concat_a0 s f q g : fits s -> impl f q ->
  chain s (Ok (rule_of s) >>= concat_a f g) (pact q g s).
Proof.
  intros. rewrite <- (oseq_nil s (pact q g)).
  apply (chain_concat_gen s _ _ f q (Some g)); auto using chain_start.
Qed.

Lemma chain_optional_gen s c o f p : fits s -> chain s c o -> impl f p ->
  chain s (c >>= optional f) (oseq o (popt p)).
Proof.
  intros Hs [Hw Hc] [Hp Hf]. split.
  - intros m a r H. destruct o as [[[m1 a1] r1]|]; [|discriminate]. cbn in H.
    specialize (Hw _ _ _ eq_refl). unfold popt in H.
    destruct (p r1) as [[[m2 a2] r2]|] eqn:E; inv H.
    + apply Hp in E; subst; now rewrite app_assoc.
    + now rewrite app_nil_r.
  - destruct Hc as [-> | (H1 & H2 & ->)]; [|right; repeat split; auto].
    destruct o as [[[m a] r]|]; [|left; reflexivity].
    rewrite (Hw _ _ _ eq_refl) in Hs |- *. cbn [bind to_rule]. unfold optional, optional_impl, concat_impl; cbn [tail rule_of].
    fold (@rule_of A r).
    destruct (Hf r (fits_suffix _ _ Hs)) as [E|E].
    + left. rewrite E. cbn [bind oseq]. unfold popt.
      destruct (p r) as [[[m2 a2] r2]|] eqn:E2; cbn [proj].
      * apply Hp in E2. subst r. unfold join_rule_m. cbn [tail fst snd accs].
        cbn [rule_of tail accs]. rewrite substr_from_app. reflexivity.
      * cbn. unfold join_rule_r; cbn. now rewrite app_nil_r.
    + right. destruct E as (H1 & H2 & ->). repeat split; auto. apply Exists_app; auto.
Qed.
Lemma chain_optional s c p f q : fits s -> chain s c (p s) -> impl f q ->
  chain s (c >>= optional f) (pseq p (popt q) s).
Proof. intros. now apply chain_optional_gen. Qed.
Lemma chain_optional0 s f q : fits s -> impl f q ->
  chain s (Ok (rule_of s) >>= optional f) (popt q s).
Proof.
  intros. rewrite <- (oseq_nil s (popt q)). apply chain_optional_gen; auto using chain_start.
Qed.

Lemma chain_alternative0 s fs ps : fits s -> Forall2 impl fs ps ->
  chain s (Ok (rule_of s) >>= alternative fs) (palts ps s).
Proof.
  intros Hs H. induction H as [|f p fs ps [Hp Hf] _ IH].
  - split; [discriminate|]. left; reflexivity.
  - destruct IH as [Hw IH]. split.
    + intros m a r. cbn. destruct (p s) as [[[m1 a1] r1]|] eqn:E; intros H; [inv H|]; eauto.
    + cbn [bind alternative tail rule_of palts] in *. fold (@rule_of A s) in *.
      destruct (Hf s Hs) as [E|E].
      * rewrite E. cbn [bind]. destruct (p s) as [[[m1 a1] r1]|] eqn:E2; cbn [proj]; auto.
        left. apply Hp in E2. subst s. unfold join_rule_m. cbn [tail fst snd accs rule_of].
        now rewrite substr_from_app.
      * right. destruct E as (H1 & H2 & ->). repeat split; auto.
Qed.

(* star *)
Definition max_ok (maxN : N) (max : option nat) :=
  match max with
  | Some n => maxN = N.of_nat n /\ (maxN < uint_max)%N
  | None => maxN = uint_max
  end.

Lemma star_loop_spec f p (maxN : N) max : impl f p -> prog p -> max_ok maxN max ->
  forall fu s len acc (cnt : nat),
  (N.of_nat (cnt + length s) < 2 ^ 32)%N -> length s < fu -> fits s ->
  (match max with Some n => cnt <= n | None => True end) ->
  let '(m, a, k, r) := prep (match max with Some n => n - cnt | None => length s end) p s in
  (exists cnt', star_loop fu f maxN s len acc (N.of_nat cnt)
                = Ok (len + length m, acc ++ a, N.of_nat cnt')
    /\ cnt + k <= cnt' /\ (cnt' <= cnt + k \/ match max with Some n => n <= cnt + k | None => False end))
  \/ bad s (star_loop fu f maxN s len acc (N.of_nat cnt)).
Proof.
  intros [Hp Hf] Hprog Hmax. induction fu as [|fu IH]; intros s len acc cnt Hc Hfu Hs Hle; [lia|].
  cbn [star_loop].
  destruct (Hf s Hs) as [E|E].
  2:{ destruct (prep _ p s) as [[[m a] k] r]. right.
      destruct E as (H1 & H2 & ->). repeat split; auto. }
  rewrite E. cbn [bind].
  destruct (p s) as [[[m1 a1] r1]|] eqn:Ep; cbn [proj].
  2:{ destruct (prep _ p s) as [[[m a] k] r] eqn:Er.
      assert (Hz : m = [] /\ a = [] /\ k = 0).
      { destruct max as [n|]; [destruct (n - cnt)|destruct (length s)]; cbn in Er;
          try rewrite Ep in Er; inv Er; auto. }
      destruct Hz as (-> & -> & ->). left. exists cnt. cbn.
      rewrite app_nil_r, Nat.add_0_r. split; [reflexivity|]. lia. }
  pose proof (Hprog _ _ _ _ Ep) as Hne. pose proof (Hp _ _ _ _ Ep) as ->.
  rewrite app_length in *. assert (1 <= length m1) by (destruct m1; [congruence|cbn; lia]).
  assert (Hincr : uint_incr (N.of_nat cnt) = N.of_nat (S cnt)).
  { unfold uint_incr. rewrite N.mod_small; lia. }
  rewrite Hincr.
  assert (Hnlt : Nat.ltb (length m1 + length r1) (length m1) = false) by (apply Nat.ltb_ge; lia).
  destruct (maxN <? N.of_nat (S cnt))%N eqn:Egt.
  - (* over the maximum *)
    destruct max as [n|]; cbn in Hmax; [|unfold uint_max in *; lia].
    assert (n = cnt) by lia. subst n. rewrite Nat.sub_diag. cbn [prep].
    left. exists (S cnt). cbn. rewrite app_nil_r, Nat.add_0_r.
    split; [reflexivity|]. lia.
  - rewrite Hnlt, skipn_app_exact.
    assert (Hsplit : exists j, (match max with Some n => n - cnt | None => length m1 + length r1 end) = S j
              /\ forall m a k r, prep j p r1 = (m,a,k,r) ->
                 prep (match max with Some n => n - S cnt | None => length r1 end) p r1 = (m,a,k,r)).
    { destruct max as [n|]; cbn in Hmax.
      - exists (n - S cnt). split; [lia|auto].
      - exists (length m1 + length r1 - 1). split; [lia|]. intros m a k r Hr.
        assert (Hmono : forall j i q m a k r, prep j p q = (m,a,k,r) -> length q <= i <= j ->
                        prep i p q = (m,a,k,r)).
        { clear -Hp Hprog. induction j as [|j IHj]; intros i q m a k r H Hi.
          - replace i with 0 by lia. auto.
          - destruct i as [|i].
            + destruct q; cbn in Hi; [|lia]. cbn in H |- *.
              destruct (p []) as [[[m1 a1] r1]|] eqn:E; [|auto].
              exfalso. eapply Hprog; eauto. apply Hp in E. now destruct m1.
            + cbn in H |- *. destruct (p q) as [[[m1 a1] r1]|] eqn:E; [|auto].
              destruct (prep j p r1) as [[[m2 a2] k2] r2] eqn:E2.
              rewrite (IHj i r1 _ _ _ _ E2); auto.
              pose proof (Hprog _ _ _ _ E). apply Hp in E. subst q. rewrite app_length in Hi.
              destruct m1; [congruence|cbn in Hi; lia]. }
        apply (Hmono _ _ _ _ _ _ _ Hr). lia. }
    destruct Hsplit as (j & Hj & Hprep). rewrite Hj. cbn [prep]. rewrite Ep.
    destruct (prep j p r1) as [[[m2 a2] k2] r2] eqn:E2. specialize (Hprep _ _ _ _ eq_refl).
    specialize (IH r1 (len + length m1) (acc ++ a1) (S cnt)).
    rewrite Hprep in IH.
    destruct IH as [(cnt' & He & Hk)|Hbad].
    + lia.
    + lia.
    + eapply fits_suffix; eauto.
    + destruct max; auto. cbn in Hmax. lia.
    + left. exists cnt'. rewrite He, app_length, app_assoc, Nat.add_assoc. split; [reflexivity|].
      destruct max; lia.
    + right. apply bad_suffix. exact Hbad.
Qed.

Definition min_ok (minN : N) (min : nat) (max : option nat) :=
  minN = N.of_nat min /\ match max with Some n => min <= n | None => True end.

Lemma chain_star_gen s c o f p minN maxN min max :
  fits s -> chain s c o -> impl f p -> prog p -> max_ok maxN max -> min_ok minN min max ->
  chain s (c >>= star fuel f minN maxN) (oseq o (pstar min max p)).
Proof.
  intros Hs [Hw Hc] Hi Hprog Hmax [Hmin Hmm]. pose proof Hi as [Hp Hf]. split.
  - intros m a r H. destruct o as [[[m1 a1] r1]|]; [|discriminate]. cbn in H.
    specialize (Hw _ _ _ eq_refl).
    destruct (pstar min max p r1) as [[[m2 a2] r2]|] eqn:E; inv H.
    apply (wf_star min max p Hp) in E; subst; now rewrite app_assoc.
  - destruct Hc as [-> | (H1 & H2 & ->)]; [|right; repeat split; auto].
    destruct o as [[[m a] r]|]; [|left; reflexivity].
    rewrite (Hw _ _ _ eq_refl) in Hs |- *. cbn [bind to_rule oseq]. unfold star; cbn [tail accs].
    unfold pstar.
    pose proof (fits_suffix _ _ Hs) as Hr.
    pose proof (star_loop_spec f p maxN max Hi Hprog Hmax fuel r 0 a 0) as Hl.
    cbn [Nat.add] in Hl. rewrite ?Nat.sub_0_r in Hl.
    replace (match max with Some n => n - 0 | None => length r end)
      with (match max with Some n => n | None => length r end) in Hl
      by (destruct max; lia).
    destruct (prep _ p r) as [[[m2 a2] k2] r2] eqn:Er.
    destruct Hl as [(cnt' & He & Hk)|Hb]; try (destruct Hr; assumption || (destruct max; lia)).
    + exact Hr.
    + left. change 0%N with (N.of_nat 0). rewrite He. cbn [bind].
      assert (Hcmp : (N.of_nat cnt' <? minN)%N = Nat.ltb k2 min).
      { subst minN. destruct max as [n|]; lia. }
      rewrite Hcmp. destruct (Nat.ltb k2 min); [reflexivity|].
      pose proof (wf_prep _ _ Hp _ _ _ _ _ Er) as ->. now rewrite substr_from_app.
    + right. change 0%N with (N.of_nat 0). destruct Hb as (H1 & H2 & ->). repeat split; auto.
      apply Exists_app; auto.
Qed.
Lemma chain_star s c q f p minN maxN min max :
  fits s -> chain s c (q s) -> impl f p -> prog p -> max_ok maxN max -> min_ok minN min max ->
  chain s (c >>= star fuel f minN maxN) (pseq q (pstar min max p) s).
Proof. intros. now apply chain_star_gen. Qed.
Lemma chain_star0 s f p minN maxN min max :
  fits s -> impl f p -> prog p -> max_ok maxN max -> min_ok minN min max ->
  chain s (Ok (rule_of s) >>= star fuel f minN maxN) (pstar min max p s).
Proof.
  intros. rewrite <- (oseq_nil s (pstar min max p)). apply chain_star_gen; auto using chain_start.
Qed.

(* single_char *)
Lemma impl_chr (f : ascii -> outcome bool) (g : ascii -> bool) :
  (forall c, f c = Ok (g c) \/ (sg = true /\ high c = true /\ f c = Fault ctype_domain)) ->
  impl (single_char_p f) (pchr g).
Proof.
  intros H. split; [apply wf_chr|]. intros [|c s] _; [left; reflexivity|]. cbn.
  destruct (H c) as [->|(H1 & H2 & ->)].
  - left. cbn. now destruct (g c).
  - right. repeat split; auto.
Qed.
End Peg.
