(* The percent decoding iterators and pctencode over a source that throws *)
From Verif Require Import Base ModelPct ModelHist ModelSrcThrow SpecPct PctFacts HistPct SrcThrowFacts.
Local Open Scope list_scope.

Section P.
Variables (fails : nat -> bool) (s : str).
Lemma read_cases k i c : char_at s i = Ok c -> read_x fails s k i = Ok (Done (S k) c) \/ (fails k = true /\ read_x fails s k i = Ok (Threw (S k) tt)).
Proof. intros H. unfold read_x. destruct (fails k); [right|left; rewrite H]; auto. Qed.
Lemma digits_cases k pos h l : char_at s (pos + 1) = Ok h -> char_at s (pos + 2) = Ok l ->
  digits_x fails s k pos = Ok (Done (S (S k)) (hex2dec h, hex2dec l)) \/ exists k', at_fault fails k k' /\ digits_x fails s k pos = Ok (Threw k' tt).
Proof.
  intros H L. unfold digits_x. destruct (read_cases k _ _ H) as [->|[F ->]]; cbn [bind].
  - destruct (read_cases (S k) _ _ L) as [->|[F ->]]; cbn [bind]; [left; reflexivity|]. right. exists (S (S k)). split; [|reflexivity].
    apply (at_fault_le _ _ (S k)); [lia|apply at_fault_here; exact F].
  - right. exists (S k). split; [apply at_fault_here; exact F|reflexivity].
Qed.
Lemma char_at_nth pos d : pos < length s -> char_at s pos = Ok (nth 0 (skipn pos s) d).
Proof.
  intros H. unfold char_at. destruct (nth_error s pos) as [c|] eqn:E; [|apply nth_error_None in E; lia].
  rewrite <- (firstn_skipn pos s) in E. rewrite nth_error_app2 in E by (rewrite firstn_length; lia).
  rewrite firstn_length, Nat.min_l, Nat.sub_diag in E by lia. destruct (skipn pos s); cbn in *; congruence.
Qed.
Lemma char_at_k pos k d : pos + k < length s -> char_at s (pos + k) = Ok (nth k (skipn pos s) d).
Proof.
  intros H. rewrite (char_at_nth (pos + k) d) by exact H. rewrite skipn_add. f_equal.
  assert (L : k < length (skipn pos s)) by (rewrite skipn_length; lia).
  destruct (skipn k (skipn pos s)) as [|c r] eqn:E; [apply (f_equal (@length _)) in E; rewrite skipn_length in E; cbn in E; lia|].
  cbn [nth]. symmetry. rewrite <- (firstn_skipn k (skipn pos s)), E. rewrite app_nth2; rewrite firstn_length, Nat.min_l by lia; [|lia]. rewrite Nat.sub_diag. reflexivity.
Qed.
Lemma deref_cases k it b : i_pos it <= length s -> deref (skipn (i_pos it) s) = Ok b ->
  (exists k' it', pderef_x fails s k it = Ok (Done k' (it', b)) /\ k <= k' /\ i_pos it' = i_pos it)
  \/ (exists k', at_fault fails k k' /\ pderef_x fails s k it = Ok (Threw k' it)).
Proof.
  intros Hp H. unfold deref in H. unfold pderef_x. pose proof (skipn_length (i_pos it) s) as Ls.
  destruct (skipn (i_pos it) s) as [|c r] eqn:Sk; [discriminate|]. rewrite <- Sk in Ls. cbn [length] in *.
  assert (Lp : i_pos it < length s). { rewrite Sk in Ls. cbn in Ls. lia. }
  pose proof (char_at_nth (i_pos it) c Lp) as C0. rewrite Sk in C0. cbn [nth] in C0.
  destruct (read_cases k _ _ C0) as [->|[F ->]]; cbn [bind]; [|right; exists (S k); split; [apply at_fault_here; exact F|reflexivity]].
  rewrite Sk in Ls. cbn [length] in Ls.
  assert (Eb : (N.of_nat (S (length r)) <? 3)%N = (length s - i_pos it <? 3)%nat).
  { rewrite <- Ls. destruct (N.ltb_spec (N.of_nat (S (length r))) 3), (Nat.ltb_spec (S (length r)) 3); try reflexivity; lia. }
  rewrite Eb in H. destruct (negb (Ascii.eqb c "%") || (length s - i_pos it <? 3)%nat) eqn:Q.
  - injection H as <-. left. exists (S k), it. split; [reflexivity|]. split; [lia|reflexivity].
  - apply orb_false_iff in Q. destruct Q as [_ Q]. apply Nat.ltb_ge in Q.
    pose proof (char_at_k (i_pos it) 1 c ltac:(lia)) as C1. pose proof (char_at_k (i_pos it) 2 c ltac:(lia)) as C2. rewrite Sk in C1, C2.
    destruct (digits_cases (S k) _ _ _ C1 C2) as [->|(k' & L & ->)]; cbn [bind].
    + destruct (either_bad _ _).
      * injection H as <-. left. do 2 eexists. split; [reflexivity|]. split; [lia|reflexivity].
      * injection H as <-. left. do 2 eexists. split; [reflexivity|]. split; [lia|reflexivity].
    + right. exists k'. split; [|reflexivity]. apply (at_fault_le _ _ (S k)); [lia|exact L].
Qed.
Lemma incr_cases k it rest : i_pos it <= length s -> increment (skipn (i_pos it) s) = Ok rest ->
  (exists k' it', pnext_x fails s k it = Ok (Done k' it') /\ k <= k' /\ skipn (i_pos it') s = rest /\ i_pos it' <= length s)
  \/ (exists k', at_fault fails k k' /\ pnext_x fails s k it = Ok (Threw k' it)).
Proof.
  intros Hp H. unfold increment in H. unfold pnext_x, increment_x. pose proof (skipn_length (i_pos it) s) as Ls.
  destruct (skipn (i_pos it) s) as [|c r] eqn:Sk; [discriminate|]. cbn [length] in *.
  assert (Lp : i_pos it < length s) by lia.
  destruct (Nat.eqb_spec (length s - i_pos it) 0) as [|_]; [lia|].
  assert (Eb : (3 <=? N.of_nat (S (length r)))%N = (3 <=? length s - i_pos it)%nat).
  { rewrite <- Ls. destruct (N.leb_spec 3 (N.of_nat (S (length r)))), (Nat.leb_spec 3 (S (length r))); try reflexivity; lia. }
  rewrite Eb in H.
  assert (One : skipn (i_pos it + 1) s = r) by (rewrite skipn_add, Sk; reflexivity).
  destruct (Nat.leb_spec 3 (length s - i_pos it)) as [L3|L3].
  - pose proof (char_at_nth (i_pos it) c Lp) as C0. rewrite Sk in C0. cbn [nth] in C0.
    destruct (read_cases k _ _ C0) as [->|[F ->]]; cbn [bind]; [|right; exists (S k); split; [apply at_fault_here; exact F|reflexivity]].
    cbn [andb] in H. destruct (Ascii.eqb c "%") eqn:Q.
    + pose proof (char_at_k (i_pos it) 1 c ltac:(lia)) as C1. pose proof (char_at_k (i_pos it) 2 c ltac:(lia)) as C2. rewrite Sk in C1, C2.
      destruct (digits_cases (S k) _ _ _ C1 C2) as [->|(k' & L & ->)]; cbn [bind].
      * left. cbn [andb] in H. destruct (negb (either_bad _ _)).
        -- assert (Three : skipn (i_pos it + 3) s = skipn 3 (c :: r)) by (rewrite skipn_add, Sk; reflexivity).
           injection H as <-. do 2 eexists. split; [reflexivity|]. cbn [i_pos]. split; [lia|]. split; [exact Three|lia].
        -- injection H as <-. do 2 eexists. split; [reflexivity|]. cbn [i_pos]. split; [lia|]. split; [exact One|lia].
      * right. exists k'. split; [|reflexivity]. apply (at_fault_le _ _ (S k)); [lia|exact L].
    + cbn [andb] in H. injection H as <-. cbn [bind]. left. do 2 eexists. split; [reflexivity|]. cbn [i_pos]. split; [lia|]. split; [exact One|lia].
  - cbn [andb] in H. injection H as <-. cbn [bind]. left. do 2 eexists. split; [reflexivity|]. cbn [i_pos]. split; [lia|]. split; [exact One|lia].
Qed.

Lemma kept_next k it k' it' : pnext_x fails s k it = Ok (Threw k' it') -> it' = it.
Proof. unfold pnext_x. destruct (increment_x _ _ _ _) as [[]| |]; cbn [bind]; congruence. Qed.
Lemma kept_deref k it k' it' : pderef_x fails s k it = Ok (Threw k' it') -> it' = it.
Proof.
  unfold pderef_x. destruct (read_x _ _ _ _) as [[k1 c|]| |]; cbn [bind]; try congruence. destruct (_ || _); try congruence.
  destruct (digits_x _ _ _ _) as [[k2 [h l]|]| |]; cbn [bind]; try congruence. destruct (either_bad h l); congruence.
Qed.

(* a step of the specification *)
Lemma decodes_step r t : decodes r t -> r <> [] -> exists b rest t', deref r = Ok b /\ increment r = Ok rest /\ t = b :: t' /\ decodes rest t' /\ length rest < length r.
Proof.
  intros D NE. inversion D as [|r' b rest t' E D' | c r' t' NEs D']; subst; [contradiction|..].
  - destruct (step_escape _ _ _ E) as [A B]. exists b, rest, t'. repeat split; try assumption. destruct E as (h & l & x & y & -> & _). cbn. lia.
  - assert (Q : esc (c :: r') = false). { destruct (esc (c :: r')) eqn:Q; [|reflexivity]. apply esc_iff in Q. destruct Q as (b & rest & Q). destruct (NEs _ _ Q). }
    destruct (step_copy _ _ Q) as [A B]. exists c, r', t'. repeat split; try assumption. cbn. lia.
Qed.

Lemma pct_for_prefix fuel : forall k it t, i_pos it <= length s -> decodes (skipn (i_pos it) s) t -> length t <= fuel ->
  exists d w, pct_for fails s fuel k it = Ok (d, w) /\ (d = true -> w = t) /\ (exists u, t = w ++ u)
  /\ (d = false -> exists j, k <= j /\ fails j = true).
Proof.
  induction fuel as [|fuel IH]; intros k it t Hp D L; cbn [pct_for].
  - destruct t; [|cbn in L; lia]. inversion D as [E| |]; subst.
    assert (length (skipn (i_pos it) s) = 0) by (rewrite <- E; reflexivity). rewrite skipn_length in *.
    destruct (Nat.eqb_spec (i_pos it) (length s)) as [_|]; [|lia]. exists true, []. repeat split; try discriminate. exists []. reflexivity.
  - destruct (Nat.eqb_spec (i_pos it) (length s)) as [El|Nl].
    { rewrite skipn_all2 in D by lia. apply (decodes_fun _ _ (dec_nil)) in D. subst t. exists true, []. repeat split; try discriminate. exists []. reflexivity. }
    assert (NE : skipn (i_pos it) s <> []). { intros E. apply (f_equal (@length _)) in E. rewrite skipn_length in E. cbn in E. lia. }
    destruct (decodes_step _ _ D NE) as (b & rest & t' & De & In & -> & D' & _).
    destruct (deref_cases k it b Hp De) as [(k1 & it1 & -> & L1 & P1)|(k1 & F & ->)]; cbn [bind].
    + rewrite <- P1 in In. destruct (incr_cases k1 it1 rest ltac:(lia) In) as [(k2 & it2 & -> & L2 & S2 & P2)|(k2 & F & ->)]; cbn [bind].
      * rewrite <- S2 in D'. destruct (IH k2 it2 t' P2 D' ltac:(cbn in L; lia)) as (d & w & -> & A & (u & ->) & C). cbn [bind].
        exists d, (b :: w). split; [reflexivity|]. split; [intros X; rewrite <- (A X); reflexivity|]. split; [exists u; reflexivity|].
        intros X. destruct (C X) as (j & Lj & Fj). exists j. split; [lia|exact Fj].
      * exists false, [b]. split; [reflexivity|]. split; [discriminate|]. split; [exists t'; reflexivity|]. intros _. destruct F as [Lk F]. exists (k2 - 1). split; [lia|exact F].
    + exists false, []. split; [reflexivity|]. split; [discriminate|]. split; [exists (b :: t'); reflexivity|]. intros _. destruct F as [Lk F]. exists (k1 - 1). split; [lia|exact F].
Qed.

Section K.
Variable K : nat.
Hypothesis HK : forall n, K <= n -> fails n = false.
Lemma deref_retry it b : i_pos it <= length s -> deref (skipn (i_pos it) s) = Ok b -> forall tries k, K - k < tries ->
  exists k' it', deref_again fails s tries k it = Ok (k', (it', b)) /\ i_pos it' = i_pos it.
Proof.
  intros Hp H. induction tries as [|tries IH]; intros k L; [lia|]. cbn [deref_again].
  destruct (deref_cases k it b Hp H) as [(k1 & it1 & -> & L1 & P1)|(k1 & F & ->)]; cbn [bind].
  - exists k1, it1. split; [reflexivity|exact P1].
  - destruct (at_fault_last _ _ _ _ HK F) as [A B]. destruct F as [F _]. apply IH. lia.
Qed.
Lemma next_retry it rest : i_pos it <= length s -> increment (skipn (i_pos it) s) = Ok rest -> forall tries k, K - k < tries ->
  exists k' it', next_again fails s tries k it = Ok (k', it') /\ skipn (i_pos it') s = rest /\ i_pos it' <= length s.
Proof.
  intros Hp H. induction tries as [|tries IH]; intros k L; [lia|]. cbn [next_again].
  destruct (incr_cases k it rest Hp H) as [(k1 & it1 & -> & L1 & P1)|(k1 & F & ->)]; cbn [bind].
  - exists k1, it1. split; [reflexivity|exact P1].
  - destruct (at_fault_last _ _ _ _ HK F) as [A B]. destruct F as [F _]. apply IH. lia.
Qed.
Lemma decode_retry tries : K < tries -> forall fuel k it t, i_pos it <= length s -> decodes (skipn (i_pos it) s) t -> length t <= fuel ->
  decode_again fails s tries fuel k it = Ok t.
Proof.
  intros HT. induction fuel as [|fuel IH]; intros k it t Hp D L; cbn [decode_again].
  - destruct t; [|cbn in L; lia]. inversion D as [E| |]; subst.
    assert (length (skipn (i_pos it) s) = 0) by (rewrite <- E; reflexivity). rewrite skipn_length in *.
    destruct (Nat.eqb_spec (i_pos it) (length s)) as [_|]; [|lia]. reflexivity.
  - destruct (Nat.eqb_spec (i_pos it) (length s)) as [El|Nl].
    { rewrite skipn_all2 in D by lia. apply (decodes_fun _ _ (dec_nil)) in D. subst t. reflexivity. }
    assert (NE : skipn (i_pos it) s <> []). { intros E. apply (f_equal (@length _)) in E. rewrite skipn_length in E. cbn in E. lia. }
    destruct (decodes_step _ _ D NE) as (b & rest & t' & De & In & -> & D' & _).
    destruct (deref_retry it b Hp De tries k ltac:(lia)) as (k1 & it1 & -> & P1). cbn [bind].
    rewrite <- P1 in In. destruct (next_retry it1 rest ltac:(lia) In tries k1 ltac:(lia)) as (k2 & it2 & -> & S2 & P2). cbn [bind].
    rewrite <- S2 in D'. rewrite (IH k2 it2 t' P2 D' ltac:(cbn in L; lia)). reflexivity.
Qed.
End K.
End P.

(* pctencode *)
Lemma encode_first fails m es : (es < 256)%N -> (forall j, j < m -> fails j = false) -> forall s k out, k <= m -> (fails m = true \/ k + 2 * length s <= m) ->
  (k + 2 * length s <= m /\ pctencode_x fails s es k out = Ok (true, out ++ enc es s))
  \/ (m < k + 2 * length s /\ pctencode_x fails s es k out = Ok (false, out ++ enc es (firstn ((m - k + 1) / 2) s))).
Proof.
  intros He Hb. induction s as [|c s IH]; intros k out Lk Hm; cbn [pctencode_x].
  - cbn [length enc]. left. split; [lia|]. now rewrite app_nil_r.
  - cbn [length] in Hm.
    destruct (Nat.eq_dec k m) as [->|N1].
    { destruct Hm as [F|]; [|lia]. right. split; [cbn; lia|]. rewrite F. rewrite Nat.sub_diag. cbn [Nat.add Nat.div firstn enc]. now rewrite app_nil_r. }
    rewrite (Hb k) by lia. rewrite needs_ok by exact He. cbn [bind].
    assert (One : exists out', (if needs c es then do hi <- dec2hex (N.land (N.shiftr (code c) 4) 15); do lo <- dec2hex (N.land (code c) 15); Ok (out ++ ["%"%char] ++ [hi] ++ [lo]) else Ok (out ++ [c])) = Ok out'
       /\ forall r, out' ++ enc es r = out ++ enc es (c :: r)).
    { pose proof (pctencode_loop_enc es [c] He out) as P. cbn [pctencode_loop] in P. rewrite needs_ok in P by exact He. cbn [bind] in P.
      destruct (needs c es) eqn:Nc.
      - destruct (dec2hex (N.land (N.shiftr (code c) 4) 15)); cbn [bind] in *; try discriminate. destruct (dec2hex (N.land (code c) 15)); cbn [bind] in *; try discriminate.
        eexists. split; [reflexivity|]. intros r. injection P as P. change (out ++ ["%"%char] ++ [a] ++ [a0]) with (out ++ ["%"%char; a; a0]). rewrite P. rewrite <- app_assoc. f_equal. cbn [enc]. rewrite Nc. now rewrite app_nil_r.
      - eexists. split; [reflexivity|]. intros r. cbn [enc]. rewrite Nc. now rewrite <- app_assoc. }
    destruct One as (out' & -> & Enc). cbn [bind].
    destruct (Nat.eq_dec (S k) m) as [<-|N2].
    { destruct Hm as [F|]; [|lia]. rewrite F. right. split; [cbn; lia|]. replace (S k - k + 1) with 2 by lia. change (2 / 2) with 1. cbn [firstn].
      rewrite <- (Enc []). cbn [enc]. now rewrite app_nil_r. }
    rewrite (Hb (S k)) by lia.
    destruct (IH (S (S k)) out' ltac:(lia) ltac:(destruct Hm; [left; assumption|right; lia])) as [[A ->]|[A ->]].
    + left. cbn [length]. split; [lia|]. now rewrite Enc.
    + right. cbn [length]. split; [lia|]. rewrite Enc. do 3 f_equal.
      replace (m - k + 1) with (m - S (S k) + 1 + 1 * 2) by lia. rewrite Nat.div_add by lia. rewrite (Nat.add_1_r ((m - S (S k) + 1) / 2)). reflexivity.
Qed.
