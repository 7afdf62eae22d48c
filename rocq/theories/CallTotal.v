(* Matching with effects ends; what star () calls *)
From Verif Require Import Base ModelRule ModelCalls SpecCalls CallFacts CallMore.
From Coq Require Import Lia.
Local Open Scope list_scope.

Section T.
Context {A U : Type}.
Variable cl : client A U.
Variable solid : U -> bool.
Hypothesis H : honest cl solid.

Lemma advance : (forall g h s r h', eval cl g h s r h' -> advances solid g = true -> forall m a t, r = Yes m a t -> m <> [])
  /\ (forall g max h s n r h', reps cl g max h s n r h' -> advances solid g = true -> forall m a t, r = Yes m a t -> n <> 0%nat -> m <> []).
Proof.
  apply eval_reps; cbn [advances].
  - intros u h s m a rest E Es So m' a' t' X. injection X as <- <- <-. exact (proj2 (H _ _ _ _ _ E) So).
  - intros; discriminate.
  - intros; discriminate.
  - intros; discriminate.
  - intros u h c s E _ m a t X. injection X as <- <- <-. discriminate.
  - intros; discriminate.
  - intros; discriminate.
  - intros g k h s m a t h1 r h2 E1 I1 E2 I2 Ad m' a' t' X. destruct r as [| |m2 a2 t2]; try discriminate. cbn in X. injection X as <- <- <-. apply orb_prop in Ad as [Ad|Ad].
    + specialize (I1 Ad _ _ _ eq_refl). destruct m; [contradiction|discriminate].
    + specialize (I2 Ad _ _ _ eq_refl). destruct m; [exact I2|discriminate].
  - intros g k h s r h1 E1 I1 Nr Ad m a t ->. contradiction.
  - intros g x h s r h1 E1 I1 Ad m a t X. destruct r; try discriminate. cbn in X. injection X as <- <- <-. eauto.
  - intros; discriminate.
  - intros g k h s r h1 E1 I1 Nr Ad. apply andb_prop in Ad as [Ad _]. intros m a t X. exact (I1 Ad _ _ _ X).
  - intros g k h s h1 r h2 E1 I1 E2 I2 Ad. apply andb_prop in Ad as [_ Ad]. intros m a t X. exact (I2 Ad _ _ _ X).
  - intros min max g h s n r h1 R I Hn Nt Hm Ad m a t X. apply andb_prop in Ad as [Am Ad]. apply N.ltb_lt in Am. apply (I Ad _ _ _ X). lia.
  - intros; discriminate.
  - intros; discriminate.
  - intros; contradiction.
  - intros; discriminate.
  - intros; contradiction.
  - intros g max h s m a t h1 n r h2 E I1 Nm R IR Ad m' a' t' X _. destruct r as [| |m2 a2 t2]; try discriminate. cbn in X. injection X as <- <- <-. specialize (I1 Ad _ _ _ eq_refl). destruct m; [contradiction|discriminate].
Qed.

Lemma eval_total g : repeatable solid g = true -> forall h s, (N.of_nat (length s) < 2 ^ 32)%N -> exists r h', eval cl g h s r h'.
Proof.
  assert (Len : forall g h s m a t h', eval cl g h s (Yes m a t) h' -> (length t <= length s)%nat).
  { intros g0 h s m a t h' E. rewrite (proj1 (yes_split cl) _ _ _ _ _ E _ _ _ eq_refl), app_length. lia. }
  induction g as [u|u|g IHg k IHk|g IHg x|g IHg|g IHg k IHk|min max g IHg]; cbn [repeatable]; intros Re h s Ls.
  - destruct (cl_match cl h u s) as [[[m a]|]|] eqn:E; [|do 2 eexists; now apply E_user_no|do 2 eexists; now apply E_user_throw]. destruct (H _ _ _ _ _ E) as [[rest Er] _]. do 2 eexists. eapply E_user; eassumption.
  - destruct s as [|c s]; [do 2 eexists; constructor|]. destruct (cl_test cl h u c) as [[]|] eqn:E; do 2 eexists; [now apply E_chr|now apply E_chr_no|now apply E_chr_throw].
  - apply andb_prop in Re as [R1 R2]. destruct (IHg R1 h s Ls) as (r & h1 & E1). destruct r as [| |m a t].
    + do 2 eexists. apply E_seq_not; [exact E1|exact I].
    + do 2 eexists. apply E_seq_not; [exact E1|exact I].
    + pose proof (Len _ _ _ _ _ _ _ E1) as Lt. destruct (IHk R2 h1 t ltac:(lia)) as (r & h2 & E2). do 2 eexists. eapply E_seq; eassumption.
  - destruct (IHg Re h s Ls) as (r & h1 & E1). do 2 eexists. apply E_act. exact E1.
  - destruct (IHg Re h s Ls) as (r & h1 & E1). do 2 eexists. apply E_opt. exact E1.
  - apply andb_prop in Re as [R1 R2]. destruct (IHg R1 h s Ls) as (r & h1 & E1). destruct r as [| |m a t].
    + do 2 eexists. apply E_or; [exact E1|discriminate].
    + destruct (IHk R2 h1 s Ls) as (r & h2 & E2). do 2 eexists. eapply E_or_no; eassumption.
    + do 2 eexists. apply E_or; [exact E1|discriminate].
  - apply andb_prop in Re as [Ad Re].
    assert (R : forall j s h max, (length s <= j)%nat -> (N.of_nat (length s) < 2 ^ 32)%N -> exists n r h', (n <= length s)%nat /\ reps cl g max h s n r h').
    { induction j as [j IHj] using (well_founded_induction Wf_nat.lt_wf). intros s0 h0 max0 Lj L0. destruct (IHg Re h0 s0 L0) as (r & h1 & E1). destruct r as [| |m a t].
      - exists 0%nat. do 2 eexists. split; [lia|]. eapply R_throw; exact E1.
      - exists 0%nat. do 2 eexists. split; [lia|]. eapply R_no; exact E1.
      - destruct max0 as [[|p]|].
        + exists 0%nat. do 2 eexists. split; [lia|]. eapply R_max. exact E1.
        + pose proof (proj1 advance _ _ _ _ _ E1 Ad _ _ _ eq_refl) as Nm. pose proof (proj1 (yes_split cl) _ _ _ _ _ E1 _ _ _ eq_refl) as Es. subst s0. rewrite app_length in *. destruct m as [|c m]; [contradiction|]. cbn [length] in *.
          destruct (IHj (length t) ltac:(lia) t h1 (one_fewer (Some (N.pos p))) ltac:(lia) ltac:(lia)) as (n & r & h2 & Ln & R2). exists (S n). do 2 eexists. split; [lia|]. eapply R_more; [exact E1|discriminate|exact R2].
        + pose proof (proj1 advance _ _ _ _ _ E1 Ad _ _ _ eq_refl) as Nm. pose proof (proj1 (yes_split cl) _ _ _ _ _ E1 _ _ _ eq_refl) as Es. subst s0. rewrite app_length in *. destruct m as [|c m]; [contradiction|]. cbn [length] in *.
          destruct (IHj (length t) ltac:(lia) t h1 (one_fewer None) ltac:(lia) ltac:(lia)) as (n & r & h2 & Ln & R2). exists (S n). do 2 eexists. split; [lia|]. eapply R_more; [exact E1|discriminate|exact R2]. }
    destruct (R (length s) s h max ltac:(lia) Ls) as (n & r & h' & Ln & Rr). assert (Hn : (N.of_nat n < 2 ^ 32)%N) by lia.
    destruct r as [| |m a t].
    + do 2 eexists. eapply E_star_throw; eassumption.
    + exfalso. exact (reps_not_no cl _ _ _ _ _ _ _ Rr eq_refl).
    + destruct (N.lt_ge_cases (N.of_nat n) min) as [Lm|Gm].
      * do 2 eexists. eapply E_star_few; [exact Rr|exact Hn|discriminate|exact Lm].
      * do 2 eexists. eapply E_star; [exact Rr|exact Hn|discriminate|exact Gm].
Qed.
End T.

Section S.
Context {A U : Type}.
Variable cl : client A U.
Lemma reps_calls u max h s n r h' : reps cl (User u) max h s n r h' -> exists l, h' = h ++ map (Called u) (s :: l) /\ length l = n /\ shrinking (s :: l) /\ (forall k, max = Some k -> (N.of_nat n <= k)%N).
Proof.
  intros R. remember (User u) as g eqn:Eg. induction R as [g max h s h1 E|g max h s h1 E|g h s m a t h1 E|g max h s m a t h1 n r h2 E Nm R IH]; subst g.
  - exists []. inversion E; subst. repeat split; [constructor|intros; lia].
  - exists []. inversion E; subst. repeat split; [constructor|intros; lia].
  - exists []. inversion E; subst. repeat split; [constructor|intros; lia].
  - destruct (IH eq_refl) as (l & -> & El & Sh & Mx). inversion E; subst. exists (t :: l). cbn [map]. rewrite <- app_assoc. split; [reflexivity|]. split; [reflexivity|]. split; [now constructor|].
    intros k ->. cbn in Mx. specialize (Mx (N.pred k) eq_refl). assert (k <> 0%N) by congruence. lia.
Qed.
End S.
