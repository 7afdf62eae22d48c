From Verif Require Import Base ModelIcu ModelHist ModelOut SpecOut HistFacts.
From Coq Require Import Lia.
Local Open Scope list_scope.

Lemma put_units_app k us vs mem : put_units k mem (us ++ vs) = do (k', mem') <- put_units k mem us; put_units k' mem' vs.
Proof. revert k mem. induction us as [|u us IH]; intros k mem; cbn; [reflexivity|]. destruct (put_unit k mem u) as [[k' m']| |]; cbn [bind]; [apply IH|reflexivity..]. Qed.
Lemma put_units_append us mem : put_units Appends mem us = Ok (Appends, mem ++ us).
Proof. revert mem. induction us as [|u us IH]; intros mem; cbn; [now rewrite app_nil_r|]. rewrite IH, <- app_assoc. reflexivity. Qed.
Lemma put_at {A} (l : list A) p a : p < length l -> put l p a = firstn p l ++ a :: skipn (S p) l.
Proof. revert p. induction l as [|x l IH]; intros [|p] H; cbn in *; try lia; [reflexivity|]. rewrite IH by lia. reflexivity. Qed.
Lemma put_units_at us p mem : put_units (Points p) mem us =
  if Nat.leb (p + length us) (length mem) || Nat.eqb (length us) 0 then Ok (Points (p + length us), overwritten mem p us) else Fault buffer_overflow.
Proof.
  unfold overwritten. revert p mem. induction us as [|u us IH]; intros p mem.
  - cbn. rewrite Nat.add_0_r, orb_true_r, firstn_skipn. reflexivity.
  - cbn [put_units put_unit length]. rewrite orb_false_r. destruct (Nat.ltb_spec p (length mem)) as [L|L]; cbn [bind].
    + rewrite IH, put_length. destruct (Nat.leb_spec (p + S (length us)) (length mem)) as [G|G].
      * replace (S p + length us <=? length mem) with true by (symmetry; apply Nat.leb_le; lia). cbn [orb]. f_equal. f_equal; [f_equal; lia|].
        rewrite (put_at mem p u L). assert (Lf : length (firstn p mem) = p) by (rewrite firstn_length; lia).
        rewrite firstn_app, Lf. rewrite (firstn_all2 (firstn p mem)) by lia. replace (S p - p) with 1 by lia. cbn [firstn]. rewrite <- app_assoc. cbn [app]. do 3 f_equal.
        rewrite skipn_app, Lf. rewrite (skipn_all2 (firstn p mem)) by lia. replace (S p + length us - p) with (S (length us)) by lia. cbn [app]. change (skipn (S (length us)) (u :: skipn (S p) mem)) with (skipn (length us) (skipn (S p) mem)).
        clear. replace (p + S (length us)) with (S p + length us) by lia. generalize (S p) (length us). intros a b. revert a. induction mem as [|x l IH]; intros [|a]; cbn; try reflexivity; [destruct b; reflexivity|apply IH].
      * replace (S p + length us <=? length mem) with false by (symmetry; apply Nat.leb_gt; lia). cbn [orb]. destruct (Nat.eqb_spec (length us) 0); [lia|reflexivity].
    + replace (p + S (length us) <=? length mem) with false by (symmetry; apply Nat.leb_gt; lia). reflexivity.
Qed.

Section T.
Variable T : tcdr.
Lemma oit_some m k : k < length (o_its T m) -> exists i, oit T m k = Ok i /\ nth_error (o_its T m) k = Some i.
Proof. intros H. unfold oit. destruct (nth_error (o_its T m) k) as [i|] eqn:E; [eauto|]. apply nth_error_None in E. lia. Qed.
Lemma nth_oit m k i : nth_error (o_its T m) k = Some i -> oit T m k = Ok i.
Proof. unfold oit. now intros ->. Qed.

(* --- appending --- *)
Lemma append_steps ops : forall its t mem s w, named ops (length its) -> Forall (eq Appends) its -> feed T t (written ops) = Ok (s, w) ->
  exists its', osteps T ops (OMachine T its t mem) = Ok (OMachine T its' s (mem ++ w)) /\ Forall (eq Appends) its' /\ length its' = iterators ops (length its).
Proof.
  assert (G : forall its k i, Forall (eq Appends) its -> nth_error its k = Some i -> i = Appends).
  { intros its k i F E. rewrite Forall_forall in F. symmetry. apply F. eapply nth_error_In; exact E. }
  assert (P : forall its k, Forall (eq Appends) its -> Forall (eq Appends) (put its k Appends)).
  { intros its k F. revert k. induction F as [|x l E F IH]; intros [|k]; cbn; constructor; auto. }
  induction ops as [|o ops IH]; intros its t mem s w N F E.
  - cbn in *. injection E as <- <-. exists its. rewrite app_nil_r. auto.
  - destruct o as [k|k j|k|k u|k u]; cbn [named written iterators osteps ostep] in *.
    + destruct N as [L N]. destruct (oit_some (OMachine T its t mem) k L) as (i & -> & Ei). cbn [bind o_its o_tc o_mem]. apply (G _ _ _ F) in Ei. subst i.
      destruct (IH (its ++ [Appends]) t mem s w) as (its' & A & B & C); [rewrite app_length; cbn; replace (length its + 1) with (S (length its)) by lia; exact N|apply Forall_app; split; [exact F|repeat constructor]|exact E|].
      exists its'. split; [exact A|]. split; [exact B|]. rewrite C, app_length. cbn. f_equal. lia.
    + destruct N as (L & L2 & N). destruct (oit_some (OMachine T its t mem) k L) as (i & -> & _). destruct (oit_some (OMachine T its t mem) j L2) as (i' & -> & Ei). cbn [bind o_its o_tc o_mem]. apply (G _ _ _ F) in Ei. subst i'.
      destruct (IH (put its k Appends) t mem s w) as (its' & A & B & C); [rewrite put_length; exact N|apply P; exact F|exact E|]. exists its'. rewrite put_length in C. auto.
    + destruct N as (L & N). destruct (oit_some (OMachine T its t mem) k L) as (i & -> & _). cbn [bind]. apply IH; assumption.
    + destruct N as (L & N). destruct (oit_some (OMachine T its t mem) k L) as (i & -> & Ei). cbn [bind o_its o_tc o_mem]. apply (G _ _ _ F) in Ei. subst i. unfold owrite. cbn [o_its o_tc o_mem].
      cbn [feed] in E. destruct (tc_op T t u) as [[t' w']| |]; cbn [bind] in *; try discriminate. rewrite put_units_append. cbn [bind o_its o_tc o_mem].
      destruct (feed T t' (written ops)) as [[s' w'']| |] eqn:Ef; cbn [bind] in *; try discriminate. injection E as <- <-.
      destruct (IH (put its k Appends) t' (mem ++ w') s' w'') as (its' & A & B & C); [rewrite put_length; exact N|apply P; exact F|exact Ef|]. exists its'. rewrite put_length in C. rewrite app_assoc. auto.
    + destruct N as (L & N). destruct (oit_some (OMachine T its t mem) k L) as (i & -> & Ei). cbn [bind o_its o_tc o_mem]. apply (G _ _ _ F) in Ei. subst i. unfold owrite. cbn [o_its o_tc o_mem].
      cbn [feed] in E. destruct (tc_op T t u) as [[t' w']| |]; cbn [bind] in *; try discriminate. rewrite put_units_append. cbn [bind o_its o_tc o_mem].
      destruct (feed T t' (written ops)) as [[s' w'']| |] eqn:Ef; cbn [bind] in *; try discriminate. injection E as <- <-.
      destruct (IH its t' (mem ++ w') s' w'') as (its' & A & B & C); [exact N|exact F|exact Ef|]. exists its'. rewrite app_assoc. auto.
Qed.
Lemma append_run mem ops k out ok : named ops 1 -> k < iterators ops 1 -> transcode T (written ops) = Ok (out, ok) -> orun T Appends mem ops k = Ok (mem ++ out, ok).
Proof.
  intros N K E. unfold transcode in E. destruct (feed T (tc_init T) (written ops)) as [[s w]| |] eqn:Ef; cbn [bind] in E; try discriminate.
  destruct (tc_end T s) as [[s' w']| |] eqn:Ee; cbn [bind] in E; try discriminate. injection E as <- <-.
  destruct (append_steps ops [Appends] (tc_init T) mem s w N ltac:(repeat constructor) Ef) as (its & A & B & C). unfold orun. rewrite A. cbn [bind].
  destruct (oit_some (OMachine T its s (mem ++ w)) k) as (i & -> & Ei); [cbn [o_its]; rewrite C; exact K|]. cbn [bind o_tc o_mem o_its] in *. rewrite Ee. cbn [bind].
  assert (i = Appends) as -> by (rewrite Forall_forall in B; symmetry; apply B; eapply nth_error_In; exact Ei). rewrite put_units_append. cbn [bind]. rewrite app_assoc. reflexivity.
Qed.

(* --- pointing --- *)
Definition at_fresh (q : nat) (fresh : list bool) (its : list sink) : Prop := Forall2 (fun b i => b = true -> i = Points q) fresh its.
Lemma at_nth q fresh its j b : at_fresh q fresh its -> nth_error fresh j = Some b -> exists i, nth_error its j = Some i /\ (b = true -> i = Points q).
Proof. intros H. revert j. induction H as [|x y l m X _ IH]; intros [|j] E; cbn in *; try discriminate; [injection E as <-; eauto|]. apply IH. exact E. Qed.
Lemma at_put q fresh its j b i : at_fresh q fresh its -> (b = true -> i = Points q) -> at_fresh q (put fresh j b) (put its j i).
Proof. intros H X. revert j. induction H as [|x y l m Y H IH]; intros [|j]; cbn; constructor; auto. apply IH. Qed.
Lemma at_none q q' fresh its : at_fresh q fresh its -> at_fresh q' (map (fun _ => false) fresh) its.
Proof. induction 1; cbn; constructor; auto. discriminate. Qed.
Lemma at_len q fresh its : at_fresh q fresh its -> length its = length fresh.
Proof. induction 1; cbn; auto. Qed.
Lemma point_units q mem w i mem' : put_units (Points q) mem w = Ok (i, mem') -> i = Points (q + length w).
Proof. rewrite put_units_at. destruct (_ || _); [congruence|discriminate]. Qed.
Lemma point_steps k ops : forall its fresh t mem q s w, at_fresh q fresh its -> in_line ops fresh k -> feed T t (written ops) = Ok (s, w) ->
  exists its', osteps T ops (OMachine T its t mem) = (do (_, mem') <- put_units (Points q) mem w; Ok (OMachine T its' s mem')) /\ nth_error its' k = Some (Points (q + length w)).
Proof.
  induction ops as [|o ops IH]; intros its fresh t mem q s w F L E.
  - cbn in *. injection E as <- <-. exists its. split; [reflexivity|]. destruct (at_nth _ _ _ _ _ F L) as (i & Ei & X). rewrite Ei, X by reflexivity. cbn. do 2 f_equal. lia.
  - destruct o as [j|i j|j|j u|j u]; cbn [in_line written osteps ostep] in *.
    + destruct L as (b & Eb & L). destruct (at_nth _ _ _ _ _ F Eb) as (i & Ei & X). rewrite (nth_oit (OMachine T its t mem) j i Ei). cbn [bind o_its o_tc o_mem].
      apply (IH (its ++ [i]) (fresh ++ [b])); [|exact L|exact E]. apply Forall2_app; [exact F|]. constructor; [exact X|constructor].
    + destruct L as (Li & b & Eb & L). destruct (at_nth _ _ _ _ _ F Eb) as (i' & Ei & X). destruct (oit_some (OMachine T its t mem) i) as (i2 & -> & _); [cbn; rewrite (at_len _ _ _ F); exact Li|].
      cbn [bind]. rewrite (nth_oit (OMachine T its t mem) j i' Ei). cbn [bind o_its o_tc o_mem]. apply (IH _ (put fresh i b)); [|exact L|exact E]. apply at_put; assumption.
    + destruct L as (Lj & L). destruct (oit_some (OMachine T its t mem) j) as (i2 & -> & _); [cbn; rewrite (at_len _ _ _ F); exact Lj|]. cbn [bind]. eapply IH; eassumption.
    + destruct L as (Ej & L). destruct (at_nth _ _ _ _ _ F Ej) as (i & Ei & X). rewrite (nth_oit (OMachine T its t mem) j i Ei). rewrite X by reflexivity. cbn [bind]. unfold owrite. cbn [o_its o_tc o_mem].
      cbn [feed] in E. destruct (tc_op T t u) as [[t' w']| |]; cbn [bind] in *; try discriminate.
      destruct (feed T t' (written ops)) as [[s' w'']| |] eqn:Ef; cbn [bind] in E; try discriminate. injection E as <- <-. rewrite put_units_app.
      destruct (put_units (Points q) mem w') as [[i' mem']|f|] eqn:Ep.
      * apply point_units in Ep. subst i'. cbn [bind o_its o_tc o_mem]. rewrite app_length, Nat.add_assoc.
        apply (IH _ (put (map (fun _ => false) fresh) j true)); [|exact L|exact Ef]. apply at_put; [eapply at_none; exact F|reflexivity].
      * cbn [bind]. exists (repeat (Points (q + length (w' ++ w''))) (S k)). split; [reflexivity|]. rewrite nth_error_nth' with (d := Points (q + length (w' ++ w''))) by (rewrite repeat_length; lia). now rewrite nth_repeat.
      * cbn [bind]. exists (repeat (Points (q + length (w' ++ w''))) (S k)). split; [reflexivity|]. rewrite nth_error_nth' with (d := Points (q + length (w' ++ w''))) by (rewrite repeat_length; lia). now rewrite nth_repeat.
    + destruct L.
Qed.
Lemma point_run p mem ops k out ok : in_line ops [true] k -> transcode T (written ops) = Ok (out, ok) ->
  orun T (Points p) mem ops k = if Nat.leb (p + length out) (length mem) || Nat.eqb (length out) 0 then Ok (overwritten mem p out, ok) else Fault buffer_overflow.
Proof.
  intros L E. unfold transcode in E. destruct (feed T (tc_init T) (written ops)) as [[s w]| |] eqn:Ef; cbn [bind] in E; try discriminate.
  destruct (tc_end T s) as [[s' w']| |] eqn:Ee; cbn [bind] in E; try discriminate. injection E as <- <-.
  destruct (point_steps k ops [Points p] [true] (tc_init T) mem p s w ltac:(constructor; [auto|constructor]) L Ef) as (its & A & B). unfold orun. rewrite A.
  transitivity (do (_, mem') <- put_units (Points p) mem (w ++ w'); Ok (mem', tc_wf T s')); [|rewrite put_units_at; destruct (_ || _); reflexivity].
  rewrite put_units_app. destruct (put_units (Points p) mem w) as [[i mem']| |] eqn:Ep; cbn [bind]; try reflexivity. apply point_units in Ep. subst i.
  rewrite (nth_oit (OMachine T its s mem') k _ B). cbn [bind o_tc o_mem]. rewrite Ee. reflexivity.
Qed.
Lemma written_copies l : written (copies l) = l.
Proof. induction l as [|u l IH]; [reflexivity|]. change (u :: written (copies l) = u :: l). now rewrite IH. Qed.
Lemma named_copies l : named (copies l) 1 /\ iterators (copies l) 1 = 1.
Proof. induction l as [|u l IH]; [cbn; auto|]. destruct IH. change (copies (u :: l)) with (OWrite 0 u :: OInc 0 :: copies l). cbn [named iterators]. repeat split; auto; lia. Qed.
Lemma line_copies l : in_line (copies l) [true] 0.
Proof. induction l as [|u l IH]; [reflexivity|]. change (copies (u :: l)) with (OWrite 0 u :: OInc 0 :: copies l). cbn. split; [reflexivity|]. split; [lia|]. exact IH. Qed.
Lemma written_postfix l : written (copies_postfix l) = l.
Proof. induction l as [|u l IH]; [reflexivity|]. change (u :: written (copies_postfix l) = u :: l). now rewrite IH. Qed.
Lemma named_postfix l : named (copies_postfix l) 1 /\ iterators (copies_postfix l) 1 = 1.
Proof. induction l as [|u l IH]; [cbn; auto|]. destruct IH. change (copies_postfix (u :: l)) with (OWriteInc 0 u :: copies_postfix l). cbn [named iterators]. repeat split; auto; lia. Qed.
End T.
