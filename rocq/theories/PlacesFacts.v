(* Facts about [placed], and the connection of the model with places to split and split_reference. *)
From Verif Require Import Base ModelUri SpanSim SpanUri SpanPlaces SpecPlaces.
From Verif Require Import ModelSpan.
Local Open Scope list_scope.

Lemma has_lt s o c : has s o c -> o < length s.
Proof. intros H. apply nth_error_Some. unfold has in H. congruence. Qed.
Lemma slashes_le s o l e : slashes s o l e -> o <= e.
Proof. induction 1; lia. Qed.
Lemma slashes_inside s o l e : slashes s o l e -> e <= length s -> Forall (inside s) l.
Proof. induction 1 as [|o k l e Hc H IH]; intros He; constructor; auto. cbn. apply slashes_le in H. lia. Qed.
Lemma mark_le s c o p e : mark s c o p e -> o <= e.
Proof. destruct p; cbn; [intros (k & _ & _ & ->); lia|lia]. Qed.
Lemma authority_le s o a e : authority_at s o a e -> o <= e.
Proof.
  intros (_ & _ & o1 & k & U & _ & M). apply mark_le in M. destruct (pl_userinfo a); cbn in U; [destruct U as (? & _ & _ & ->)|]; lia.
Qed.
Lemma path_le s o b abs l e : path_at s o b abs l e -> o <= e.
Proof.
  unfold path_at. destruct b; [intros [H _]; eapply slashes_le; eauto|]. destruct abs.
  - intros [H|(_ & _ & ->)]; [|lia]. destruct l as [|[[? [|?]]|] ?]; try contradiction. eapply slashes_le; eauto.
  - intros [[_ ->]|(k & l' & _ & _ & H)]; [lia|]. apply slashes_le in H. lia.
Qed.
Lemma placed_inside s v : placed s v -> Forall (inside s) (views v).
Proof.
  intros (o1 & o2 & o3 & o4 & S & A & P & Q & F). unfold views.
  pose proof (mark_le _ _ _ _ _ F) as LF. pose proof (mark_le _ _ _ _ _ Q) as LQ. pose proof (path_le _ _ _ _ _ _ P) as LP.
  assert (LA : o1 <= o2) by (destruct (pl_authority v); [apply authority_le in A|]; lia).
  apply Forall_app. split.
  { destruct (pl_scheme v); [|constructor]. destruct S as (k & -> & _ & ->). repeat constructor. cbn. lia. }
  apply Forall_app. split.
  { destruct (pl_authority v) as [a|]; [|constructor]. destruct A as (_ & _ & p1 & k & U & Hh & M). cbn [app].
    pose proof (mark_le _ _ _ _ _ M). apply Forall_app. split; [|constructor].
    - destruct (pl_userinfo a); [|constructor]. destruct U as (k' & -> & _ & ->). repeat constructor. cbn. lia.
    - rewrite Hh. cbn. lia.
    - destruct (pl_port a); [|constructor]. destruct M as (k' & _ & -> & ->). repeat constructor. cbn. lia. }
  apply Forall_app. split.
  { unfold path_at in P. destruct (pl_authority v).
    - destruct P as [P _]. eapply slashes_inside; eauto. lia.
    - destruct (pl_absolute v).
      + destruct P as [P|(-> & _ & _)]; [|repeat constructor]. destruct (pl_segments v) as [|[[? [|?]]|] ?]; try contradiction.
        eapply slashes_inside; eauto. lia.
      + destruct P as [[-> _]|(k & l' & _ & -> & P)]; [constructor|]. constructor; [|eapply slashes_inside; eauto; lia].
        apply slashes_le in P. cbn. lia. }
  apply Forall_app. split.
  { destruct (pl_query v); [|constructor]. destruct Q as (k & _ & -> & ->). repeat constructor. cbn. lia. }
  destruct (pl_fragment v); [|constructor]. destruct F as (k & _ & -> & E). repeat constructor. cbn. lia.
Qed.
Lemma slashes_no_null s o l e : slashes s o l e -> ~ In None l.
Proof. induction 1; cbn; [tauto|]. intros [H1|H1]; [discriminate|auto]. Qed.
Lemma placed_null s v : placed s v -> In None (views v) ->
  pl_authority v = None /\ pl_absolute v = true /\ pl_segments v = [None].
Proof.
  intros (o1 & o2 & o3 & o4 & S & A & P & Q & F) H. unfold views in H.
  apply in_app_or in H. destruct H as [H|H].
  { destruct (pl_scheme v); [|contradiction]. destruct S as (k & -> & _). destruct H as [H|[]]. discriminate. }
  apply in_app_or in H. destruct H as [H|H].
  { destruct (pl_authority v) as [a|]; [|contradiction]. destruct A as (_ & _ & p1 & k & U & Hh & M).
    apply in_app_or in H. destruct H as [H|H].
    - destruct (pl_userinfo a); [|contradiction]. destruct U as (k' & -> & _). destruct H as [H|[]]. discriminate.
    - destruct H as [H|H]; [congruence|]. destruct (pl_port a); [|contradiction]. destruct M as (k' & _ & -> & _).
      destruct H as [H|[]]. discriminate. }
  apply in_app_or in H. destruct H as [H|H].
  { unfold path_at in P. destruct (pl_authority v).
    - destruct P as [P _]. apply slashes_no_null in P. contradiction.
    - destruct (pl_absolute v).
      + destruct P as [P|(-> & _ & _)]; [|auto]. destruct (pl_segments v) as [|[[? [|?]]|] ?]; try contradiction.
        apply slashes_no_null in P. contradiction.
      + destruct P as [[E _]|(k & l' & _ & E & P)]; rewrite E in H; [contradiction|]. apply slashes_no_null in P.
        destruct H as [H|H]; [discriminate|contradiction]. }
  apply in_app_or in H. destruct H as [H|H].
  { destruct (pl_query v); [|contradiction]. destruct Q as (k & _ & -> & _). destruct H as [H|[]]. discriminate. }
  destruct (pl_fragment v); [|contradiction]. destruct F as (k & _ & -> & E). destruct H as [H|[]]. discriminate.
Qed.

(* the text of a view determines its length *)
Lemma shown_length s o k : inside s (Some (o, k)) -> length (shown s (Some (o, k))) = k.
Proof. cbn. intros H. rewrite firstn_length, skipn_length. lia. Qed.
Lemma same_length s o k k' : shown s (Some (o, k)) = shown s (Some (o, k')) -> inside s (Some (o, k)) -> inside s (Some (o, k')) -> k = k'.
Proof. intros E H H'. apply (f_equal (@length ascii)) in E. now rewrite !shown_length in E. Qed.
Lemma slashes_unique s o l1 e1 : slashes s o l1 e1 -> forall l2 e2, slashes s o l2 e2 ->
  e1 <= length s -> e2 <= length s -> map (shown s) l1 = map (shown s) l2 -> l1 = l2 /\ e1 = e2.
Proof.
  induction 1 as [o|o k l e Hc H IH]; intros l2 e2 H2 L1 L2 E; inversion H2; subst; try discriminate; auto.
  injection E as E1 E2. pose proof (slashes_le _ _ _ _ H). pose proof (slashes_le _ _ _ _ H1).
  assert (k = k0) by (apply (same_length s (S o)); [exact E1|cbn; lia..]). subst.
  destruct (IH _ _ H1 L1 L2 E2) as [-> ->]. auto.
Qed.
Lemma mark_unique s c o p1 e1 p2 e2 : mark s c o p1 e1 -> mark s c o p2 e2 -> e1 <= length s -> e2 <= length s ->
  option_map (shown s) p1 = option_map (shown s) p2 -> p1 = p2 /\ e1 = e2.
Proof.
  destruct p1, p2; cbn [mark option_map]; intros H1 H2 L1 L2 E; try discriminate; [|subst; auto].
  destruct H1 as (k1 & _ & -> & ->), H2 as (k2 & _ & -> & ->). injection E as E.
  assert (k1 = k2) by (apply (same_length s (S o)); [exact E|cbn; lia..]). now subst.
Qed.
Lemma authority_unique s o a1 e1 a2 e2 : authority_at s o a1 e1 -> authority_at s o a2 e2 -> e1 <= length s -> e2 <= length s ->
  option_map (shown s) (pl_userinfo a1) = option_map (shown s) (pl_userinfo a2) ->
  shown s (pl_host a1) = shown s (pl_host a2) ->
  option_map (shown s) (pl_port a1) = option_map (shown s) (pl_port a2) -> a1 = a2 /\ e1 = e2.
Proof.
  destruct a1 as [u1 h1 p1], a2 as [u2 h2 p2]. intros (_ & _ & o1 & k1 & U1 & H1 & M1) (_ & _ & o2 & k2 & U2 & H2 & M2) L1 L2 EU EH EP.
  cbn [pl_userinfo pl_host pl_port] in *. subst h1 h2. pose proof (mark_le _ _ _ _ _ M1). pose proof (mark_le _ _ _ _ _ M2).
  assert (E : u1 = u2 /\ o1 = o2).
  { destruct u1, u2; cbn in *; try discriminate; [|subst; auto].
    destruct U1 as (j1 & -> & _ & ->), U2 as (j2 & -> & _ & ->). injection EU as EU.
    assert (j1 = j2) by (apply (same_length s (S (S o))); [exact EU|cbn; lia..]). now subst. }
  destruct E as [-> ->].
  assert (k1 = k2) by (apply (same_length s o2); [exact EH|cbn; lia..]). subst.
  destruct (mark_unique _ _ _ _ _ _ _ M1 M2 L1 L2 EP) as [-> ->]. auto.
Qed.
Lemma path_unique s o b abs l1 e1 l2 e2 : path_at s o b abs l1 e1 -> path_at s o b abs l2 e2 -> e1 <= length s -> e2 <= length s ->
  map (shown s) l1 = map (shown s) l2 -> l1 = l2 /\ e1 = e2.
Proof.
  unfold path_at. destruct b.
  - intros [H1 _] [H2 _] L1 L2 E. eapply slashes_unique; eauto.
  - destruct abs.
    + intros [H1|(-> & _ & ->)] [H2|(-> & _ & ->)] L1 L2 E; auto.
      * destruct l1 as [|[[? [|?]]|] ?]; try contradiction. destruct l2 as [|[[? [|?]]|] ?]; try contradiction. eapply slashes_unique; eauto.
      * destruct l1 as [|[[p [|k]]|] l]; try contradiction. exfalso. apply (f_equal (hd [])) in E. change (shown s (Some (p, S k)) = []) in E.
        inversion H1; subst. match goal with H : slashes _ (_ + _) _ _ |- _ => apply slashes_le in H end.
        apply (f_equal (@length ascii)) in E. rewrite shown_length in E by (cbn; lia). cbn in E. lia.
      * destruct l2 as [|[[p [|k]]|] l]; try contradiction. exfalso. apply (f_equal (hd [])) in E. change ([] = shown s (Some (p, S k))) in E.
        inversion H2; subst. match goal with H : slashes _ (_ + _) _ _ |- _ => apply slashes_le in H end.
        apply (f_equal (@length ascii)) in E. rewrite shown_length in E by (cbn; lia). cbn in E. lia.
    + intros [[-> ->]|(k1 & l1' & _ & -> & H1)] [[-> ->]|(k2 & l2' & _ & -> & H2)] L1 L2 E; try discriminate; auto.
      injection E as E1 E2. pose proof (slashes_le _ _ _ _ H1). pose proof (slashes_le _ _ _ _ H2).
      assert (k1 = k2) by (apply (same_length s o); [exact E1|cbn; lia..]). subst.
      destruct (slashes_unique _ _ _ _ H1 _ _ H2 L1 L2 E2) as [-> ->]. auto.
Qed.
Lemma placed_unique s v1 v2 : placed s v1 -> placed s v2 -> shown_parts s v1 = shown_parts s v2 -> v1 = v2.
Proof.
  destruct v1 as [s1 a1 b1 l1 q1 f1], v2 as [s2 a2 b2 l2 q2 f2].
  intros (o1 & o2 & o3 & o4 & S & A & P & Q & F) (o1' & o2' & o3' & o4' & S' & A' & P' & Q' & F') E.
  cbn [pl_scheme pl_authority pl_absolute pl_segments pl_query pl_fragment] in *.
  unfold shown_parts in E. cbn [pl_scheme pl_authority pl_absolute pl_segments pl_query pl_fragment] in E.
  injection E as ES EA -> EL EQ EF.
  pose proof (mark_le _ _ _ _ _ F) as LF. pose proof (mark_le _ _ _ _ _ Q) as LQ. pose proof (path_le _ _ _ _ _ _ P) as LP.
  pose proof (mark_le _ _ _ _ _ F') as LF'. pose proof (mark_le _ _ _ _ _ Q') as LQ'. pose proof (path_le _ _ _ _ _ _ P') as LP'.
  assert (LA : o1 <= o2) by (destruct a1; [apply authority_le in A|]; lia).
  assert (LA' : o1' <= o2') by (destruct a2; [apply authority_le in A'|]; lia).
  assert (Z : s1 = s2 /\ o1 = o1').
  { destruct s1, s2; try discriminate; [|subst; auto]. destruct S as (k & -> & _ & ->), S' as (k' & -> & _ & ->). injection ES as ES.
    assert (k = k') by (apply (same_length s 0); [exact ES|cbn; lia..]). now subst. }
  destruct Z as [-> ->].
  assert (Z : a1 = a2 /\ o2 = o2').
  { destruct a1 as [a1|], a2 as [a2|]; try discriminate; [|subst; auto]. injection EA as E1 E2 E3.
    destruct (authority_unique _ _ _ _ _ _ A A' ltac:(lia) ltac:(lia) E1 E2 E3) as [-> ->]. auto. }
  destruct Z as [-> ->].
  destruct (path_unique _ _ _ _ _ _ _ _ P P' ltac:(lia) ltac:(lia) EL) as [-> ->].
  destruct (mark_unique _ _ _ _ _ _ _ Q Q' ltac:(lia) ltac:(lia) EQ) as [-> ->].
  destruct (mark_unique _ _ _ _ _ _ _ F F' ltac:(lia) ltac:(lia) EF) as [-> _]. reflexivity.
Qed.

(* --- split and split_reference ----------------------------------------------------------------------- *)
Lemma ptext_shown s p : ptext s p = shown s p.
Proof. destruct p as [[o k]|]; reflexivity. Qed.
Lemma omap_ext {T U} (f g : T -> U) o : (forall x, f x = g x) -> option_map f o = option_map g o.
Proof. intros H. destruct o; cbn; f_equal; auto. Qed.
Lemma texts_shown s v : texts s v = shown_parts s v.
Proof.
  unfold texts, shown_parts, atext.
  rewrite !(omap_ext (ptext s) (shown s) _ (ptext_shown s)), (map_ext _ _ (ptext_shown s)). f_equal.
  apply omap_ext. intros a. now rewrite ptext_shown, !(omap_ext (ptext s) (shown s) _ (ptext_shown s)).
Qed.
Lemma from_agree s x (y : M (option pparts)) p :
  agree (fun q u => u = option_map (texts s) q) x y -> x = Ok (Some p) ->
  exists v n, y = Ok (Some v, n) /\ shown_parts s v = p.
Proof.
  destruct y as [[[v|] n]|e|]; cbn; intros H E; try (destruct H as (u & -> & ->)); try congruence.
  injection E as <-. exists v, n. now rewrite texts_shown.
Qed.
Lemma split_views sg fuel s p : split sg fuel s = Ok (Some p) ->
  exists v n, split_places s sg fuel = Ok (Some v, n) /\ shown_parts s v = p /\ placed s v.
Proof.
  intros H. destruct (from_agree s _ _ p (split_texts s sg fuel) H) as (v & n & E & Hs).
  exists v, n. repeat split; auto. eapply split_placed; eauto.
Qed.
Lemma split_reference_views sg fuel s p : split_reference sg fuel s = Ok (Some p) ->
  exists v n, split_reference_places s sg fuel = Ok (Some v, n) /\ shown_parts s v = p /\ placed s v.
Proof.
  intros H. destruct (from_agree s _ _ p (split_reference_texts s sg fuel) H) as (v & n & E & Hs).
  exists v, n. repeat split; auto. eapply split_reference_placed; eauto.
Qed.
(* the model with places answers whenever the other one does *)
Lemma from_agree_ok s x (y : M (option pparts)) r :
  agree (fun q u => u = option_map (texts s) q) x y -> x = Ok r -> exists v n, y = Ok (v, n) /\ option_map (shown_parts s) v = r.
Proof.
  destruct y as [[v n]|e|]; cbn; intros H E; try congruence. destruct H as (u & -> & ->). injection E as <-.
  exists v, n. split; [reflexivity|]. destruct v; cbn; [now rewrite texts_shown|reflexivity].
Qed.
