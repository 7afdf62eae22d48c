(* The layouts of the match functions with acceptors, and what running those acceptors stores. *)
From Verif Require Import Base ModelRule ModelUri SpanSim SpanUri SpanCost SpanCostUri SpanLoc.
From Verif Require ModelSpan SpecPlaces.
Local Open Scope list_scope.

Section Places.
Variable buf : str.
Variable sg : bool.
Variable fuel : nat.
Local Notation lchr := (lchr buf).

Lemma tolower_same (n : N) : (n < 65)%N -> forall d x y,
  c_tolower (as_int sg (chr n)) = Ok x -> c_tolower (as_int sg d) = Ok y -> (x =? y)%Z = true -> d = chr n.
Proof.
  intros Hn d x y H1 H2 E. apply Z.eqb_eq in E. subst y.
  rewrite <- (ascii_N_embedding d). unfold chr. f_equal.
  unfold c_tolower, as_int, code, chr in *. rewrite N_ascii_embedding in H1 by lia.
  pose proof (N_ascii_bounded d) as Hd. revert H1 H2 Hd. generalize (N_of_ascii d). intros m H1 H2 Hd.
  unfold ctype_dom, c_isupper in *.
  replace (sg && (128 <=? Z.of_N n)%Z)%bool with false in H1 by (destruct sg; lia).
  destruct ((Z.of_N n =? -1)%Z || (0 <=? Z.of_N n)%Z && (Z.of_N n <=? 255)%Z)%bool; [|discriminate].
  injection H1 as <-. replace ((65 <=? Z.of_N n)%Z && (Z.of_N n <=? 90)%Z)%bool with false in H2 by lia.
  destruct (sg && (128 <=? Z.of_N m)%Z)%bool;
  match type of H2 with (if ?b then _ else _) = _ => destruct b; [|discriminate] end; injection H2 as H2;
  match type of H2 with (if ?b then _ else _) = _ => destruct b eqn:Eb end; lia.
Qed.
Ltac chr_tac := apply floc_char; [lia|apply tolower_same; lia].
Lemma l_at : floc (lchr "@") (ModelSpan.commercial_at buf sg). Proof. chr_tac. Qed.
Lemma l_colon : floc (lchr ":") (ModelSpan.colon buf sg). Proof. chr_tac. Qed.
Lemma l_hash : floc (lchr "#") (ModelSpan.hash buf sg). Proof. chr_tac. Qed.
Lemma l_solidus : floc (lchr "/") (ModelSpan.solidus buf sg). Proof. chr_tac. Qed.
Lemma l_question : floc (lchr "?") (ModelSpan.question_mark buf sg). Proof. chr_tac. Qed.
Create HintDb loc discriminated.
Hint Constants Opaque : loc.
Hint Resolve l_at l_colon l_hash l_solidus l_question : loc.
Lemma l_scheme : floc lquiet (ModelSpan.scheme buf sg fuel).
Proof. eapply floc_quiet; [apply k_scheme|reflexivity..]. Qed.
Lemma l_userinfo_r : floc lquiet (ModelSpan.userinfo_r buf sg fuel).
Proof. eapply floc_quiet; [apply k_userinfo_r|reflexivity..]. Qed.
Lemma l_host_r : floc lquiet (ModelSpan.host_r buf sg fuel).
Proof. eapply floc_quiet; [apply k_host_r|vm_compute; reflexivity..]. Qed.
Lemma l_port_r : floc lquiet (ModelSpan.port_r buf sg fuel).
Proof. eapply floc_quiet; [apply k_port_r|reflexivity..]. Qed.
Lemma l_segment : floc lquiet (ModelSpan.segment buf sg fuel).
Proof. eapply floc_quiet; [apply k_segment|reflexivity..]. Qed.
Lemma l_segment_nz : floc lsome (ModelSpan.segment_nz buf sg fuel).
Proof. eapply floc_some; [apply k_segment_nz|reflexivity..]. Qed.
Lemma l_segment_nz_nc : floc lsome (ModelSpan.segment_nz_nc buf sg fuel).
Proof. eapply floc_some; [apply k_segment_nz_nc|reflexivity..]. Qed.
Lemma l_query : floc lquiet (ModelSpan.query buf sg fuel).
Proof. eapply floc_quiet; [apply k_query|reflexivity..]. Qed.
Lemma l_fragment : floc lquiet (ModelSpan.fragment buf sg fuel).
Proof. eapply floc_quiet; [apply k_fragment|reflexivity..]. Qed.
Hint Resolve l_scheme l_userinfo_r l_host_r l_port_r l_segment l_segment_nz l_segment_nz_nc l_query l_fragment : loc.

Ltac loc_step :=
  lazymatch goal with
  | |- rloc _ _ (ModelSpan.ret _) => apply rloc_start
  | |- rloc _ _ (ModelSpan.mbind _ (ModelSpan.concat _)) => apply rloc_concat
  | |- rloc _ _ (ModelSpan.mbind _ (ModelSpan.concat_a _ _)) => apply rloc_concat_a
  | |- rloc _ _ (ModelSpan.mbind _ (ModelSpan.optional _)) => apply rloc_optional
  | |- rloc _ _ (ModelSpan.mbind _ (ModelSpan.alternative _)) => apply rloc_alternative
  | |- rloc _ _ (ModelSpan.mbind _ (ModelSpan.star _ _ _ _)) => apply rloc_star
  | |- Forall2 _ _ [] => apply Forall2_nil
  | |- Forall2 _ _ (_ :: _) => apply Forall2_cons
  | |- floc _ (fun r => _) => apply (floc_chain _ (fun r => _)); intros ?; cbv beta
  | |- floc _ _ => solve [eauto with loc nocore]
  end.
Ltac loc_tac := eapply floc_imp; [repeat loc_step|].

(* destruct a layout *)
Ltac lay :=
  repeat lazymatch goal with
  | H : lseq _ _ _ _ _ |- _ => destruct H as (? & ? & ? & ? & ? & ? & ? & ?)
  | H : lacc _ _ _ _ _ |- _ => destruct H as (? & ? & ?)
  | H : lnil _ _ _ |- _ => destruct H as (? & ?)
  | H : lquiet _ _ _ |- _ => unfold lquiet in H
  | H : lsome _ _ _ |- _ => destruct H as (? & ?)
  | H : SpanLoc.lchr _ _ _ _ _ |- _ => destruct H as (? & ? & ?)
  end; subst; cbn [app] in *;
  repeat match goal with
  | H : context [?x + 0] |- _ => rewrite Nat.add_0_r in H
  | H : context [?x + 1] |- _ => rewrite Nat.add_1_r in H
  | |- context [?x + 0] => rewrite Nat.add_0_r
  | |- context [?x + 1] => rewrite Nat.add_1_r
  end.
Definition lslash (b : bool) : lay := fun o k a => exists k', k = S k' /\ nth_error buf o = Some "/"%char
  /\ a = [(AppendDir b, (o, 1)); (AppendSegment, (S o, k'))].
Lemma l_slash_segment : floc (lslash false) (ModelSpan.slash_segment buf sg fuel).
Proof.
  unfold ModelSpan.slash_segment. loc_tac. intros o k a H. lay. eexists. split; [reflexivity|]. split; auto.
Qed.
Hint Resolve l_slash_segment : loc.
Lemma l_path_abempty : floc (lrep (lslash true)) (ModelSpan.path_abempty buf sg fuel).
Proof.
  unfold ModelSpan.path_abempty. eapply floc_imp; [apply (floc_chain _ (fun r => _)); intros ?; cbv beta; apply rloc_star; [apply rloc_start|]|].
  - instantiate (1 := lslash true). loc_tac. intros o k a H. lay. eexists. split; [reflexivity|]. split; auto.
  - intros o k a H. lay. auto.
Qed.
Definition lhost : lay := fun o k a => a = [(SetHost, (o, k))].
Lemma l_host_rule : floc lhost (ModelSpan.host_rule buf sg fuel).
Proof. unfold ModelSpan.host_rule. loc_tac. intros o k a H. lay. reflexivity. Qed.
Definition luserinfo : lay := fun o k a => exists k', k = S k' /\ nth_error buf (o + k') = Some "@"%char /\ a = [(SetUserinfo, (o, k'))].
Lemma l_userinfo_at : floc luserinfo (ModelSpan.userinfo_at buf sg fuel).
Proof. unfold ModelSpan.userinfo_at. loc_tac. intros o k a H. lay. eexists. repeat split; auto. Qed.
Definition lafter (c : ascii) (g : action) : lay := fun o k a => exists k', k = S k' /\ nth_error buf o = Some c /\ a = [(g, (S o, k'))].
Lemma l_colon_port : floc (lafter ":" SetPort) (ModelSpan.colon_port buf sg fuel).
Proof. unfold ModelSpan.colon_port. loc_tac. intros o k a H. lay. eexists. repeat split; auto. Qed.
Lemma l_question_query : floc (lafter "?" SetQuery) (ModelSpan.question_query buf sg fuel).
Proof. unfold ModelSpan.question_query. loc_tac. intros o k a H. lay. eexists. repeat split; auto. Qed.
Lemma l_hash_fragment : floc (lafter "#" SetFragment) (ModelSpan.hash_fragment buf sg fuel).
Proof. unfold ModelSpan.hash_fragment. loc_tac. intros o k a H. lay. eexists. repeat split; auto. Qed.
Hint Resolve l_path_abempty l_host_rule l_userinfo_at l_colon_port l_question_query l_hash_fragment : loc.
Definition lauthority : lay := lseq (lor luserinfo lnil) (lseq lhost (lor (lafter ":" SetPort) lnil)).
Lemma lseq_assoc P Q R o k a : lseq (lseq P Q) R o k a -> lseq P (lseq Q R) o k a.
Proof.
  intros (k1 & k2 & a1 & a2 & -> & -> & (k3 & k4 & a3 & a4 & -> & -> & H1 & H2) & H3).
  exists k3, (k4 + k2), a3, (a4 ++ a2). rewrite Nat.add_assoc, app_assoc. repeat split; auto.
  exists k4, k2, a4, a2. repeat split; auto. now rewrite <- Nat.add_assoc.
Qed.
Lemma lseq_nil P o k a : lseq lnil P o k a -> P o k a.
Proof. intros (k1 & k2 & a1 & a2 & -> & -> & (-> & ->) & H). rewrite Nat.add_0_r in H. exact H. Qed.
Lemma lseq_imp (P P' Q Q' : lay) o k a : lseq P Q o k a -> (forall o k a, P o k a -> P' o k a) -> (forall o k a, Q o k a -> Q' o k a) ->
  lseq P' Q' o k a.
Proof. intros (k1 & k2 & a1 & a2 & -> & -> & H1 & H2) HP HQ. exists k1, k2, a1, a2. repeat split; auto. Qed.
Lemma l_authority_r : floc lauthority (ModelSpan.authority_r buf sg fuel).
Proof.
  unfold ModelSpan.authority_r. loc_tac. intros o k a H.
  apply lseq_assoc in H. apply lseq_imp with (1 := H); auto. clear. intros o k a H. now apply lseq_nil.
Qed.
Hint Resolve l_authority_r : loc.
Definition lauth : lay := lseq (lseq (lchr "/") (lchr "/")) (lseq lauthority (lrep (lslash true))).
Lemma l_auth_abempty : floc lauth (ModelSpan.auth_abempty buf sg fuel).
Proof.
  unfold ModelSpan.auth_abempty. loc_tac. intros o k a H.
  apply lseq_assoc in H. apply lseq_imp with (1 := H); auto. clear. intros o k a H.
  apply lseq_imp with (1 := H); auto. clear. intros o k a H. now apply lseq_nil.
Qed.
Definition linitial : lay := lseq (fun o k a => 1 <= k /\ a = [(RecordInitialSegment, (o, k))]) (lrep (lslash false)).
Lemma l_path_noscheme : floc linitial (ModelSpan.path_noscheme buf sg fuel).
Proof.
  unfold ModelSpan.path_noscheme. loc_tac. intros o k a H. apply lseq_imp with (1 := H); auto. clear. intros o k a H. lay. auto.
Qed.
Lemma l_path_rootless : floc linitial (ModelSpan.path_rootless buf sg fuel).
Proof.
  unfold ModelSpan.path_rootless. loc_tac. intros o k a H. apply lseq_imp with (1 := H); auto. clear. intros o k a H. lay. auto.
Qed.
Lemma l_path_empty : floc lnil (ModelSpan.path_empty buf sg fuel).
Proof.
  unfold ModelSpan.path_empty. apply (floc_chain _ (fun r => _)). intros v. cbv beta. apply (rloc_star_none lquiet).
  eapply floc_quiet; [apply k_pchar|reflexivity..].
Qed.
(* "/" [ segment-nz *( "/" segment ) ] *)
Definition labsolute : lay := fun o k a => nth_error buf o = Some "/"%char /\
  ((k = 1 /\ a = [(AppendDir true, (o, 1))])
   \/ exists k1 k2 a2, 1 <= k1 /\ k = S (k1 + k2) /\ a = (AppendDir true, (o, 1)) :: (AppendSegment, (S o, k1)) :: a2 /\ lrep (lslash false) (S o + k1) k2 a2).
Lemma l_path_absolute : floc labsolute (ModelSpan.path_absolute buf sg fuel).
Proof.
  unfold ModelSpan.path_absolute. loc_tac. intros o k a H. lay. destruct H2 as [H2|H2]; lay.
  - split; auto. right. eexists _, _, _. split; [eassumption|]. split; [reflexivity|]. split; [reflexivity|]. auto.
  - split; auto.
Qed.
Hint Resolve l_auth_abempty l_path_noscheme l_path_rootless l_path_empty l_path_absolute : loc.
Definition lhier : lay := lany [lauth; labsolute; linitial; lnil].
Lemma l_relative_part : floc lhier (ModelSpan.relative_part buf sg fuel).
Proof. unfold ModelSpan.relative_part. loc_tac. intros o k a H. now apply lseq_nil in H. Qed.
Lemma l_hier_part : floc lhier (ModelSpan.hier_part buf sg fuel).
Proof. unfold ModelSpan.hier_part. loc_tac. intros o k a H. now apply lseq_nil in H. Qed.
Hint Resolve l_relative_part l_hier_part : loc.
Definition lrest : lay := lseq lhier (lseq (lor (lafter "?" SetQuery) lnil) (lor (lafter "#" SetFragment) lnil)).
Lemma l_relative_ref : floc lrest (ModelSpan.relative_ref buf sg fuel).
Proof.
  change (ModelSpan.relative_ref buf sg fuel) with (fun r => ModelSpan.mbind (ModelSpan.mbind (ModelSpan.mbind (ModelSpan.mbind (ModelSpan.ret r)
    (ModelSpan.concat (ModelSpan.relative_part buf sg fuel))) (ModelSpan.optional (ModelSpan.question_query buf sg fuel)))
    (ModelSpan.optional (ModelSpan.hash_fragment buf sg fuel))) (ModelSpan.matched r)).
  loc_tac. intros o k a H. apply lseq_assoc in H. apply lseq_imp with (1 := H); auto. clear. intros o k a H. now apply lseq_nil.
Qed.
Definition lscheme : lay := fun o k a => exists k', k = S k' /\ a = [(SetScheme, (o, k'))] /\ nth_error buf (o + k') = Some ":"%char.
Definition luri : lay := lseq lscheme lrest.
Lemma l_URI : floc luri (ModelSpan.URI buf sg fuel).
Proof.
  unfold ModelSpan.URI. loc_tac. intros o k a H. unfold luri, lrest.
  apply lseq_assoc in H. apply lseq_assoc in H. apply lseq_imp with (1 := H); auto.
  clear. intros o k a H. lay. eexists. repeat split; auto.
Qed.
Hint Resolve l_relative_ref l_URI : loc.
Lemma l_URI_reference : floc (lor luri lrest) (ModelSpan.URI_reference buf sg fuel).
Proof.
  unfold ModelSpan.URI_reference. loc_tac. intros o k a H. apply lseq_nil in H.
  destruct H as [H|[H|[]]]; [left|right]; exact H.
Qed.

(* --- running the acceptors ------------------------------------------------------------------------------ *)
Definition runs (l : ModelSpan.acceptors action) (p q : ModelSpan.pparts) : Prop :=
  exists n, ModelSpan.run_accs ModelSpan.run_place l p = Ok (q, n).
Lemma runs_nil p q : runs [] p q -> q = p.
Proof. intros [n H]. now injection H as <- <-. Qed.
Lemma runs_cons g s l p q : runs ((g, s) :: l) p q -> exists m, ModelSpan.run_place g s p = Ok m /\ runs l m q.
Proof.
  intros [n H]. cbn [ModelSpan.run_accs] in H. apply mbind_inv in H. destruct H as ([] & n1 & n2 & _ & H & _).
  destruct (ModelSpan.run_place g s p) as [m| |]; try discriminate. exists m. split; auto. now exists n2.
Qed.
Lemma runs_app l1 l2 p q : runs (l1 ++ l2) p q -> exists m, runs l1 p m /\ runs l2 m q.
Proof.
  revert p. induction l1 as [|[g s] l1 IH]; intros p H.
  - exists p. split; auto. now exists 0.
  - apply runs_cons in H. destruct H as (m & E & H). destruct (IH _ H) as (m' & [n H1] & H2). exists m'. split; auto.
    exists (1 + n). cbn [ModelSpan.run_accs]. cbn. now rewrite E, H1.
Qed.
Lemma run_one g s p q : runs [(g, s)] p q -> ModelSpan.run_place g s p = Ok q.
Proof. intros H. apply runs_cons in H. destruct H as (m & E & H). apply runs_nil in H. now subst. Qed.

Import SpecPlaces.
Local Notation put_path := ModelSpan.put_path.
Lemma run_slashes b o k a p q : lrep (lslash b) o k a -> runs a p q ->
  exists l, slashes buf o l (o + k) /\
    q = put_path p (ModelSpan.pl_absolute p || (b && match l with [] => false | _ => true end)) (ModelSpan.pl_segments p ++ l).
Proof.
  intros H. revert p. induction H as [o|o k1 k2 a1 a2 Hp Hr IH]; intros p R.
  - apply runs_nil in R. subst. exists []. split; [rewrite Nat.add_0_r; constructor|].
    rewrite andb_false_r, orb_false_r, app_nil_r. now destruct p.
  - destruct Hp as (k' & -> & Hc & ->). cbn [app] in R.
    apply runs_cons in R. destruct R as (m1 & E1 & R). apply runs_cons in R. destruct R as (m2 & E2 & R).
    cbn [ModelSpan.run_place] in E1. injection E1 as <-. cbn [ModelSpan.run_place put_path ModelSpan.pl_segments ModelSpan.pl_absolute] in E2.
    assert (G : removelast (ModelSpan.pl_segments p ++ [None]) = ModelSpan.pl_segments p) by apply removelast_last.
    destruct (ModelSpan.pl_segments p ++ [None]) as [|x y] eqn:Ex; [now destruct (ModelSpan.pl_segments p)|].
    injection E2 as <-.
    change (match y with [] => [] | _ :: _ => x :: removelast y end) with (removelast (x :: y)) in R.
    rewrite G in R.
    destruct (IH _ R) as (l & Hs & ->). exists (Some (S o, k') :: l). split.
    + replace (o + (S k' + k2)) with (o + S k' + k2) by lia. constructor; auto. now replace (S o + k') with (o + S k') by lia.
    + unfold put_path. cbn. f_equal; [|now rewrite <- app_assoc].
      destruct b, (ModelSpan.pl_absolute p); reflexivity.
Qed.
Lemma run_authority o k a p q : ModelSpan.pl_authority p = None -> lauthority o k a -> runs a p q ->
  exists au, q = ModelSpan.put_auth p au /\
    exists o1 k1, userinfo_at buf o (ModelSpan.pl_userinfo au) o1 /\ ModelSpan.pl_host au = Some (o1, k1)
      /\ mark buf ":" (o1 + k1) (ModelSpan.pl_port au) (o + k).
Proof.
  intros Hp (k1 & k2 & a1 & a2 & -> & -> & H1 & (k3 & k4 & a3 & a4 & -> & -> & H3 & H4)) R.
  apply runs_app in R. destruct R as (p1 & R1 & R). apply runs_app in R. destruct R as (p2 & R2 & R3).
  red in H3. subst a3. apply run_one in R2. cbn [ModelSpan.run_place] in R2. injection R2 as <-.
  assert (E1 : exists u, p1 = (match u with None => p | Some _ => ModelSpan.put_auth p (ModelSpan.mkpauth u None None) end)
     /\ userinfo_at buf o u (o + k1)).
  { destruct H1 as [(k' & -> & Hc & ->)|(-> & ->)].
    - apply run_one in R1. cbn [ModelSpan.run_place] in R1. injection R1 as <-. unfold ModelSpan.ensure_auth. rewrite Hp.
      exists (Some (Some (o, k'))). split; [reflexivity|]. exists k'. repeat split; auto.
    - apply runs_nil in R1. subst. exists None. split; [reflexivity|]. cbn. lia. }
  destruct E1 as (u & -> & Hu).
  assert (E2 : ModelSpan.put_auth match u with None => p | Some _ => ModelSpan.put_auth p (ModelSpan.mkpauth u None None) end
     (ModelSpan.mkpauth (ModelSpan.pl_userinfo (ModelSpan.ensure_auth match u with None => p | Some _ => ModelSpan.put_auth p (ModelSpan.mkpauth u None None) end))
       (Some (o + k1, k3)) (ModelSpan.pl_port (ModelSpan.ensure_auth match u with None => p | Some _ => ModelSpan.put_auth p (ModelSpan.mkpauth u None None) end)))
     = ModelSpan.put_auth p (ModelSpan.mkpauth u (Some (o + k1, k3)) None)).
  { destruct u; [reflexivity|]. unfold ModelSpan.ensure_auth. now rewrite Hp. }
  change (ModelSpan.mkpauth ?a (Some (o + k1, k3)) ?b) with (ModelSpan.mkpauth a (Some (o + k1, k3)) b) in R3.
  rewrite E2 in R3. clear E2 R1 H1.
  destruct H4 as [(k' & -> & Hc & ->)|(-> & ->)].
  - apply run_one in R3. cbn in R3. injection R3 as <-. eexists. split; [reflexivity|]. exists (o + k1), k3. cbn.
    repeat split; auto. exists k'. repeat split; auto. lia.
  - apply runs_nil in R3. subst. eexists. split; [reflexivity|]. exists (o + k1), k3. cbn. repeat split; auto. lia.
Qed.
Lemma run_hier o k a p q : ModelSpan.pl_authority p = None -> ModelSpan.pl_segments p = [] -> ModelSpan.pl_absolute p = false ->
  lhier o k a -> runs a p q ->
  ModelSpan.pl_scheme q = ModelSpan.pl_scheme p /\ ModelSpan.pl_query q = ModelSpan.pl_query p /\ ModelSpan.pl_fragment q = ModelSpan.pl_fragment p
  /\ exists o2, match ModelSpan.pl_authority q with None => o2 = o | Some au => authority_at buf o au o2 end
     /\ path_at buf o2 (match ModelSpan.pl_authority q with None => false | _ => true end) (ModelSpan.pl_absolute q) (ModelSpan.pl_segments q) (o + k).
Proof.
  intros Pa Ps Pb [H|[H|[H|[H|[]]]]] R.
  - destruct H as (k1 & k2 & a1 & a2 & -> & -> & (k3 & k4 & a3 & a4 & -> & -> & H1 & H2) & (k5 & k6 & a5 & a6 & -> & -> & H3 & H4)).
    destruct H1 as (-> & -> & C1), H2 as (-> & -> & C2). cbn [app] in R.
    apply runs_app in R. destruct R as (p1 & R1 & R2). destruct (run_authority _ _ _ _ _ Pa H3 R1) as (au & -> & o1 & h & U & Hh & Hm).
    destruct (run_slashes _ _ _ _ _ _ H4 R2) as (l & Hs & ->). cbn. rewrite Ps, Pb. cbn [app orb andb].
    split; auto. split; auto. split; auto. exists (o + 2 + k5). split.
    + split; [exact C1|]. split; [now rewrite Nat.add_1_r in C2|]. exists o1, h. replace (S (S o)) with (o + 2) by lia. auto.
    + split; [|reflexivity]. replace (o + S (S (k5 + k6))) with (o + 2 + k5 + k6) by lia. exact Hs.
  - destruct H as (Hc & [(-> & ->)|(k1 & k2 & a2 & Hk1 & -> & -> & Hr)]).
    + apply run_one in R. cbn in R. injection R as <-. cbn. rewrite Pa, Ps. cbn. repeat split; auto. exists o. split; auto.
      right. repeat split; auto. lia.
    + apply runs_cons in R. destruct R as (m1 & E1 & R). cbn in E1. injection E1 as <-.
      apply runs_cons in R. destruct R as (m1 & E1 & R). cbn in E1. rewrite Ps in E1. cbn in E1. injection E1 as <-.
      destruct (run_slashes _ _ _ _ _ _ Hr R) as (l & Hs & ->). cbn. rewrite Pa. repeat split; auto. exists o. split; auto.
      left. destruct k1 as [|k1]; [lia|]. constructor; auto. replace (o + S (S k1 + k2)) with (S o + S k1 + k2) by lia. exact Hs.
  - destruct H as (k1 & k2 & a1 & a2 & -> & -> & [Hk1 ->] & Hr). cbn [app] in R.
    apply runs_cons in R. destruct R as (m1 & E1 & R). cbn in E1. rewrite Ps in E1. cbn in E1. injection E1 as <-.
    destruct (run_slashes _ _ _ _ _ _ Hr R) as (l & Hs & ->). cbn. rewrite Pa, Pb. cbn. repeat split; auto. exists o. split; auto.
    right. exists k1, l. split; auto. split; auto. now rewrite Nat.add_assoc.
  - destruct H as (-> & ->). apply runs_nil in R. subst. rewrite Pa, Ps, Pb. repeat split; auto. exists o. split; auto. left. split; auto.
Qed.
Lemma run_after c g o k a p q : lor (lafter c g) lnil o k a -> runs a p q ->
  (k = 0 /\ q = p) \/ (exists k', k = S k' /\ nth_error buf o = Some c /\ ModelSpan.run_place g (S o, k') p = Ok q).
Proof.
  intros [(k' & -> & Hc & ->)|(-> & ->)] R; [right|left].
  - apply run_one in R. eauto. - apply runs_nil in R. auto.
Qed.
Lemma run_rest o k a p q : ModelSpan.pl_authority p = None -> ModelSpan.pl_segments p = [] -> ModelSpan.pl_absolute p = false ->
  ModelSpan.pl_query p = None -> ModelSpan.pl_fragment p = None -> lrest o k a -> runs a p q ->
  ModelSpan.pl_scheme q = ModelSpan.pl_scheme p /\ exists o2 o3 o4,
    match ModelSpan.pl_authority q with None => o2 = o | Some au => authority_at buf o au o2 end
    /\ path_at buf o2 (match ModelSpan.pl_authority q with None => false | _ => true end) (ModelSpan.pl_absolute q) (ModelSpan.pl_segments q) o3
    /\ mark buf "?" o3 (ModelSpan.pl_query q) o4 /\ mark buf "#" o4 (ModelSpan.pl_fragment q) (o + k).
Proof.
  intros Pa Ps Pb Pq Pf (k1 & k2 & a1 & a2 & -> & -> & H1 & (k3 & k4 & a3 & a4 & -> & -> & H2 & H3)) R.
  apply runs_app in R. destruct R as (p1 & R1 & R). apply runs_app in R. destruct R as (p2 & R2 & R3).
  destruct (run_hier _ _ _ _ _ Pa Ps Pb H1 R1) as (E1 & E2 & E3 & o2 & A & P). rewrite Pq in E2. rewrite Pf in E3.
  apply (run_after _ _ _ _ _ _ _ H2) in R2. apply (run_after _ _ _ _ _ _ _ H3) in R3.
  destruct R2 as [[-> ->]|(k' & -> & C2 & Q2)]; destruct R3 as [[-> ->]|(k'' & -> & C3 & Q3)];
    cbn in *; try (injection Q2 as <-); try (injection Q3 as <-); cbn; rewrite ?E1, ?E2, ?E3; (split; [reflexivity|]).
  - exists o2, (o + k1), (o + k1). repeat split; auto. cbn. lia.
  - exists o2, (o + k1), (o + k1). repeat split; auto. exists k''. rewrite Nat.add_0_r in *. repeat split; auto. lia.
  - exists o2, (o + k1), (o + k1 + S k'). repeat split; auto; cbn; [exists k'; repeat split; auto; lia|lia].
  - exists o2, (o + k1), (o + k1 + S k'). repeat split; auto; cbn; [exists k'; repeat split; auto; lia|].
    exists k''. replace (o + (k1 + S k')) with (o + k1 + S k') in * by lia. repeat split; auto. lia.
Qed.
Lemma run_luri k a q : luri 0 k a -> k = length buf -> runs a ModelSpan.no_parts q -> placed buf q.
Proof.
  intros (k1 & k2 & a1 & a2 & -> & -> & (k' & -> & -> & Hc) & H2) E R. cbn [app] in R.
  apply runs_cons in R. destruct R as (m1 & E1 & R). cbn in E1. injection E1 as <-.
  apply (fun p a b c d e => run_rest _ _ _ p _ a b c d e H2) in R; [|reflexivity..].
  destruct R as (Es & o2 & o3 & o4 & A & P & Q & F). exists (S k'), o2, o3, o4. rewrite Es. cbn in *.
  split; [exists k'; auto|]. rewrite <- E. auto.
Qed.
Lemma run_lrest k a q : lrest 0 k a -> k = length buf -> runs a ModelSpan.no_parts q -> placed buf q.
Proof.
  intros H2 E R.
  apply (fun p a b c d e => run_rest _ _ _ p _ a b c d e H2) in R; [|reflexivity..].
  destruct R as (Es & o2 & o3 & o4 & A & P & Q & F). exists 0, o2, o3, o4. rewrite Es. cbn in *. rewrite <- E. auto.
Qed.
Lemma parse_placed P f q n : floc P f -> (forall k a q, P 0 k a -> k = length buf -> runs a ModelSpan.no_parts q -> placed buf q) ->
  ModelSpan.parse_done buf f = Ok (Some q, n) -> placed buf q.
Proof.
  intros Hf HP H. unfold ModelSpan.parse_done in H.
  apply mbind_inv in H. destruct H as (r & n1 & n2 & H1 & H & ->).
  apply mbind_inv in H. destruct H as ([b p] & n3 & n4 & H2 & H & ->). cbn [fst snd] in H.
  destruct b; [|discriminate]. injection H as <- <-.
  unfold ModelSpan.done in H2. destruct (ModelSpan.tail r) as [[o [|l]]|] eqn:Et; try discriminate.
  apply mbind_inv in H2. destruct H2 as (q & n5 & n6 & H2 & E & ->). injection E as <- <-.
  assert (R : rloc (lseq lnil P) (0, length buf) (ModelSpan.mbind (ModelSpan.ret (ModelSpan.rule_of (0, length buf))) (ModelSpan.concat f))).
  { apply rloc_concat; [apply rloc_start|exact Hf]. }
  unfold ModelSpan.ret in R. cbn [ModelSpan.mbind] in R. rewrite H1 in R. destruct (R _ _ _ eq_refl Et) as (k & E & Hk & L).
  cbn [fst snd] in *. apply lseq_nil in L. injection E as E1 E2. eapply HP; [exact L|lia|]. now exists n5.
Qed.
Lemma split_placed q n : ModelSpan.split_places buf sg fuel = Ok (Some q, n) -> placed buf q.
Proof. apply (parse_placed luri); [apply l_URI|]. exact run_luri. Qed.
Lemma split_reference_placed q n : ModelSpan.split_reference_places buf sg fuel = Ok (Some q, n) -> placed buf q.
Proof.
  apply (parse_placed (lor luri lrest)); [apply l_URI_reference|]. intros k a r [H|H]; [now apply run_luri|now apply run_lrest].
Qed.
End Places.
