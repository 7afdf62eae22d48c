(* remove_dot_segments against the string algorithm of RFC 3986 5.2.4 *)
From Verif Require Import Base ModelUri Rfc3986 SpecPath PathFacts.
From Coq Require Import Lia ZifyBool ZifyNat ZifyN.

Lemma slashed_cons' x l : slashed (x :: l) = slash :: x ++ slashed l.
Proof. reflexivity. Qed.
Lemma slashed_app a b : slashed (a ++ b) = slashed a ++ slashed b.
Proof. unfold slashed. now rewrite map_app, concat_app. Qed.
Lemma until_slash_app x l : no_slash x -> until_slash (x ++ slashed l) = (x, slashed l).
Proof.
  unfold no_slash. induction x as [|c x IH]; intros H; cbn [app until_slash].
  - destruct l; reflexivity.
  - destruct (Ascii.eqb_spec c slash) as [->|]; [exfalso; apply H; now left|]. rewrite IH; auto. intros K. apply H. now right.
Qed.
Lemma no_slash_nil : no_slash [].
Proof. intros []. Qed.
#[local] Hint Resolve no_slash_nil : core.
Lemma no_slash_cons c x : no_slash (c :: x) -> Ascii.eqb c slash = false /\ no_slash x.
Proof.
  unfold no_slash. intros H. split; [|intros K; apply H; now right].
  destruct (Ascii.eqb_spec c slash); auto. exfalso. apply H. now left.
Qed.

(* one step of 5.2.4 on "/x..." *)
Definition after (rest : list str) : list str := match rest with [] => [[]] | _ => rest end.
Ltac eqbs := repeat match goal with
  | |- context [Ascii.eqb ?a ?b] => is_var b; destruct (Ascii.eqb_spec a b); [subst|]
  | H : Ascii.eqb ?a ?a = false |- _ => rewrite Ascii.eqb_refl in H; discriminate
  end.
Lemma str_eqb_false a b : a <> b -> str_eqb a b = false.
Proof. destruct (str_eqb_spec a b); congruence. Qed.
Lemma rds_step_e x rest : no_slash x ->
  first_segment (slashed (x :: rest)) = (slash :: x, slashed rest).
Proof. intros H. rewrite slashed_cons'. cbn [first_segment]. now rewrite (until_slash_app x rest H). Qed.
Lemma rds_step fuel x rest out : no_slash x ->
  rds_rfc (S fuel) (slashed (x :: rest)) out =
  if is_dot x then rds_rfc fuel (slashed (after rest)) out
  else if is_dotdot x then rds_rfc fuel (slashed (after rest)) (remove_last_segment out)
  else rds_rfc fuel (slashed rest) (out ++ slash :: x).
Proof.
  intros Hx. pose proof (rds_step_e x rest Hx) as HE.
  destruct (is_dot_spec x) as [->|N1].
  { destruct rest as [|y l]; reflexivity. }
  destruct (is_dotdot_spec x) as [->|N2].
  { destruct rest as [|y l]; reflexivity. }
  cbn [rds_rfc]. rewrite HE. rewrite slashed_cons'. cbn [strip ss list_ascii_of_string].
  change (Ascii.eqb "." slash) with false. cbn iota. change (Ascii.eqb "/" slash) with true. cbn iota.
  assert (S1 : (if Ascii.eqb "/" slash then strip (ss "./") (x ++ slashed rest) else None) = None).
  { change (Ascii.eqb "/" slash) with true. cbn iota. destruct x as [|c x].
    - destruct rest; reflexivity.
    - cbn [app strip ss list_ascii_of_string]. destruct (Ascii.eqb_spec "." c) as [<-|]; auto. destruct x as [|d x]; [exfalso; now apply N1|].
      destruct (no_slash_cons _ _ Hx) as [_ Hx2]. destruct (no_slash_cons _ _ Hx2) as [Hd _]. cbn [app].
      rewrite Ascii.eqb_sym in Hd. change slash with "/"%char in Hd. now rewrite Hd. }
  assert (S2 : strip (ss "../") (x ++ slashed rest) = None).
  { destruct x as [|c x].
    - destruct rest; reflexivity.
    - cbn [app strip ss list_ascii_of_string]. destruct (Ascii.eqb_spec "." c) as [<-|]; auto.
      destruct (no_slash_cons _ _ Hx) as [_ Hx2]. destruct x as [|d x]; [exfalso; now apply N1|].
      cbn [app]. destruct (Ascii.eqb_spec "." d) as [<-|]; auto.
      destruct (no_slash_cons _ _ Hx2) as [_ Hx3]. destruct x as [|e x]; [exfalso; now apply N2|].
      destruct (no_slash_cons _ _ Hx3) as [He _]. cbn [app]. rewrite Ascii.eqb_sym in He. change slash with "/"%char in He. now rewrite He. }
  cbn [strip ss list_ascii_of_string] in S1, S2. change (Ascii.eqb "/" slash) with true in S1. cbn iota in S1. rewrite S1, S2.
  assert (L0 : forall r : list str, slashed r = [] -> r = []). { intros [|y l]; auto. discriminate. }
  rewrite (str_eqb_false _ ["/"; "."]%char), (str_eqb_false _ ["/"; "."; "."]%char), (str_eqb_false _ ["."]%char), (str_eqb_false _ ["."; "."]%char); auto.
  - discriminate.
  - discriminate.
  - intros E. inversion E as [E1]. destruct x as [|c x].
    + destruct rest; [discriminate|]. cbn in E1. discriminate.
    + cbn in E1. inversion E1 as [[E2 E3]]. subst c. destruct x as [|d x].
      * cbn in E3. destruct rest; discriminate.
      * cbn in E3. inversion E3 as [[E4 E5]]. subst d. apply app_eq_nil in E5. destruct E5 as [-> E5]. now apply N2.
  - intros E. inversion E as [E1]. destruct x as [|c x].
    + destruct rest; discriminate.
    + cbn in E1. inversion E1 as [[E2 E3]]. subst c. apply app_eq_nil in E3. destruct E3 as [-> E3]. now apply N1.
Qed.
Lemma rds_nil fuel out : rds_rfc (S fuel) [] out = Some out.
Proof. reflexivity. Qed.

(* the output buffer as a list of segments *)
Lemma drop_to_slash_app x r : no_slash x -> drop_to_slash (x ++ slash :: r) = r.
Proof.
  induction x as [|c x IH]; intros H; [reflexivity|]. destruct (no_slash_cons _ _ H) as [Hc Hx]. cbn. rewrite Hc. auto.
Qed.
Lemma drop_to_slash_none x : no_slash x -> drop_to_slash x = [].
Proof. induction x as [|c x IH]; intros H; [reflexivity|]. destruct (no_slash_cons _ _ H) as [Hc Hx]. cbn. rewrite Hc. auto. Qed.
Lemma no_slash_rev x : no_slash x -> no_slash (rev x).
Proof. unfold no_slash. now rewrite <- in_rev. Qed.
Lemma remove_last_segment_app o x : no_slash x -> remove_last_segment (o ++ slash :: x) = o.
Proof.
  intros H. unfold remove_last_segment. rewrite rev_app_distr. cbn [rev]. rewrite <- app_assoc. cbn [app].
  rewrite drop_to_slash_app by now apply no_slash_rev. apply rev_involutive.
Qed.
Lemma path_text_snoc c k x : (k <> [] \/ c = true) -> path_text c (k ++ [x]) = path_text c k ++ slash :: x.
Proof.
  intros H. destruct c; cbn [path_text].
  - rewrite slashed_app. cbn. now rewrite app_nil_r.
  - destruct H as [H|]; [|discriminate]. destruct k as [|y k]; [congruence|]. cbn [app]. rewrite slashed_app, app_assoc.
    f_equal. cbn. now rewrite app_nil_r.
Qed.
Definition single {T} (l : list T) : bool := match l with [_] => true | _ => false end.
Lemma remove_last_text c k : Forall no_slash k -> (k <> [] \/ c = true) ->
  remove_last_segment (path_text c k) = path_text (c || single k) (removelast k).
Proof.
  intros Hk H. destruct k as [|x k _] using rev_ind.
  { destruct H as [H| ->]; [congruence|]. reflexivity. }
  apply Forall_app in Hk. destruct Hk as [Hk Hx]. inversion Hx as [|? ? Hx1 _]; subst. rewrite removelast_snoc.
  destruct c.
  - rewrite path_text_snoc by auto. now rewrite remove_last_segment_app.
  - destruct k as [|y k].
    + cbn. rewrite app_nil_r. unfold remove_last_segment. now rewrite drop_to_slash_none by now apply no_slash_rev.
    + rewrite path_text_snoc by (left; discriminate). rewrite remove_last_segment_app by auto. destruct k; reflexivity.
Qed.

Fixpoint cl (c : bool) (k segs : list str) : bool :=
  match segs with
  | [] => c
  | x :: r => if is_dot x then cl c k r else if is_dotdot x then cl (c || single k) (removelast k) r else cl c (k ++ [x]) r
  end.
Definition trail (segs : list str) : str := match segs with [] => [] | _ => if dotty (last segs []) then [slash] else [] end.

Lemma phase2 segs : forall fuel c k, Forall no_slash segs -> Forall no_slash k -> (k <> [] \/ c = true) ->
  length (slashed segs) + 1 < fuel ->
  rds_rfc fuel (slashed segs) (path_text c k) = Some (path_text (cl c k segs) (stk k segs) ++ trail segs).
Proof.
  induction segs as [|x rest IH]; intros fuel c k Hs Hk Hc Hf.
  - destruct fuel; [lia|]. cbn. now rewrite app_nil_r.
  - inversion Hs as [|? ? Hx Hr]; subst. destruct fuel as [|fuel]; [lia|]. rewrite rds_step by auto.
    rewrite slashed_cons' in Hf. cbn [length] in Hf. rewrite app_length in Hf.
    assert (Hrm : Forall no_slash (removelast k)).
    { destruct k as [|y k _] using rev_ind; [constructor|]. rewrite removelast_snoc. apply Forall_app in Hk; tauto. }
    cbn [cl stk]. destruct (is_dot x) eqn:E1; [|destruct (is_dotdot x) eqn:E2].
    + destruct rest as [|y l].
      * cbn [after cl stk]. destruct fuel as [|fuel]; [lia|]. rewrite rds_step by auto. cbn [is_dot is_dotdot].
        change (is_dot []) with false. change (is_dotdot []) with false. cbn iota.
        destruct fuel as [|fuel]; [cbn in Hf; destruct (is_dot_spec x); [subst; cbn in Hf; lia|discriminate]|].
        cbn [slashed map List.concat]. rewrite rds_nil. unfold trail, dotty. cbn [last]. now rewrite E1.
      * cbn [after]. rewrite IH; auto; try lia.
    + rewrite remove_last_text by auto.
      assert (Hc2 : removelast k <> [] \/ c || single k = true).
      { destruct c; [now right|]. destruct k as [|a [|b k]]; [destruct Hc; congruence|now right|left; discriminate]. }
      destruct rest as [|y l].
      * cbn [after cl stk]. destruct fuel as [|fuel]; [lia|]. rewrite rds_step by auto.
        change (is_dot []) with false. change (is_dotdot []) with false. cbn iota.
        destruct fuel as [|fuel]; [cbn in Hf; destruct (is_dotdot_spec x); [subst; cbn in Hf; lia|discriminate]|].
        cbn [slashed map List.concat]. rewrite rds_nil. unfold trail, dotty. cbn [last]. now rewrite E1, E2.
      * cbn [after]. rewrite IH; auto; try lia.
    + rewrite <- path_text_snoc by auto. destruct rest as [|y l].
      * cbn [cl stk]. destruct fuel; [lia|]. cbn [slashed map List.concat]. rewrite rds_nil. unfold trail, dotty. cbn [last]. rewrite E1, E2. cbn. now rewrite app_nil_r.
      * rewrite IH; auto.
        -- apply Forall_app. split; auto.
        -- left. destruct k; discriminate.
        -- lia.
Qed.
Lemma cl_true k s : cl true k s = true.
Proof. revert k. induction s as [|y s IH]; intros k; cbn; auto. destruct (is_dot y); auto. destruct (is_dotdot y); cbn; auto. Qed.
Lemma phase2_abs segs : Forall no_slash segs ->
  rfc_remove_dot_segments (slashed segs) = Some (path_text true (stk [] segs) ++ trail segs).
Proof.
  intros H. unfold rfc_remove_dot_segments. change (@nil ascii) with (path_text true []) at 1.
  rewrite phase2; auto; [|lia]. now rewrite cl_true.
Qed.

(* leading dot segments of a relative path are stripped (2A, 2D) *)
Lemma phase1 segs : forall fuel, Forall no_slash segs -> length (path_text false segs) + 1 < fuel ->
  exists t, rds_rfc fuel (path_text false segs) [] = Some (path_text (cl false [] segs) (stk [] segs) ++ t)
   /\ (if forallb dotty segs then t = [] else t = trail segs).
Proof.
  induction segs as [|x rest IH]; intros fuel Hs Hf.
  { destruct fuel; [lia|]. exists []. split; reflexivity. }
  inversion Hs as [|? ? Hx Hr]; subst.
  cbn [path_text] in *. rewrite app_length in Hf.
  destruct (is_dot_spec x) as [->|N1]; [|destruct (is_dotdot_spec x) as [->|N2]].
  - destruct rest as [|y l].
    + do 2 (destruct fuel; [cbn in Hf; lia|]). exists []. split; reflexivity.
    + destruct fuel as [|fuel]; [lia|].
      assert (E : rds_rfc (S fuel) (dot ++ slashed (y :: l)) [] = rds_rfc fuel (path_text false (y :: l)) []) by reflexivity.
      rewrite E. rewrite slashed_cons' in Hf. cbn [dot ss list_ascii_of_string length] in Hf. rewrite app_length in Hf.
      destruct (IH fuel) as (t & E1 & E2); auto. { rewrite app_length. lia. }
      exists t. split; [exact E1|]. exact E2.
  - destruct rest as [|y l].
    + do 2 (destruct fuel; [cbn in Hf; lia|]). exists []. split; reflexivity.
    + destruct fuel as [|fuel]; [lia|].
      assert (E : rds_rfc (S fuel) (dotdot ++ slashed (y :: l)) [] = rds_rfc fuel (path_text false (y :: l)) []) by reflexivity.
      rewrite E. rewrite slashed_cons' in Hf. cbn [dotdot ss list_ascii_of_string length] in Hf. rewrite app_length in Hf.
      destruct (IH fuel) as (t & E1 & E2); auto. { rewrite app_length. lia. }
      exists t. split; [exact E1|]. exact E2.
  - assert (D : dotty x = false). { destruct (dotty_spec x) as [[H|H]|]; congruence. }
    cbn [forallb]. rewrite D. cbn [andb]. exists (trail (x :: rest)). split; [|reflexivity].
    assert (K : rds_rfc fuel (x ++ slashed rest) [] = Some (path_text (cl false [x] rest) (stk [x] rest) ++ trail rest)).
    { destruct x as [|c x].
      - cbn [app]. change (@nil ascii) with (path_text false [[]]) at 1. apply phase2; auto. left; discriminate.
      - destruct fuel as [|fuel]; [lia|].
        assert (E : rds_rfc (S fuel) ((c :: x) ++ slashed rest) [] = rds_rfc fuel (slashed rest) (c :: x)).
        { destruct (no_slash_cons _ _ Hx) as [Hc Hx2]. pose proof (until_slash_app _ rest Hx) as Hu. cbn [app] in *. cbn [rds_rfc]. cbn [strip ss list_ascii_of_string first_segment].
          change "/"%char with slash. rewrite (Ascii.eqb_sym slash c), Hc. cbn [andb].
          rewrite Hu. cbn [app].
          rewrite !(str_eqb_false (c :: x ++ slashed rest)).
          2:{ intros E. inversion E as [[E1 E2]]. subst c. destruct x as [|d x]; [destruct rest; discriminate|]. cbn in E2. inversion E2 as [[E3 E4]].
              apply app_eq_nil in E4. destruct E4 as [-> _]. subst d. now apply N2. }
          2:{ intros E. inversion E as [[E1 E2]]. subst c. apply app_eq_nil in E2. destruct E2 as [-> _]. now apply N1. }
          2:{ intros E. inversion E as [[E1 E2]]. subst c. discriminate. }
          2:{ intros E. inversion E as [[E1 E2]]. subst c. discriminate. }
          cbn [orb].
          destruct (Ascii.eqb_spec "." c) as [<-|]; auto. destruct x as [|d x]; [exfalso; now apply N1|].
          destruct (no_slash_cons _ _ Hx2) as [Hd Hx3]. cbn [app]. rewrite (Ascii.eqb_sym slash d), Hd.
          destruct (Ascii.eqb_spec "." d) as [<-|]; auto. destruct x as [|e x]; [exfalso; now apply N2|].
          destruct (no_slash_cons _ _ Hx3) as [He _]. cbn [app]. now rewrite (Ascii.eqb_sym slash e), He. }
        rewrite E. replace (c :: x) with (path_text false [c :: x]) at 1 by (cbn; now rewrite app_nil_r).
        apply phase2; auto; [left; discriminate|]. cbn [length] in Hf. lia. }
    rewrite K. cbn [cl stk]. destruct (is_dot_spec x); [congruence|]. destruct (is_dotdot_spec x); [congruence|]. cbn [app]. do 2 f_equal.
    destruct rest; [|reflexivity]. unfold trail. cbn [last]. now rewrite D.
Qed.

(* --- climbing --------------------------------------------------------------- *)
Lemma cl_app c k a b : cl c k (a ++ b) = cl (cl c k a) (stk k a) b.
Proof. revert c k. induction a as [|x a IH]; intros c k; cbn; auto. destruct (is_dot x); auto. destruct (is_dotdot x); auto. Qed.
Lemma cl_false_nil segs : forall k, cl false k segs = false -> stk k segs = [] -> k = [] /\ Forall is_dots segs.
Proof.
  induction segs as [|x l IH]; cbn; intros k H1 H2; [auto|].
  destruct (is_dot_spec x) as [->|]; [|destruct (is_dotdot_spec x) as [->|]].
  - destruct (IH _ H1 H2). split; auto. constructor; auto. now left.
  - destruct (single k) eqn:E; cbn in H1; [rewrite cl_true in H1; discriminate|].
    destruct (IH _ H1 H2) as [E2 ?]. split; [|constructor; auto; now right].
    destruct k as [|a [|b k]]; [auto|discriminate|discriminate].
  - destruct (IH _ H1 H2) as [E2 _]. destruct k; discriminate.
Qed.
Lemma cl_false_true segs : forall k, cl false k segs = true ->
  exists pre post, segs = pre ++ post /\ stk k pre = [] /\ (k <> [] \/ exists x, In x pre /\ ~ is_dots x).
Proof.
  induction segs as [|x l IH]; cbn; intros k H1; [discriminate|].
  destruct (is_dot_spec x) as [E|N1]; [|destruct (is_dotdot_spec x) as [E|N2]].
  - destruct (IH _ H1) as (pre & post & -> & E2 & E3). exists (x :: pre), post. subst x. split; auto. split; [exact E2|].
    destruct E3 as [|(y & ? & ?)]; auto. right. exists y. split; auto. now right.
  - subst x. destruct (single k) eqn:Es; cbn in H1.
    + exists [dotdot], l. split; auto. destruct k as [|a [|b k]]; try discriminate. split; [reflexivity|left; discriminate].
    + destruct (IH _ H1) as (pre & post & -> & E2 & E3). exists (dotdot :: pre), post. split; auto. split; [exact E2|].
      destruct E3 as [E3|(y & ? & ?)]; [left; destruct k; [exact E3|discriminate]|]. right. exists y. split; auto. now right.
  - destruct (IH _ H1) as (pre & post & -> & E2 & _). exists (x :: pre), post. split; auto. split.
    + cbn. destruct (is_dot_spec x); [congruence|]. destruct (is_dotdot_spec x); [congruence|]. exact E2.
    + right. exists x. split; [now left|]. intros [|]; congruence.
Qed.
Lemma climbs_iff segs : climbs segs <-> cl false [] segs = true.
Proof.
  split.
  - intros (pre & post & -> & H1 & x & H2 & H3). apply stk_resolves in H1. rewrite cl_app.
    destruct (cl false [] pre) eqn:E; [apply cl_true|]. destruct (cl_false_nil _ _ E H1) as [_ F].
    rewrite Forall_forall in F. exfalso. auto.
  - intros H. destruct (cl_false_true _ _ H) as (pre & post & -> & E & [F|F]); [congruence|].
    exists pre, post. split; auto. split; auto. now apply resolves_iff.
Qed.

Lemma path_string_text p : path_string p = path_text (absolute p) (segments p).
Proof.
  unfold path_string. assert (G : forall segs acc, path_string_loop (ss "/") segs acc = acc ++ slashed segs).
  { induction segs as [|x l IH]; intros acc; cbn [path_string_loop]; [cbn; now rewrite app_nil_r|].
    rewrite IH, slashed_cons', <- !app_assoc. reflexivity. }
  destruct (absolute p); cbn [path_text]; [apply G|].
  destruct (segments p) as [|x l]; [reflexivity|]. cbn [path_string_loop app]. apply G.
Qed.

Definition last_empty (k : list str) : bool := match k with [] => false | _ => is_empty (last k []) end.
Lemma last_empty_snoc k y : last_empty (k ++ [y]) = is_empty y.
Proof. unfold last_empty. rewrite last_snoc. destruct k; reflexivity. Qed.
Definition dae (segs : list str) : bool := match segs with [] => false | _ => dotty (last segs []) && last_empty (stk [] segs) end.
Lemma dae_snoc l x : dae (l ++ [x]) = dotty x && last_empty (stk [] (l ++ [x])).
Proof. unfold dae. rewrite last_snoc. destruct l; reflexivity. Qed.
Lemma trail_snoc l x : trail (l ++ [x]) = if dotty x then [slash] else [].
Proof. unfold trail. rewrite last_snoc. destruct l; reflexivity. Qed.
Lemma dae_iff segs : dots_after_empty segs <-> dae segs = true.
Proof.
  unfold dots_after_empty. destruct segs as [|x l _] using rev_ind.
  { split; [intros (l & x & k & E & _); destruct l; discriminate|discriminate]. }
  rewrite dae_snoc. split.
  - intros (l0 & x0 & k & E & Hd & Hr). apply app_inj_tail in E. destruct E as [<- <-]. apply stk_resolves in Hr. rewrite Hr, last_empty_snoc.
    destruct (dotty_spec x); [reflexivity|tauto].
  - intros H. apply andb_true_iff in H. destruct H as [H1 H2]. exists l, x. pose proof (resolves_stk (l ++ [x])) as R.
    destruct (stk [] (l ++ [x])) as [|y k _] using rev_ind; [discriminate|]. rewrite last_empty_snoc in H2. exists k. split; auto.
    split; [now destruct (dotty_spec x)|]. destruct (is_empty_spec y); [now subst y|discriminate].
Qed.
(* what the code returns, as text *)
Lemma rds_text c segs : (stk [] segs = [] -> c = false -> Forall is_dots segs) ->
  path_text c (stk [] segs) ++ (if negb c && forallb dotty segs then [] else trail segs)
  = path_text c (rds_segments segs) ++ (if dae segs then [slash] else []).
Proof.
  intros Hc. rewrite rds_segments_stk. cbn zeta. destruct segs as [|x l _] using rev_ind.
  { destruct c; reflexivity. }
  replace (match l ++ [x] with [] => false | _ => dirlike (last (l ++ [x]) []) end) with (dirlike x)
    by (rewrite last_snoc; destruct l; reflexivity).
  rewrite trail_snoc, dae_snoc.
  pose proof (stk_app [] l [x]) as SA. cbn [stk] in SA.
  destruct (dotty_spec x) as [Hd|Hd].
  - assert (dirlike x = true) as -> by (unfold dirlike; destruct Hd as [->| ->]; reflexivity).
    pose proof (stk_no_dots [] (l ++ [x]) ltac:(constructor)) as Hn.
    pose proof (resolves_subseq _ _ (resolves_stk (l ++ [x]))) as Hsub.
    destruct (stk [] (l ++ [x])) as [|y k _] using rev_ind.
    + destruct c; [reflexivity|]. specialize (Hc eq_refl eq_refl).
      replace (forallb dotty (l ++ [x])) with true; [reflexivity|]. symmetry. apply forallb_forall. rewrite Forall_forall in Hc.
      intros z Hz. destruct (dotty_spec z); auto.
    + assert (Fa : forallb dotty (l ++ [x]) = false).
      { destruct (forallb dotty (l ++ [x])) eqn:E; auto. exfalso. rewrite forallb_forall in E.
        assert (In y (l ++ [x])) as Hy.
        { assert (G : forall (a b : list str), subseq a b -> forall z, In z a -> In z b).
          { clear. induction 1; cbn; intuition. } apply (G _ _ Hsub). apply in_or_app. right. now left. }
        apply Forall_app in Hn. destruct Hn as [_ Hn]. inversion Hn as [|? ? Hn1 _]; subst. apply E in Hy. destruct (dotty_spec y); [auto|discriminate]. }
      rewrite Fa, andb_false_r, last_empty_snoc, last_snoc.
      destruct (k ++ [y]) as [|k0 k1] eqn:Ek; [destruct k; discriminate|]. rewrite <- Ek. destruct (is_empty y); [reflexivity|]. cbn [andb].
rewrite (app_nil_r (path_text c ((k ++ [y]) ++ [[]]))). symmetry. apply path_text_snoc. left. destruct k; discriminate.
  - assert (Fa : forallb dotty (l ++ [x]) = false).
    { rewrite forallb_app. cbn. destruct (dotty_spec x); [tauto|]. now rewrite andb_false_r. }
    rewrite Fa, andb_false_r. cbn [andb]. rewrite !app_nil_r. f_equal. unfold dirlike.
    destruct (is_dot_spec x); [exfalso; apply Hd; left; auto|]. destruct (is_dotdot_spec x); [exfalso; apply Hd; right; auto|].
    cbn [orb]. destruct (is_empty_spec x) as [Ex|]; auto. rewrite SA, last_snoc. subst x. cbn [is_empty]. destruct (stk [] l); reflexivity.
Qed.
Lemma rds_rfc_exact p : Forall no_slash (segments p) ->
  exists c t, rfc_remove_dot_segments (path_string p) = Some (path_text c (segments (remove_dot_segments p)) ++ t)
    /\ (c = true <-> absolute p = true \/ climbs (segments p))
    /\ ((dots_after_empty (segments p) /\ t = ss "/") \/ (~ dots_after_empty (segments p) /\ t = [])).
Proof.
  intros H. rewrite path_string_text. destruct p as [b segs]. cbn [absolute segments remove_dot_segments] in *.
  exists (b || cl false [] segs), (if dae segs then [slash] else []). split; [|split].
  - destruct b.
    + cbn [orb]. change (path_text true segs) with (slashed segs). rewrite phase2_abs by auto. f_equal. exact (rds_text true segs ltac:(discriminate)).
    + cbn [orb]. destruct (phase1 segs (length (path_text false segs) + 2) H) as (t & E1 & E2); [lia|].
      unfold rfc_remove_dot_segments. rewrite E1. f_equal. etransitivity; [|apply rds_text].
      * f_equal. destruct (forallb dotty segs) eqn:Ef; [|now rewrite andb_false_r].
        rewrite E2. destruct (cl false [] segs) eqn:Ec; [|reflexivity]. exfalso.
        apply climbs_iff in Ec. destruct Ec as (pre & post & -> & _ & x & Hx & Hd). rewrite forallb_forall in Ef.
        apply Hd. specialize (Ef x ltac:(apply in_or_app; auto)). now destruct (dotty_spec x).
      * intros E Ec. now apply (cl_false_nil segs []).
  - rewrite climbs_iff, orb_true_iff. tauto.
  - rewrite dae_iff. destruct (dae segs); [left|right]; auto.
Qed.
Lemma rfc_rds_total s : exists r, rfc_remove_dot_segments s = Some r.
Proof.
  unfold rfc_remove_dot_segments. assert (G : forall fuel inp out, length inp < fuel -> exists r, rds_rfc fuel inp out = Some r).
  { assert (ST : forall pre s r, strip pre s = Some r -> s = pre ++ r).
    { induction pre as [|a pre IH]; intros s0 r E; cbn in E |- *; [congruence|]. destruct s0 as [|b s0]; [discriminate|].
      destruct (Ascii.eqb_spec a b); [|discriminate]. subst. cbn. f_equal. auto. }
    assert (US : forall s0 a b, until_slash s0 = (a, b) -> s0 = a ++ b).
    { induction s0 as [|c s0 IH]; intros a b E; cbn in E; [inversion E; reflexivity|]. destruct (Ascii.eqb c slash); [inversion E; auto|].
      destruct (until_slash s0) as [a' b'] eqn:E2. inversion E; subst. cbn. f_equal. auto. }
    induction fuel as [|fuel IH]; intros inp out Hf; [lia|]. cbn [rds_rfc]. destruct inp as [|c inp]; [eauto|].
    destruct (strip (ss "../") (c :: inp)) eqn:S1. { apply ST in S1. apply IH. rewrite S1 in Hf. cbn in Hf. lia. }
    destruct (strip (ss "./") (c :: inp)) eqn:S2. { apply ST in S2. apply IH. rewrite S2 in Hf. cbn in Hf. lia. }
    destruct (strip (ss "/./") (c :: inp)) eqn:S3. { apply ST in S3. apply IH. rewrite S3 in Hf. cbn in *. lia. }
    destruct (str_eqb_spec (c :: inp) (ss "/.")) as [E|_]. { apply IH. rewrite E in Hf. cbn in *. lia. }
    destruct (strip (ss "/../") (c :: inp)) eqn:S4. { apply ST in S4. apply IH. rewrite S4 in Hf. cbn in *. lia. }
    destruct (str_eqb_spec (c :: inp) (ss "/..")) as [E|_]. { apply IH. rewrite E in Hf. cbn in *. lia. }
    destruct (str_eqb (c :: inp) (ss ".") || str_eqb (c :: inp) (ss "..")). { apply IH. cbn in *; lia. }
    cbn [first_segment]. destruct (Ascii.eqb c slash) eqn:Ec.
    - destruct (until_slash inp) as [a b] eqn:E. apply US in E. apply IH. subst inp. cbn in Hf. rewrite app_length in Hf. lia.
    - destruct (until_slash (c :: inp)) as [a b] eqn:E. cbn in E. rewrite Ec in E. destruct (until_slash inp) as [a' b'] eqn:E2. inversion E; subst.
      apply US in E2. subst inp. apply IH. cbn in Hf. rewrite app_length in Hf. lia. }
  apply G. lia.
Qed.
