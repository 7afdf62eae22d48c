(* Proofs for C48 and C49: results of join written and read again; == is a congruence. *)
From Verif Require Import Base ModelUri Rfc3986 SpecHost SpecParts SpecUri SpecPath SpecResolve PathFacts PathRfc UriSplit UriValid UriProps
  JoinFacts PropSplitFacts PropPathFacts.
From Coq Require Import ZifyBool ZifyNat ZifyN.

(* --- lengths ------------------------------------------------------------------------------------ *)
Fixpoint weight (l : list str) : nat := match l with [] => 0 | x :: r => S (length x + weight r) end.
Lemma weight_app a b : weight (a ++ b) = weight a + weight b.
Proof. induction a; cbn; lia. Qed.
Lemma slashed_len l : length (slashed l) = weight l.
Proof. unfold slashed. induction l as [|x l IH]; cbn; auto. rewrite app_length. cbn in IH. lia. Qed.
Lemma weight_removelast l : weight (removelast l) <= weight l.
Proof. destruct l as [|x l _] using rev_ind; auto. rewrite removelast_snoc, weight_app. lia. Qed.
Lemma weight_stk l : forall st, weight (stk st l) <= weight st + weight l.
Proof.
  induction l as [|x l IH]; intros st; cbn [stk weight]; [lia|].
  destruct (is_dot x); [specialize (IH st); lia|]. destruct (is_dotdot x).
  - specialize (IH (removelast st)). pose proof (weight_removelast st). lia.
  - specialize (IH (st ++ [x])). rewrite weight_app in IH. cbn in IH. lia.
Qed.
Lemma weight_rds l : weight (rds_segments l) <= weight l.
Proof.
  rewrite rds_segments_stk. cbn zeta. destruct l as [|x l _] using rev_ind; [cbn; lia|]. rewrite last_snoc.
  assert (E : (match l ++ [x] with [] => false | _ :: _ => dirlike x end) = dirlike x) by (destruct l; reflexivity). rewrite E. clear E.
  pose proof (weight_stk (l ++ [x]) []) as H0. rewrite stk_app in *. cbn [stk] in *. pose proof (weight_stk l []) as H1. cbn [weight] in H0, H1.
  unfold dirlike. rewrite weight_app. destruct (is_dot_spec x) as [->|N1]; cbn [orb].
  - destruct (stk [] l) as [|k0 k] eqn:Ek; [cbn; lia|]. destruct (is_empty _); rewrite ?weight_app; cbn [weight app] in *; cbn [length dot ss list_ascii_of_string]; lia.
  - destruct (is_dotdot_spec x) as [->|N2]; cbn [orb].
    + pose proof (weight_removelast (stk [] l)). destruct (removelast (stk [] l)) as [|k0 k] eqn:Ek; [cbn; lia|].
      destruct (is_empty _); rewrite ?weight_app; cbn [weight app] in *; cbn [length dotdot ss list_ascii_of_string]; lia.
    + destruct (is_empty x) eqn:Ex.
      * rewrite last_snoc, Ex. destruct (stk [] l ++ [x]) as [|k0 k] eqn:Ek; [destruct (stk [] l); discriminate|]. rewrite <- Ek, weight_app. cbn [weight]. lia.
      * rewrite weight_app. cbn [weight]. lia.
Qed.

(* --- the length of a composed result ------------------------------------------------------------- *)
Definition olen (post : nat) (s : option str) : nat := match s with Some x => length x + post | None => 0 end.
Definition alen (a : option ModelUri.authority) : nat :=
  match a with Some a => 2 + olen 1 (ModelUri.userinfo a) + length (ModelUri.host a) + olen 1 (ModelUri.port a) | None => 0 end.
Definition plen (a : option ModelUri.authority) (p : path) : nat :=
  match a with Some _ => weight (segments p)
  | None => if absolute p then weight (segments p) else pred (weight (segments p)) end.
Lemma compose_len p : length (compose p) =
  olen 1 (p_scheme p) + alen (p_authority p) + plen (p_authority p) (p_path p) + olen 1 (p_query p) + olen 1 (p_fragment p).
Proof.
  rewrite compose_eq, !app_length. destruct p as [sc a [ab sg] q f].
  cbn [comps p_scheme p_authority p_path absolute segments p_query p_fragment].
  assert (E1 : forall o, length (opt_post o (ss ":")) = olen 1 o) by (intros [x|]; cbn; rewrite ?app_length; reflexivity).
  assert (E1' : forall o, length (opt_post o (ss "@")) = olen 1 o) by (intros [x|]; cbn; rewrite ?app_length; reflexivity).
  assert (E2 : forall s o, length (ss s) = 1 -> length (opt_pre (ss s) o) = olen 1 o) by (intros s [x|] H; cbn [opt_pre olen]; [rewrite app_length, H; apply Nat.add_comm|reflexivity]).
  rewrite E1, !E2 by reflexivity. unfold hier_string, comps. cbn [c_authority c_absolute c_segments p_scheme p_authority p_path absolute segments p_query p_fragment].
  destruct a as [[u h pt]|]; cbn [ModelUri.userinfo ModelUri.host ModelUri.port alen plen absolute segments].
  - rewrite !app_length, slashed_len, E1', E2 by reflexivity. cbn [length ss list_ascii_of_string]. lia.
  - destruct ab; rewrite ?slashed_len; [lia|]. destruct sg as [|x l]; cbn [weight Init.Nat.pred length]; [lia|]. cbn [pred]. unfold str in *. rewrite app_length, slashed_len. lia.
Qed.
Lemma plen_rds a ab l : plen a (mkpath ab (rds_segments l)) <= plen a (mkpath ab l).
Proof. pose proof (weight_rds l). unfold plen; cbn [absolute segments]. destruct a; [auto|]. destruct ab; lia. Qed.
Lemma merge_len b r : p_authority r = None -> absolute (p_path r) = false ->
  plen (p_authority b) (merge b r) <= S (plen (p_authority b) (p_path b) + plen None (p_path r)).
Proof.
  intros Ea Eb. destruct r as [sr ar [abr lr] qr fr], b as [sb ab_ [abb lb] qb fb]. cbn [p_authority p_path absolute segments] in *. subst.
  assert (W : weight ((if Nat.ltb 1 (length lb) then firstn (length lb - 1) lb else lb) ++ lr) <= weight lb + weight lr).
  { rewrite weight_app. destruct (Nat.ltb 1 (length lb)); [|lia]. rewrite Nat.sub_1_r, <- removelast_firstn, firstn_all by lia. pose proof (weight_removelast lb). lia. }
  unfold merge, path_is_empty. cbn [p_authority p_path absolute segments].
  destruct ab_ as [x|].
  - destruct lb as [|y lb]; cbn [plen absolute segments weight]; [lia|]. cbn [plen absolute segments weight] in *. lia.
  - destruct lb as [|y lb]; cbn [plen absolute segments].
    + change (if 1 <? _ then _ else _) with (@nil str) in *. cbn [app weight Init.Nat.pred] in *. destruct abb; lia.
    + cbn [plen absolute segments] in *. destruct abb; lia.
Qed.
Lemma join_len b r strict : length (compose (join_parts b r strict)) <= S (length (compose b) + length (compose r)).
Proof.
  rewrite !compose_len. unfold join_parts.
  assert (ES : forall s, (if negb strict && opt_eqb str_eqb (p_scheme r) (p_scheme b) then None else p_scheme r) = Some s -> p_scheme r = Some s)
    by (intros s; destruct (negb strict && _); congruence).
  destruct (if negb strict && _ then None else p_scheme r) as [s|] eqn:E.
  - rewrite (ES s eq_refl). cbn [p_scheme p_authority p_path p_query p_fragment].
    pose proof (plen_rds (p_authority r) (absolute (p_path r)) (segments (p_path r))). unfold remove_dot_segments.
    destruct (p_path r) as [pa pl]; cbn [absolute segments] in *. lia.
  - clear ES E. destruct (p_authority r) as [ra|] eqn:Ea.
    + cbn [p_scheme p_authority p_path p_query p_fragment].
      pose proof (plen_rds (Some ra) (absolute (p_path r)) (segments (p_path r))). unfold remove_dot_segments.
      destruct (p_path r) as [pa pl]; cbn [absolute segments] in *. lia.
    + destruct (path_is_empty (p_path r)) eqn:Ee; cbn [p_scheme p_authority p_path p_query p_fragment].
      * destruct (p_query r); cbn [olen]; lia.
      * destruct (absolute (p_path r)) eqn:Eb; cbn [p_scheme p_authority p_path p_query p_fragment].
        -- unfold remove_dot_segments. rewrite Eb.
           assert (plen (p_authority b) (mkpath true (rds_segments (segments (p_path r)))) <= plen None (p_path r)).
           { unfold plen. rewrite Eb. cbn [absolute segments]. pose proof (weight_rds (segments (p_path r))). destruct (p_authority b); lia. }
           lia.
        -- pose proof (merge_len b r Ea Eb). pose proof (plen_rds (p_authority b) (absolute (merge b r)) (segments (merge b r))).
           unfold remove_dot_segments. destruct (merge b r) as [pa pl]; cbn [absolute segments] in *. lia.
Qed.
Lemma join_strings_len sg fuel base ref strict t : fits fuel base -> fits fuel ref ->
  join sg fuel base ref strict = Ok (Some t) -> length (compose t) <= S (length base + length ref).
Proof.
  intros Fb Fr E. apply join_strings in E. destruct E as [(_ & E)|[(b & _ & _ & E)|(b & r & Eb & Er & E)]]; try discriminate.
  assert (E' : t = join_parts b r strict) by congruence. clear E. subst t. apply split_iff in Eb; auto. apply split_reference_iff in Er; auto.
  rewrite <- (decomp_compose base b) at 1 by (left; apply Eb). rewrite <- (decomp_compose ref r) at 1 by apply Er. apply join_len.
Qed.

(* --- the path of a result ------------------------------------------------------------------------ *)
Lemma join_path b r strict : exists abs segs, resolved_path strict (comps b) (comps r) abs segs
  /\ let t := join_parts b r strict in
     p_path t = mkpath abs (rds_segments segs)
     \/ (segments (p_path r) = [] /\ segs = [] /\ p_path t = p_path b /\ p_authority t = p_authority b).
Proof.
  cbn zeta. unfold join_parts.
  destruct (if negb strict && opt_eqb str_eqb (p_scheme r) (p_scheme b) then None else p_scheme r) as [s|] eqn:E.
  - exists (absolute (p_path r)), (segments (p_path r)). split; [|left; reflexivity].
    apply (rp_own strict (comps b) (comps r)). intros ([H|[-> H]] & _); cbn in H.
    + rewrite H in E. destruct (negb strict && _); discriminate.
    + rewrite H in E. cbn in E. destruct (opt_str_eqb_spec (p_scheme b) (p_scheme b)); congruence.
  - assert (MS : p_scheme r = None \/ strict = false /\ p_scheme r = p_scheme b).
    { destruct strict; cbn in E; [auto|]. destruct (opt_str_eqb_spec (p_scheme r) (p_scheme b)); auto. }
    destruct (p_authority r) as [ra|] eqn:Ea; cbn [p_path p_authority].
    { exists (absolute (p_path r)), (segments (p_path r)). split; [|left; reflexivity].
      apply (rp_own strict (comps b) (comps r)). intros (_ & H & _). cbn in H. rewrite Ea in H. discriminate. }
    unfold path_is_empty. destruct (segments (p_path r)) as [|y l] eqn:El; cbn [p_path p_authority].
    { exists (absolute (p_path r)), []. split; [|right; auto]. rewrite <- El.
      apply (rp_own strict (comps b) (comps r)). intros (_ & _ & _ & H). cbn in H. congruence. }
    destruct (absolute (p_path r)) eqn:Eb; cbn [p_path p_authority].
    { exists (absolute (p_path r)), (segments (p_path r)). split; [|left; rewrite El; unfold remove_dot_segments; now rewrite El].
      apply (rp_own strict (comps b) (comps r)). intros (_ & _ & H & _). cbn in H. congruence. }
    assert (MA : merge_applies strict (comps b) (comps r)).
    { split; [exact MS|]. cbn. rewrite Ea, El. repeat split; auto. discriminate. }
    destruct (segments (p_path b)) as [|x [|x2 k]] eqn:Ek.
    + exists (absolute (merge b r)), (segments (merge b r)). split; [|left; reflexivity].
      assert (EM : (absolute (merge b r), segments (merge b r)) = merged (comps b) (comps r)).
      { unfold merge, merged, path_is_empty, comps. cbn [c_authority c_segments c_absolute]. rewrite Ek. destruct (p_authority b); reflexivity. }
      replace (absolute (merge b r)) with (fst (merged (comps b) (comps r))) by now rewrite <- EM.
      replace (segments (merge b r)) with (snd (merged (comps b) (comps r))) by now rewrite <- EM.
      apply rp_merged; auto. cbn. rewrite Ek. discriminate.
    + exists (absolute (p_path b)), (x :: segments (p_path r)). split; [apply (rp_one strict (comps b) (comps r)); auto|].
      left. unfold merge, path_is_empty. rewrite Ek. destruct (p_authority b); reflexivity.
    + exists (absolute (merge b r)), (segments (merge b r)). split; [|left; reflexivity].
      assert (EM : (absolute (merge b r), segments (merge b r)) = merged (comps b) (comps r)).
      { unfold merge, merged, path_is_empty, comps. cbn [c_authority c_segments c_absolute]. rewrite Ek.
        change (Nat.ltb 1 (length (x :: x2 :: k))) with true. cbn iota. rewrite Nat.sub_1_r, <- removelast_firstn, firstn_all by lia. destruct (p_authority b); reflexivity. }
      replace (absolute (merge b r)) with (fst (merged (comps b) (comps r))) by now rewrite <- EM.
      replace (segments (merge b r)) with (snd (merged (comps b) (comps r))) by now rewrite <- EM.
      apply rp_merged; auto. cbn. rewrite Ek. discriminate.
Qed.
Lemma resolved_path_det strict b r a1 l1 a2 l2 : resolved_path strict b r a1 l1 -> resolved_path strict b r a2 l2 -> a1 = a2 /\ l1 = l2.
Proof. intros [] []; try tauto; split; congruence. Qed.

(* --- representable, in terms of the resolved path ------------------------------------------------- *)
Definition path_representable (p : path) : Prop :=
  match absolute p, segments p with
  | true, [] => False | true, [[]] => True | true, x :: _ => x <> []
  | false, [] => True | false, x :: _ => x <> [] end.
Lemma stk_nil_dirlike l x : stk [] (l ++ [x]) = [] -> dirlike x = true.
Proof.
  rewrite stk_app. cbn [stk]. unfold dirlike. destruct (is_dot x); auto. destruct (is_dotdot x); auto. destruct (stk [] l); discriminate.
Qed.
Lemma rds_representable abs segs : (abs = true -> segs <> []) ->
  path_representable (mkpath abs (rds_segments segs)) <-> text_form abs segs (stk [] segs).
Proof.
  intros Hs. unfold path_representable, text_form. cbn [absolute segments]. rewrite rds_segments_stk. cbn zeta.
  destruct segs as [|x l _] using rev_ind.
  { cbn. destruct abs; [exfalso; now apply Hs|]. tauto. }
  rewrite last_snoc. assert (E : (match l ++ [x] with [] => false | _ :: _ => dirlike x end) = dirlike x) by (destruct l; reflexivity). rewrite E. clear E.
  assert (NE : l ++ [x] <> []) by (destruct l; discriminate).
  destruct (stk [] (l ++ [x])) as [|k0 k] eqn:Ek.
  - rewrite (stk_nil_dirlike l x Ek). destruct abs; split; auto; try tauto. intros [H|H]; [discriminate|tauto].
  - destruct (dirlike x).
    + destruct (is_empty (last (k0 :: k) [])) eqn:El.
      * destruct k0, k, abs; split; auto; try congruence; try discriminate.
      * destruct k0; [destruct k; [discriminate|]|]; destruct abs; cbn [app]; split; try congruence; destruct k; cbn; congruence.
    + destruct k0, k, abs; split; auto; try congruence; try discriminate.
Qed.
Lemma representable_path p : representable p <-> p_authority p <> None \/ path_representable (p_path p).
Proof. reflexivity. Qed.

(* --- reading a result back ------------------------------------------------------------------------ *)
Lemma fits_length fuel s t : length t <= length s -> fits fuel s -> fits fuel t.
Proof. unfold fits. lia. Qed.
Lemma fits_base fuel base ref : fits fuel (base ++ ss "/" ++ ref) -> fits fuel base /\ fits fuel ref.
Proof. intros H. split; (eapply fits_length; [|exact H]); rewrite !app_length; lia. Qed.
Lemma fits_result sg fuel base ref strict t : fits fuel (base ++ ss "/" ++ ref) ->
  join sg fuel base ref strict = Ok (Some t) -> fits fuel (compose t).
Proof.
  intros F E. destruct (fits_base _ _ _ F) as [Fb Fr]. eapply fits_length; [|exact F].
  pose proof (join_strings_len _ _ _ _ _ _ Fb Fr E). rewrite !app_length. cbn [length ss list_ascii_of_string]. lia.
Qed.
Lemma reads_back sg fuel base ref strict t : fits fuel (base ++ ss "/" ++ ref) -> join sg fuel base ref strict = Ok (Some t) ->
  (representable t <-> exists t', split sg fuel (compose t) = Ok (Some t') /\ parts_eqb t' t = true).
Proof.
  intros F E. destruct (fits_base _ _ _ F) as [Fb Fr]. pose proof (fits_result _ _ _ _ _ _ F E) as Ft. apply valid_roundtrip; auto.
  exact (join_valid_bool _ _ _ _ _ _ Fb Fr (compose_parts_fit _ _ Ft) E).
Qed.
Lemma base_representable sb b : URI_decomp sb (comps b) -> representable b.
Proof. apply decomp_representable. Qed.
Lemma merged_nil b r : snd (merged b r) = [] -> c_segments r = [].
Proof.
  unfold merged. assert (G : forall a : list str, a ++ c_segments r = [] -> c_segments r = []) by (intros [|? ?]; [auto|discriminate]).
  destruct (c_authority b); [destruct (c_segments b)|]; cbn [snd]; auto; apply G.
Qed.
Lemma representable_exact base ref b r strict : URI_decomp base (comps b) -> reference_decomp ref (comps r) ->
  let t := join_parts b r strict in
  representable t <-> p_authority t <> None \/ forall abs segs k, resolved_path strict (comps b) (comps r) abs segs -> resolves segs k -> text_form abs segs k.
Proof.
  intros Hb Hr t. destruct (join_path b r strict) as (abs & segs & HP & HT). fold t in HT. cbn zeta in HT. rewrite representable_path.
  pose proof (decomp_shape _ _ (or_introl Hb)) as SB. pose proof (decomp_shape _ _ Hr) as SR.
  destruct (p_authority t) as [ta|] eqn:Eta; [split; intros _; left; discriminate|].
  assert (EQ : path_representable (p_path t) <-> text_form abs segs (stk [] segs)).
  { destruct HT as [HT|(Hn & -> & HT & HA)].
    - rewrite HT. destruct segs as [|x l].
      + inversion HP as [Hm E1 E2|x' Hm Hx E1 E2|Hm Hx E1 E2].
        * cbn in E2. assert (Hab : absolute (p_path r) = false).
          { destruct (absolute (p_path r)) eqn:Eab; auto. exfalso. apply (ps_abs _ SR Eab). cbn. now symmetry. }
          subst abs. cbn in Hab |- *. rewrite Hab, ?E2. cbn. split; auto.
        * exfalso. destruct Hm as (_ & _ & _ & Hm). apply Hm, (merged_nil (comps b)). exact E2.
      + apply rds_representable. discriminate.
    - rewrite HT. assert (path_representable (p_path b)) as HB.
      { destruct (proj1 (representable_path b) (base_representable _ _ Hb)) as [H|H]; auto. congruence. }
      split; auto. intros _. cbn. auto. }
  rewrite EQ. split.
  - intros [H|H]; [congruence|]. right. intros abs' segs' k HP' HR. destruct (resolved_path_det _ _ _ _ _ _ _ HP HP') as [<- <-].
    apply resolves_iff in HR. now subst k.
  - intros [H|H]; [congruence|]. right. apply (H _ _ _ HP). apply resolves_stk.
Qed.
Lemma join_inv sg fuel base ref strict t cb cr : fits fuel base -> fits fuel ref -> join sg fuel base ref strict = Ok (Some t) ->
  URI_decomp base cb -> reference_decomp ref cr ->
  exists b r, cb = comps b /\ cr = comps r /\ split sg fuel base = Ok (Some b) /\ split_reference sg fuel ref = Ok (Some r) /\ t = join_parts b r strict.
Proof.
  intros Fb Fr E Hb Hr. apply join_strings in E. destruct E as [(_ & E)|[(b & _ & _ & E)|(b & r & Eb & Er & E)]]; try discriminate.
  exists b, r. pose proof (proj1 (split_iff _ _ _ _ Fb) Eb) as [Db _]. pose proof (proj1 (split_reference_iff _ _ _ _ Fr) Er) as [Dr _].
  split; [exact (URI_unique _ _ _ Hb Db)|]. split; [exact (decomp_unique _ _ _ Hr Dr)|]. repeat split; auto. congruence.
Qed.
Lemma reads_back_exact sg fuel base ref strict t cb cr : fits fuel (base ++ ss "/" ++ ref) ->
  join sg fuel base ref strict = Ok (Some t) -> URI_decomp base cb -> reference_decomp ref cr ->
  ((exists t', split sg fuel (compose t) = Ok (Some t') /\ parts_eqb t' t = true)
   <-> p_authority t <> None \/ forall abs segs k, resolved_path strict cb cr abs segs -> resolves segs k -> text_form abs segs k).
Proof.
  intros F E Hb Hr. rewrite <- (reads_back _ _ _ _ _ _ F E). destruct (fits_base _ _ _ F) as [Fb Fr].
  destruct (join_inv _ _ _ _ _ _ _ _ Fb Fr E Hb Hr) as (b & r & -> & -> & _ & _ & ->). exact (representable_exact base ref b r strict Hb Hr).
Qed.

(* --- a condition on the inputs ---------------------------------------------------------------------- *)
Lemma subseq_inner k l : subseq k l -> forall y post, k = [] :: y :: post -> inner_empty l.
Proof.
  induction 1 as [|x a b H IH|x a b H IH]; intros y post E; [discriminate| |].
  - destruct (IH y post E) as (pre & z & post' & ->). exists (x :: pre), z, post'. reflexivity.
  - inversion E; subst. inversion H as [|x' a b' H'|x' a b' H']; subst; [exists [], x', b'|exists [], y, b']; reflexivity.
Qed.
Lemma inner_app a b : inner_empty (a ++ b) -> b <> [] -> In [] a \/ inner_empty b.
Proof.
  intros (pre & y & post & E) Hb. revert pre E. induction a as [|x a IH]; intros pre E; [right; exists pre, y, post; exact E|].
  destruct pre as [|p pre]; cbn in E; inversion E; subst; [left; now left|].
  destruct (IH pre H1) as [H|H]; [left; now right|now right].
Qed.
Lemma removelast_inner l : In [] (removelast l) -> inner_empty l.
Proof.
  destruct l as [|z l _] using rev_ind; [intros []|]. rewrite removelast_snoc. intros H. apply in_split in H. destruct H as (a & c & ->).
  rewrite <- app_assoc. cbn. destruct c as [|c0 c]; [exists a, z, []|exists a, c0, (c ++ [z])]; reflexivity.
Qed.
Lemma text_form_inner segs k : segs <> [] -> ~ inner_empty segs -> resolves segs k -> text_form true segs k.
Proof.
  intros Hn Hi Hr. unfold text_form. destruct k as [|x k]; [auto|]. destruct x as [|c x]; [|discriminate].
  destruct k as [|y k]; [reflexivity|]. exfalso. apply Hi. eapply subseq_inner; [apply resolves_subseq, Hr|reflexivity].
Qed.
Lemma reads_back_inputs sg fuel base ref strict t cb cr : fits fuel (base ++ ss "/" ++ ref) ->
  join sg fuel base ref strict = Ok (Some t) -> URI_decomp base cb -> reference_decomp ref cr ->
  ~ inner_empty (c_segments cb) -> ~ inner_empty (c_segments cr) -> c_segments cb <> [[]] ->
  (forall segs k, resolved_path strict cb cr false segs -> segs <> [] -> resolves segs k -> exists c x rest, k = (c :: x) :: rest) ->
  exists t', split sg fuel (compose t) = Ok (Some t') /\ parts_eqb t' t = true.
Proof.
  intros F E Hb Hr Ib Ir Hone Hrel. apply (reads_back_exact _ _ _ _ _ _ _ _ F E Hb Hr). right. intros abs segs k HP HR.
  destruct abs.
  2:{ destruct segs as [|s0 segs]. { apply resolves_iff in HR. cbn in HR. subst k. cbn. auto. }
      destruct (Hrel _ _ HP ltac:(discriminate) HR) as (c & x & rest & ->). cbn. destruct rest; discriminate. }
  assert (Hs : segs <> []).
  { intros ->. inversion HP as [Hm E1 E2|x' Hm Hx E1 E2|Hm Hx E1 E2].
    - apply (ps_abs _ (decomp_shape _ _ Hr)); auto.
    - destruct Hm as (_ & _ & _ & Hm). apply Hm, (merged_nil cb). exact E2. }
  apply text_form_inner; auto. inversion HP as [Hm E1 E2|x' Hm Hx E1 E2|Hm Hx E1 E2]; [exact Ir|..].
  - destruct Hm as (_ & _ & _ & Hm). intros H. apply (inner_app [x'] (c_segments cr)) in H; auto. destruct H as [[->|[]]|H]; [exact (Hone Hx)|auto].
  - destruct Hm as (_ & _ & _ & Hm). unfold merged.
    assert (G : ~ inner_empty (removelast (c_segments cb) ++ c_segments cr)).
    { intros H. apply inner_app in H; auto. destruct H as [H|H]; [apply Ib, removelast_inner, H|auto]. }
    destruct (c_authority cb); [|exact G]. destruct (c_segments cb) eqn:Ec; [exact Ir|exact G].
Qed.

(* --- resolving a result again changes nothing ------------------------------------------------------ *)
Lemma again_parts b t t' strict : parts_eqb t' t = true -> p_scheme t <> None ->
  Forall (fun s => ~ is_dots s) (segments (p_path t)) ->
  strict = true \/ p_authority t <> None \/ p_scheme t <> p_scheme b ->
  parts_eqb (join_parts b t' strict) t = true.
Proof.
  intros E Hs Hd Hc. apply parts_eqb_eq in E. destruct E as (E1 & E2 & E3 & E4 & E5 & E6).
  assert (R : parts_eqb (mkparts (p_scheme t') (p_authority t') (remove_dot_segments (p_path t')) (p_query t') (p_fragment t')) t = true).
  { apply parts_eqb_eq. cbn [p_scheme p_authority p_path p_query p_fragment]. rewrite rds_stays by (rewrite E5; exact Hd). tauto. }
  unfold join_parts. destruct (negb strict && opt_eqb str_eqb (p_scheme t') (p_scheme b)) eqn:EN.
  - apply andb_true_iff in EN. destruct EN as [EN1 EN2]. apply opt_str_eqb in EN2. destruct Hc as [->|[Hc|Hc]]; [discriminate| |exfalso; apply Hc; congruence].
    destruct (p_authority t') eqn:Ea; [|congruence]. rewrite <- EN2. exact R.
  - destruct (p_scheme t') eqn:Es; [exact R|congruence].
Qed.
Lemma again sg fuel base ref strict t base2 b2 strict2 : fits fuel (base ++ ss "/" ++ ref) ->
  join sg fuel base ref strict = Ok (Some t) -> representable t ->
  Forall (fun s => ~ is_dots s) (segments (p_path t)) ->
  split sg fuel base2 = Ok (Some b2) ->
  strict2 = true \/ p_authority t <> None \/ p_scheme t <> p_scheme b2 ->
  exists t', join sg fuel base2 (compose t) strict2 = Ok (Some t') /\ parts_eqb t' t = true.
Proof.
  intros F E Hr Hd Eb Hc. destruct (proj1 (reads_back _ _ _ _ _ _ F E) Hr) as (t' & Es & Et).
  destruct (fits_base _ _ _ F) as [Fb Fr]. pose proof (fits_result _ _ _ _ _ _ F E) as Ft.
  exists (join_parts b2 t' strict2). split.
  - unfold join. rewrite Eb. cbn [bind].
    apply split_iff in Es; auto. assert (ER : split_reference sg fuel (compose t) = Ok (Some t')).
    { apply split_reference_iff; auto. split; [left; apply Es|apply Es]. }
    rewrite ER. reflexivity.
  - apply again_parts; auto. destruct (join_valid _ _ _ _ _ _ Fb Fr E) as ((s & -> & _) & _). discriminate.
Qed.

(* --- == is a congruence ------------------------------------------------------------------------------ *)
Lemma join_congruence b b' r r' strict : parts_eqb b b' = true -> parts_eqb r r' = true ->
  parts_eqb (join_parts b r strict) (join_parts b' r' strict) = true.
Proof.
  intros HB HR. apply parts_eqb_eq in HB, HR. destruct HB as (B1 & B2 & B3 & B4 & B5 & B6), HR as (R1 & R2 & R3 & R4 & R5 & R6).
  unfold join_parts. rewrite <- B1, <- R1, <- B2, <- B3, <- R2, <- R3, <- R4.
  unfold path_is_empty, remove_dot_segments. rewrite <- R5.
  destruct (if negb strict && _ then None else p_scheme r) as [s|].
  - apply parts_eqb_eq. cbn. repeat split; auto.
  - destruct (p_authority r) as [ra|] eqn:Ea.
    + apply parts_eqb_eq. cbn. repeat split; auto.
    + specialize (R6 eq_refl). rewrite <- R6. destruct (segments (p_path r)) as [|y l] eqn:El.
      * apply parts_eqb_eq. cbn. repeat split; auto.
      * destruct (absolute (p_path r)) eqn:Eb; apply parts_eqb_eq; cbn; repeat split; auto.
        -- unfold merge, path_is_empty. rewrite <- B2, <- B5, El, <- R5. destruct (p_authority b); [destruct (segments (p_path b))|]; reflexivity.
        -- unfold merge, path_is_empty. intros Hb. rewrite <- B2, Hb. cbn. auto.
Qed.
Lemma valid_congruence sg fuel p q : parts_eqb p q = true -> parts_valid sg fuel p = parts_valid sg fuel q.
Proof.
  intros H. apply parts_eqb_eq in H. destruct H as (H1 & H2 & H3 & H4 & H5 & _). unfold parts_valid, path_valid. now rewrite H1, H2, H3, H4, H5.
Qed.
