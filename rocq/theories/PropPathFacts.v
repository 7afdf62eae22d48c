(* Proofs of the statements in PropPath.v. *)
From Verif Require Import Base ModelUri Rfc3986 SpecHost SpecParts SpecUri SpecPath PathFacts PathRfc UriSplit UriValid UriProps JoinFacts.
From Coq Require Import ZifyBool ZifyNat ZifyN.

Lemma rds_nil_iff segs : rds_segments segs = [] <-> segs = [].
Proof.
  split; [|intros ->; reflexivity]. rewrite rds_segments_stk. destruct segs as [|x l _] using rev_ind; auto.
  rewrite last_snoc. rewrite stk_app. cbn [stk].
  assert (E : (match l ++ [x] with [] => false | _ :: _ => dirlike x end) = dirlike x) by (destruct l; reflexivity). rewrite E. clear E.
  unfold dirlike. destruct (is_dot x) eqn:E1; cbn [orb].
  { cbn zeta. destruct (stk [] l) as [|k0 k]; [discriminate|]. destruct (is_empty (last (k0 :: k) [])); discriminate. }
  destruct (is_dotdot x) eqn:E2; cbn [orb].
  { cbn zeta. destruct (removelast (stk [] l)) as [|k0 k]; [discriminate|]. destruct (is_empty (last (k0 :: k) [])); discriminate. }
  cbn zeta. destruct (stk [] l ++ [x]) as [|k0 k] eqn:Ek; [destruct (stk [] l); discriminate|].
  destruct (is_empty x); [destruct (is_empty (last (k0 :: k) []))|]; discriminate.
Qed.
Lemma path_text_len c k : length (path_text c k) = (if c then match k with [] => 0 | _ => 1 end else 0) + length (path_text false k).
Proof. destruct c; [|reflexivity]. destruct k; reflexivity. Qed.
Lemma rds_rfc_iff p : Forall no_slash (segments p) ->
  (rfc_remove_dot_segments (path_string p) = Some (path_string (remove_dot_segments p)) <-> ~ corner (absolute p) (segments p)).
Proof.
  intros Hs. destruct (rds_rfc_exact p Hs) as (c & t & E & Hcl & Ht). rewrite E, path_string_text.
  cbn [remove_dot_segments absolute segments] in *. unfold corner. split.
  - intros E2 HC. apply (f_equal (fun o => match o with Some s => length s | None => 0 end)) in E2. rewrite app_length in E2.
    rewrite (path_text_len c), (path_text_len (absolute p)) in E2.
    assert (C0 : climbs (segments p) -> rds_segments (segments p) <> []).
    { intros (pre & post & Es & _ & x & Hx & _) Hn. apply (proj1 (rds_nil_iff _)) in Hn. rewrite Hn in Es. destruct pre; [destruct Hx|discriminate]. }
    assert (Hc : absolute p = true -> c = true) by (intros; apply Hcl; auto).
    destruct HC as [[Ha HC]|HC].
    + assert (c = true) by (apply Hcl; auto). subst c. rewrite Ha in E2. specialize (C0 HC).
      destruct (rds_segments (segments p)); [congruence|]. lia.
    + destruct Ht as [[_ ->]|[H _]]; [|tauto]. cbn [length ss list_ascii_of_string] in E2.
      destruct (absolute p); [rewrite Hc in E2 by auto|]; destruct c; destruct (rds_segments (segments p)); lia.
  - intros HC. destruct Ht as [[Hd _]|[_ ->]]; [tauto|]. rewrite app_nil_r. f_equal.
    assert (Hb : c = absolute p); [|now rewrite Hb].
    destruct (absolute p) eqn:Ea; [apply Hcl; auto|]. destruct c; auto. exfalso. destruct Hcl as [Hcl _]. destruct (Hcl eq_refl); [discriminate|]. tauto.
Qed.

Lemma recompose_five p : (p_authority p <> None -> absolute (p_path p) = true \/ segments (p_path p) = []) ->
  compose p = rfc_recompose (five (comps p)).
Proof.
  intros H. rewrite compose_eq. unfold rfc_recompose, five, hier_string.
  destruct p as [sc [[u h pt]|] [ab sg] q f]; cbn [comps p_scheme p_authority p_path absolute segments c_scheme c_authority c_absolute c_segments c_query c_fragment p_query p_fragment u_scheme u_authority u_path u_query u_fragment option_map ModelUri.userinfo ModelUri.host ModelUri.port] in *.
  - f_equal. unfold opt_pre at 4. unfold authority_text. rewrite <- !app_assoc. f_equal. f_equal. f_equal. f_equal. f_equal.
    destruct H as [->| ->]; [discriminate|reflexivity|destruct ab; reflexivity].
  - reflexivity.
Qed.
Lemma join_shape sb sr b r strict : reference_decomp sb (comps b) -> reference_decomp sr (comps r) ->
  let t := join_parts b r strict in p_authority t <> None -> absolute (p_path t) = true \/ segments (p_path t) = [].
Proof.
  intros Hb Hr. apply decomp_shape in Hb. apply decomp_shape in Hr. cbn zeta.
  assert (Sb : p_authority b <> None -> absolute (p_path b) = true \/ segments (p_path b) = []).
  { intros Ha. destruct (absolute (p_path b)) eqn:E; auto. destruct (segments (p_path b)) as [|x l] eqn:El; auto.
    destruct (ps_rel _ Hb x l E El) as [_ Hn]. cbn in Hn. destruct (p_authority b); [discriminate|congruence]. }
  assert (Sr : p_authority r <> None -> absolute (p_path r) = true \/ segments (p_path r) = []).
  { intros Ha. destruct (absolute (p_path r)) eqn:E; auto. destruct (segments (p_path r)) as [|x l] eqn:El; auto.
    destruct (ps_rel _ Hr x l E El) as [_ Hn]. cbn in Hn. destruct (p_authority r); [discriminate|congruence]. }
  assert (RD : forall p, absolute p = true \/ segments p = [] -> absolute (remove_dot_segments p) = true \/ segments (remove_dot_segments p) = []).
  { intros p [H|H]; [left; exact H|right]. cbn. rewrite H. reflexivity. }
  unfold join_parts. destruct (if negb strict && _ then None else p_scheme r) as [s|]; cbn [p_authority p_path]; [intros; auto|].
  destruct (p_authority r) as [ra|] eqn:Ea; cbn [p_authority p_path]; [intros _; apply RD, Sr; discriminate|].
  destruct (path_is_empty (p_path r)) eqn:Ee; cbn [p_authority p_path]; auto.
  destruct (absolute (p_path r)) eqn:Eab; cbn [p_authority p_path]; [intros; apply RD; auto|].
  intros Hn. left. cbn. unfold merge. destruct (p_authority b) as [ba|] eqn:Eb; [|congruence].
  destruct (path_is_empty (p_path b)) eqn:Epe; [reflexivity|]. cbn [absolute]. destruct Sb as [H|H]; auto.
  unfold path_is_empty in Epe. rewrite H in Epe. discriminate.
Qed.
Lemma join_string_rfc sg fuel base ref strict t cb cr : fits fuel base -> fits fuel ref ->
  join sg fuel base ref strict = Ok (Some t) -> URI_decomp base cb -> reference_decomp ref cr ->
  ~ (merge_applies strict cb cr /\ exists x, c_segments cb = [x]) ->
  (forall abs segs, dotted_path strict cb cr abs segs -> ~ corner abs segs) ->
  compose t = rfc_recompose (rfc_transform rds_total strict (five cb) (five cr)).
Proof.
  intros Hfb Hfr E Hcb Hcr H1 H2. apply join_strings in E. destruct E as [(_ & E)|[(b & _ & _ & E)|(b & r & Eb & Er & E)]]; try discriminate.
  assert (E' : t = join_parts b r strict) by congruence. clear E. subst t.
  apply split_iff in Eb; auto. apply split_reference_iff in Er; auto. destruct Eb as [Eb _], Er as [Er _].
  rewrite (URI_unique _ _ _ Hcb Eb) in *. rewrite (decomp_unique _ _ _ Hcr Er) in *.
  rewrite recompose_five. { f_equal. eapply join_rfc; eauto. left; eauto. }
  eapply (join_shape base ref); eauto. now left.
Qed.
Lemma join_one_segment b r strict x : merge_applies strict (comps b) (comps r) -> segments (p_path b) = [x] ->
  join_parts b r strict = mkparts (p_scheme b) (p_authority b)
    (mkpath (absolute (p_path b)) (rds_segments (x :: segments (p_path r)))) (p_query r) (p_fragment r).
Proof.
  intros (Hs & Ha & Hab & Hn) Hx. cbn [comps c_scheme c_authority c_absolute c_segments] in *. unfold join_parts.
  assert (E : (if negb strict && opt_eqb str_eqb (p_scheme r) (p_scheme b) then None else p_scheme r) = None).
  { destruct Hs as [->|[-> Hs]]; [destruct (negb strict && _); reflexivity|]. cbn. destruct (opt_str_eqb_spec (p_scheme r) (p_scheme b)); [reflexivity|congruence]. }
  rewrite E. destruct (p_authority r) as [[? ? ?]|]; [discriminate|]. unfold path_is_empty. destruct (segments (p_path r)) as [|y l] eqn:Er; [congruence|].
  rewrite Hab. unfold merge, path_is_empty. rewrite Hx, Er. destruct (p_authority b); reflexivity.
Qed.
Lemma rds_stays p : Forall (fun s => ~ is_dots s) (segments p) -> remove_dot_segments p = p.
Proof. intros H. destruct p as [a s]. unfold remove_dot_segments. cbn in *. now rewrite rds_normal. Qed.
Lemma rds_twice p : remove_dot_segments (remove_dot_segments p) = remove_dot_segments p.
Proof. unfold remove_dot_segments. cbn. now rewrite rds_idem. Qed.
Lemma rds_what p : absolute (remove_dot_segments p) = absolute p
  /\ exists k, resolves (segments p) k /\ subseq k (segments p)
       /\ rds_result (segments p) k (segments (remove_dot_segments p)).
Proof.
  split; [reflexivity|]. destruct (rds_segments_result (segments p)) as (k & H1 & H2). exists k. split; auto. split; auto.
  now apply resolves_subseq.
Qed.
Lemma resolves_det l k k' : resolves l k -> resolves l k' -> k = k'.
Proof. rewrite !resolves_iff. congruence. Qed.
Lemma rds_differs :
  (exists p, absolute p = true /\ Forall no_slash (segments p) /\ path_string p = ss "/a//."
     /\ path_string (remove_dot_segments p) = ss "/a/" /\ rfc_remove_dot_segments (path_string p) = Some (ss "/a//"))
  /\ (exists p, absolute p = false /\ Forall no_slash (segments p) /\ path_string p = ss "a/../b"
     /\ path_string (remove_dot_segments p) = ss "b" /\ rfc_remove_dot_segments (path_string p) = Some (ss "/b")).
Proof.
  split; [exists (mkpath true [ss "a"; []; ss "."])|exists (mkpath false [ss "a"; ss ".."; ss "b"])]; cbn [absolute segments].
  1,2: split; [reflexivity|]; split; [|vm_compute; auto].
  1,2: repeat constructor; intros H; cbn in H; intuition discriminate.
Qed.
Lemma join_differs : exists t, join true 100 (ss "http://a/b") (ss "g") true = Ok (Some t)
  /\ compose t = ss "http://a/b/g"
  /\ exists cb cr, URI_decomp (ss "http://a/b") cb /\ reference_decomp (ss "g") cr
     /\ rfc_recompose (rfc_transform rds_total true (five cb) (five cr)) = ss "http://a/g".
Proof.
  eexists. split; [vm_compute; reflexivity|]. split; [vm_compute; reflexivity|].
  assert (F : forall s, length s < 100 -> fits 100 s). { intros s H. split; [|exact H]. change (2 ^ 32)%N with 4294967296%N. lia. }
  assert (E1 : exists p, split true 100 (ss "http://a/b") = Ok (Some p)) by (eexists; vm_compute; reflexivity).
  assert (E2 : exists p, split_reference true 100 (ss "g") = Ok (Some p)) by (eexists; vm_compute; reflexivity).
  destruct E1 as [p E1], E2 as [q E2]. exists (comps p), (comps q).
  assert (G1 := E1). assert (G2 := E2). vm_compute in G1, G2. inversion G1; subst p. inversion G2; subst q. clear G1 G2.
  apply split_iff in E1; [|apply F; cbn; lia]. apply split_reference_iff in E2; [|apply F; cbn; lia].
  split; [apply E1|]. split; [apply E2|]. vm_compute. reflexivity.
Qed.
Lemma join_scheme b r strict : let t := join_parts b r strict in
  p_fragment t = p_fragment r
  /\ (p_scheme r = None -> p_scheme t = p_scheme b)
  /\ (p_scheme r <> None -> p_scheme t = p_scheme r).
Proof.
  cbn zeta. destruct (join_scheme_fragment b r strict) as [H1 H2]. split; auto. rewrite H2. destruct (p_scheme r) as [s|] eqn:E.
  - split; [discriminate|]. intros _. destruct (opt_str_eqb_spec (Some s) (p_scheme b)) as [Hs|Hs]; destruct strict; cbn; congruence.
  - split; [auto|congruence].
Qed.
Lemma join_absolute b r : p_scheme r <> None ->
  join_parts b r true = mkparts (p_scheme r) (p_authority r) (remove_dot_segments (p_path r)) (p_query r) (p_fragment r).
Proof. intros H. unfold join_parts. cbn. destruct (p_scheme r); [reflexivity|congruence]. Qed.
Lemma join_empty b strict : p_scheme b <> None ->
  join_parts b empty_parts strict = mkparts (p_scheme b) (p_authority b) (p_path b) (p_query b) None.
Proof. intros H. unfold join_parts. cbn. destruct (negb strict && _); reflexivity. Qed.
Lemma join_valid_bool sg fuel base ref strict t : fits fuel base -> fits fuel ref -> parts_fit fuel t ->
  join sg fuel base ref strict = Ok (Some t) -> parts_valid sg fuel t = Ok true.
Proof. intros H1 H2 H3 H4. apply parts_valid_iff; auto. exact (join_valid _ _ _ _ _ _ H1 H2 H4). Qed.
Lemma join_no_dots b r strict : segments (p_path r) <> [] \/ Forall (fun s => ~ is_dots s) (segments (p_path b)) ->
  Forall (fun s => ~ is_dots s) (segments (p_path (join_parts b r strict))).
Proof.
  intros H. unfold join_parts. assert (R : forall p, Forall (fun s => ~ is_dots s) (segments (remove_dot_segments p))) by (intros; apply rds_no_dots).
  destruct (if negb strict && _ then None else p_scheme r); cbn [p_path]; auto. destruct (p_authority r); cbn [p_path]; auto.
  unfold path_is_empty. destruct (segments (p_path r)) eqn:E; cbn [p_path]; [destruct H; [congruence|auto]|].
  destruct (absolute (p_path r)); cbn [p_path]; auto.
Qed.
