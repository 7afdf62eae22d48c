(* C63, C64: where a reference leads. *)
From Verif Require Import Base ModelUri UriLang Rfc3986 SpecHost SpecParts SpecUri SpecPath SpecResolve PathFacts PathRfc UriHost UriSplit UriValid UriProps JoinFacts PropPathFacts ResolveFacts SpecConfine.
From Coq Require Import Lia.
Local Open Scope list_scope.

(* cutting a text at the first character of a kind *)
Lemma cut_unique (P : ascii -> Prop) x y a b : Forall (fun c => ~ P c) x -> Forall (fun c => ~ P c) y ->
  (a = [] \/ exists c r, a = c :: r /\ P c) -> (b = [] \/ exists c r, b = c :: r /\ P c) -> x ++ a = y ++ b -> x = y /\ a = b.
Proof.
  revert y. induction x as [|c x IH]; intros [|d y] X Y A B E; cbn [app] in E.
  - auto.
  - inversion Y; subst. destruct A as [A|(c & r & A & Pc)]; [discriminate|]. injection A as -> ->. contradiction.
  - inversion X; subst. destruct B as [B|(d & r & B & Pd)]; [discriminate|]. injection B as -> ->. contradiction.
  - inversion X; subst. inversion Y; subst. injection E as -> E. destruct (IH y) as [-> ->]; auto.
Qed.
Lemma origin_unique s o o' : origin s o -> origin s o' -> o = o'.
Proof.
  intros (sch & au & rest & -> & -> & S & A & E) (sch' & au' & rest' & -> & H & S' & A' & E'). unfold origin_of in *.
  rewrite <- !app_assoc in H. cbn [app ss] in H.
  destruct (cut_unique (fun c => c = ":"%char) sch sch' (":"%char :: "/"%char :: "/"%char :: au ++ rest) (":"%char :: "/"%char :: "/"%char :: au' ++ rest')) as [-> H2].
  - eapply Forall_impl; [|exact S]. intros c [X _]. exact X.
  - eapply Forall_impl; [|exact S']. intros c [X _]. exact X.
  - right. do 2 eexists. split; reflexivity.
  - right. do 2 eexists. split; reflexivity.
  - exact H.
  - injection H2 as H2. destruct (cut_unique ender au au' rest rest' A A' E E' H2) as [-> _]. reflexivity.
Qed.
Lemma ender_b c : ender c <-> existsb (Ascii.eqb c) (ss "/?#") = true.
Proof.
  unfold ender. rewrite existsb_exists. split.
  - intros H. exists c. split; [exact H|apply Ascii.eqb_refl].
  - intros (x & H & E). apply Ascii.eqb_eq in E. subst. exact H.
Qed.
Definition no_end (c : ascii) : bool := negb (existsb (Ascii.eqb c) (ss "/?#")).
Lemma no_end_spec s : all no_end s -> Forall (fun c => ~ ender c) s.
Proof. apply Forall_impl. intros c H E. apply ender_b in E. unfold no_end in H. rewrite E in H. discriminate. Qed.
Lemma scheme_no_end s : L Rfc3986.scheme s -> Forall (fun c => c <> ":"%char /\ ~ ender c) s.
Proof.
  intros H. apply scheme_chars in H. destruct H as [H _].
  assert (K : all (fun c => no_end c && negb (Ascii.eqb c ":")) s) by (revert H; apply all_imp; vm_compute; reflexivity).
  eapply Forall_impl; [|exact K]. cbn beta. intros c E. apply andb_prop in E. destruct E as [E1 E2]. split.
  - intros ->. discriminate E2.
  - intros E. apply ender_b in E. unfold no_end in E1. rewrite E in E1. discriminate.
Qed.
Lemma userinfo_no_end s : L Rfc3986.userinfo s -> all no_end s.
Proof. intros H. apply userinfo_chars in H. revert H. apply all_imp. vm_compute. reflexivity. Qed.
Lemma host_no_end s : L Rfc3986.host s -> all no_end s.
Proof. intros H. apply host_chars in H. revert H. apply all_imp. vm_compute. reflexivity. Qed.
Lemma port_no_end s : L Rfc3986.port s -> all no_end s.
Proof. intros H. apply port_chars in H. revert H. apply all_imp. vm_compute. reflexivity. Qed.
Lemma authority_no_end u h p : in_opt Rfc3986.userinfo u -> L Rfc3986.host h -> in_opt Rfc3986.port p -> Forall (fun c => ~ ender c) (authority_text (u, h, p)).
Proof.
  intros U H P. apply no_end_spec. unfold authority_text. apply Forall_app. split.
  - destruct u as [u|]; [|constructor]. apply Forall_app. split; [apply userinfo_no_end; exact U|]. repeat constructor.
  - apply Forall_app. split; [apply host_no_end; exact H|]. destruct p as [p|]; [|constructor]. apply Forall_app. split; [repeat constructor|apply port_no_end; exact P].
Qed.
Lemma slashed_ends segs q f : ends (slashed segs ++ opt_pre (ss "?") q ++ opt_pre (ss "#") f).
Proof.
  destruct segs as [|x segs].
  - destruct q as [q|].
    + right. do 2 eexists. split; [reflexivity|]. right. left. reflexivity.
    + destruct f as [f|]; [|left; reflexivity]. right. do 2 eexists. split; [reflexivity|]. right. right. left. reflexivity.
  - right. do 2 eexists. split; [reflexivity|]. left. reflexivity.
Qed.
Lemma compose_origin p sch a : well_formed p -> p_scheme p = Some sch -> p_authority p = Some a ->
  origin (compose p) (origin_of sch (authority_text (ModelUri.userinfo a, ModelUri.host a, ModelUri.port a)))
  /\ compose p = origin_of sch (authority_text (ModelUri.userinfo a, ModelUri.host a, ModelUri.port a))
       ++ slashed (segments (p_path p)) ++ opt_pre (ss "?") (p_query p) ++ opt_pre (ss "#") (p_fragment p).
Proof.
  intros ((sch' & Es & Hs) & Ha & _) E A. rewrite E in Es. injection Es as <-. rewrite A in Ha. destruct Ha as (U & (H & _) & P).
  assert (C : compose p = origin_of sch (authority_text (ModelUri.userinfo a, ModelUri.host a, ModelUri.port a))
       ++ slashed (segments (p_path p)) ++ opt_pre (ss "?") (p_query p) ++ opt_pre (ss "#") (p_fragment p)).
  { rewrite compose_eq, E. unfold hier_string, comps. rewrite A. cbn [c_authority c_segments opt_post]. unfold origin_of, authority_text.
    rewrite <- !app_assoc. reflexivity. }
  split; [|exact C]. do 3 eexists. split; [reflexivity|]. split; [exact C|]. split; [apply scheme_no_end; exact Hs|]. split; [apply authority_no_end; assumption|]. apply slashed_ends.
Qed.
Lemma cut_exists r : exists au rest, r = au ++ rest /\ Forall (fun c => ~ ender c) au /\ ends rest.
Proof.
  induction r as [|c r (au & rest & -> & N & R)]; [exists [], []; split; [reflexivity|split; [constructor|left; reflexivity]]|].
  destruct (existsb (Ascii.eqb c) (ss "/?#")) eqn:B.
  - exists [], (c :: au ++ rest). split; [reflexivity|]. split; [constructor|]. right. do 2 eexists. split; [reflexivity|]. apply ender_b. exact B.
  - exists (c :: au), rest. split; [reflexivity|]. split; [|exact R]. constructor; [|exact N]. intros K. apply ender_b in K. congruence.
Qed.
(* a text that has an origin is a text with scheme and authority *)
Lemma nz_no_slash first x : (forall y, L first y -> L Rfc3986.segment y /\ y <> []) -> L first x -> exists c r, x = c :: r /\ c <> "/"%char.
Proof.
  intros F H. destruct (F _ H) as [S N]. destruct x as [|c r]; [congruence|]. exists c, r. split; [reflexivity|]. intros ->.
  apply segment_no_slash in S. apply S. left. reflexivity.
Qed.
Lemma tail_hd st c : tail_decomp st c -> forall x r, st = x :: r -> x <> "/"%char.
Proof. intros (-> & _ & _) x r E. destruct (c_query c) as [q|]; [injection E as <- _; discriminate|]. destruct (c_fragment c) as [f|]; [injection E as <- _; discriminate|discriminate E]. Qed.
Lemma tail_ends st c : tail_decomp st c -> ends st.
Proof. intros (-> & _ & _). exact (slashed_ends [] (c_query c) (c_fragment c)). Qed.
(* hier-part or relative-part beginning with "//" *)
Lemma hier_authority first sh st c au rest : (forall y, L first y -> L Rfc3986.segment y /\ y <> []) -> hier_decomp first sh c -> tail_decomp st c ->
  sh ++ st = ss "//" ++ au ++ rest -> Forall (fun c => ~ ender c) au -> ends rest ->
  exists a, c_authority c = Some a /\ au = authority_text a.
Proof.
  intros F H T E A R. destruct H as [(a & sa & sp & Ea & -> & Ha & (-> & _ & _))|[Ea H]].
  - exists a. split; [exact Ea|]. destruct a as [[u h] p]. destruct Ha as (-> & U & Hh & P). rewrite <- !app_assoc in E. cbn [app ss] in E. injection E as E.
    pose proof (authority_no_end u h p U Hh P) as N. unfold authority_text in N |- *.
    destruct (cut_unique ender au (opt_post u (ss "@") ++ h ++ opt_pre (ss ":") p) rest (slashed (c_segments c) ++ st) A N R) as [-> _]; [| |reflexivity].
    + destruct (c_segments c) as [|x segs]; [exact (tail_ends _ _ T)|]. right. do 2 eexists. split; [reflexivity|]. left. reflexivity.
    + rewrite <- !app_assoc. symmetry. exact E.
  - exfalso. destruct H as [(Eb & -> & [Es|(x & r & Es & Hx & _)])|[(Eb & x & r & Es & -> & Hx & _)|(-> & _ & _)]].
    + rewrite Es in E. cbn in E. injection E as E. destruct st as [|y st]; [discriminate E|]. injection E as E _. exact (tail_hd _ _ T _ _ eq_refl E).
    + rewrite Es in E. cbn in E. injection E as E. destruct (nz_no_slash Rfc3986.segment_nz x nz_seg' Hx) as (y & r' & -> & N). cbn in E. injection E as E _. exact (N E).
    + destruct (nz_no_slash first x F Hx) as (y & r' & -> & N). cbn in E. injection E as E _. exact (N E).
    + cbn [app] in E. destruct st as [|y st]; [discriminate E|]. injection E as E _. exact (tail_hd _ _ T _ _ eq_refl E).
Qed.
Lemma origin_decomp s c o : URI_decomp s c -> origin s o -> exists sch a, c_scheme c = Some sch /\ c_authority c = Some a /\ o = origin_of sch (authority_text a).
Proof.
  intros (sch & sh & st & Es & Hs & -> & H & T) (sch' & au & rest & -> & E & S & A & R). unfold origin_of in E. rewrite <- !app_assoc in E. cbn [app ss] in E.
  destruct (cut_unique (fun c => c = ":"%char) sch sch' (":"%char :: sh ++ st) (":"%char :: "/"%char :: "/"%char :: au ++ rest)) as [-> E2].
  - eapply Forall_impl; [|exact (scheme_no_end _ Hs)]. intros x [X _]. exact X.
  - eapply Forall_impl; [|exact S]. intros x [X _]. exact X.
  - right. do 2 eexists. split; reflexivity.
  - right. do 2 eexists. split; reflexivity.
  - exact E.
  - injection E2 as E2. destruct (hier_authority Rfc3986.segment_nz sh st c au rest nz_seg' H T E2 A R) as (a & Ea & ->). exists sch', a. auto.
Qed.
Lemma local_decomp ref c : local_reference ref -> reference_decomp ref c -> c_scheme c = None /\ c_authority c = None.
Proof.
  intros [L1 L2] [(sch & sh & st & Es & Hs & -> & _)|(sh & st & Es & -> & H & T)].
  - destruct (L1 sch (sh ++ st) eq_refl) as (x & I & N). apply scheme_no_end in Hs. rewrite Forall_forall in Hs. destruct (Hs _ I) as [_ K]. contradiction.
  - split; [exact Es|]. destruct H as [(a & sa & sp & Ea & -> & _)|[Ea _]]; [|exact Ea]. elim (L2 ((sa ++ sp) ++ st)). rewrite <- !app_assoc. reflexivity.
Qed.
Lemma decomp_local ref c : reference_decomp ref c -> c_scheme c = None -> c_authority c = None -> local_reference ref.
Proof.
  intros [(sch & sh & st & Es & _)|(sh & st & _ & -> & H & T)] S A; [congruence|].
  destruct H as [(a & sa & sp & Ea & _)|[_ H]]; [congruence|]. split.
  - intros x r E. destruct (Exists_dec ender x) as [X|X].
    { intros c0. destruct (existsb (Ascii.eqb c0) (ss "/?#")) eqn:B; [left; apply ender_b; exact B|right; intros K; apply ender_b in K; congruence]. }
    { apply Exists_exists in X. exact X. }
    exfalso. assert (NX : Forall (fun c => ~ ender c) x). { apply Forall_forall. intros y I K. apply X. apply Exists_exists. exists y. auto. }
    assert (G : forall y z, all (efull f_n) y -> ends z -> y ++ z = x ++ ss ":" ++ r -> False).
    { clear E. intros y z Y Z Eq. revert y Y Eq. induction x as [|c0 x IH]; intros [|d y] Y Eq; cbn [app] in Eq.
      - destruct Z as [->|(e & w & -> & N)]; [discriminate Eq|]. injection Eq as -> _. destruct N as [N|[N|[N|[]]]]; discriminate N.
      - injection Eq as -> _. inversion Y as [|? ? Y1]; subst. vm_compute in Y1. discriminate.
      - destruct Z as [->|(e & w & -> & N)]; [discriminate Eq|]. injection Eq as -> _. inversion NX; subst. contradiction.
      - injection Eq as -> Eq. inversion NX; subst. inversion Y; subst.
        apply (IH ltac:(intros K; apply X; constructor 2; exact K) ltac:(assumption) y); assumption. }
    pose proof (tail_ends _ _ T) as TE.
    destruct H as [(Eb & -> & [Es|(y & q & Es & Hy & _)])|[(Eb & y & q & Es & -> & Hy & _)|(-> & _ & _)]].
    + apply (G [] (slashed (c_segments c) ++ st)); [constructor|rewrite Es; right; do 2 eexists; split; [reflexivity|left; reflexivity]|exact E].
    + apply (G [] (slashed (c_segments c) ++ st)); [constructor|rewrite Es; right; do 2 eexists; split; [reflexivity|left; reflexivity]|exact E].
    + apply (G y (slashed q ++ st)); [apply segment_nz_nc_chars; exact Hy| |rewrite app_assoc; exact E].
      destruct q as [|z q]; [exact TE|]. right. do 2 eexists. split; [reflexivity|left; reflexivity].
    + apply (G [] st); [constructor|exact TE|exact E].
  - intros r E. destruct (cut_exists r) as (au & rest & -> & N & R).
    destruct (hier_authority Rfc3986.segment_nz_nc sh st c au rest nz_nc_seg) as (a & K & _); [right; split; assumption|exact T|exact E|exact N|exact R|congruence].
Qed.

Lemma join_local b r strict : p_scheme r = None -> p_authority r = None ->
  p_scheme (join_parts b r strict) = p_scheme b /\ p_authority (join_parts b r strict) = p_authority b.
Proof.
  intros S A. unfold join_parts. rewrite S, A. assert (E : (if negb strict && opt_eqb str_eqb None (p_scheme b) then None else @None str) = None) by (destruct (_ && _); reflexivity).
  rewrite E. destruct (path_is_empty _); [split; reflexivity|]. destruct (absolute _); split; reflexivity.
Qed.
Lemma join_run sg fuel base ref strict t : fits fuel base -> fits fuel ref -> join sg fuel base ref strict = Ok (Some t) ->
  exists b r, split sg fuel base = Ok (Some b) /\ split_reference sg fuel ref = Ok (Some r)
    /\ URI_decomp base (comps b) /\ reference_decomp ref (comps r) /\ t = join_parts b r strict /\ well_formed t.
Proof.
  intros Fb Fr E. pose proof (join_valid _ _ _ _ _ _ Fb Fr E) as V. apply join_strings in E. destruct E as [(_ & E)|[(b & _ & _ & E)|(b & r & Eb & Er & E)]]; try discriminate.
  injection E as ->. exists b, r. pose proof (proj1 (split_iff _ _ _ _ Fb) Eb) as [Db _]. pose proof (proj1 (split_reference_iff _ _ _ _ Fr) Er) as [Dr _]. auto 10.
Qed.
Lemma local_parts sg fuel base ref strict t b : fits fuel base -> fits fuel ref -> join sg fuel base ref strict = Ok (Some t) ->
  split sg fuel base = Ok (Some b) -> local_reference ref -> p_scheme t = p_scheme b /\ p_authority t = p_authority b.
Proof.
  intros Fb Fr E Sb Lr. destruct (join_run _ _ _ _ _ _ Fb Fr E) as (b' & r & Eb & _ & _ & Dr & -> & _). rewrite Sb in Eb. injection Eb as <-.
  destruct (local_decomp _ _ Lr Dr) as [S A]. cbn [comps c_scheme c_authority] in S, A. apply join_local; [exact S|]. destruct (p_authority r); [discriminate A|reflexivity].
Qed.
Lemma comps_origin s b o : URI_decomp s (comps b) -> origin s o ->
  exists sch a, p_scheme b = Some sch /\ p_authority b = Some a /\ o = origin_of sch (authority_text (ModelUri.userinfo a, ModelUri.host a, ModelUri.port a)).
Proof.
  intros D O. destruct (origin_decomp _ _ _ D O) as (sch & a & Es & Ea & ->). cbn [comps c_scheme c_authority] in Es, Ea.
  destruct (p_authority b) as [a'|]; [|discriminate Ea]. injection Ea as <-. exists sch, a'. auto.
Qed.
Lemma local_origin sg fuel base ref strict t o : fits fuel base -> fits fuel ref -> join sg fuel base ref strict = Ok (Some t) ->
  local_reference ref -> origin base o -> origin (compose t) o.
Proof.
  intros Fb Fr E Lr O. destruct (join_run _ _ _ _ _ _ Fb Fr E) as (b & r & Eb & Er & Db & Dr & Et & V).
  destruct (comps_origin _ _ _ Db O) as (sch & a & Es & Ea & ->). destruct (local_parts _ _ _ _ _ _ _ Fb Fr E Eb Lr) as [S A].
  apply compose_origin; [exact V|congruence|congruence].
Qed.
Lemma named_authority sg fuel base ref strict t sch au au' rest : fits fuel base -> fits fuel ref -> join sg fuel base ref strict = Ok (Some t) ->
  origin base (origin_of sch au) -> Forall (fun c => c <> ":"%char /\ ~ ender c) sch -> ref = ss "//" ++ au' ++ rest -> Forall (fun c => ~ ender c) au' -> ends rest ->
  origin (compose t) (origin_of sch au').
Proof.
  intros Fb Fr E O Hs H A R. destruct (join_run _ _ _ _ _ _ Fb Fr E) as (b & r & Eb & Er & Db & Dr & Et & V).
  destruct (comps_origin _ _ _ Db O) as (sch' & a & Es & Ea & Eo).
  assert (sch' = sch) as ->.
  { unfold origin_of in Eo. destruct (cut_unique (fun c => c = ":"%char) sch sch' (":"%char :: "/"%char :: "/"%char :: au) (":"%char :: "/"%char :: "/"%char :: authority_text (ModelUri.userinfo a, ModelUri.host a, ModelUri.port a))) as [-> _].
    - eapply Forall_impl; [|exact Hs]. intros c [X _]. exact X.
    - destruct Db as (s1 & sh & st & E1 & H1 & _). cbn [comps c_scheme] in E1. rewrite Es in E1. injection E1 as <-. eapply Forall_impl; [|exact (scheme_no_end _ H1)]. intros c [X _]. exact X.
    - right. do 2 eexists. split; reflexivity.
    - right. do 2 eexists. split; reflexivity.
    - exact Eo.
    - reflexivity. }
  destruct Dr as [(s1 & sh & st & E1 & H1 & E2 & _)|(sh & st & E1 & E2 & Hh & T)].
  { exfalso. apply scheme_no_end in H1. rewrite H in E2. destruct s1 as [|c s1]; [discriminate E2|]. injection E2 as E2 _. inversion H1 as [|? ? [_ N] ?]; subst. apply N. left. reflexivity. }
  rewrite H in E2. destruct (hier_authority _ _ _ _ au' rest nz_nc_seg Hh T (eq_sym E2) A R) as (a' & Ea' & ->). cbn [comps c_scheme c_authority] in E1, Ea'.
  destruct (p_authority r) as [ar|] eqn:Ar; [|discriminate Ea']. injection Ea' as <-.
  assert (J : p_scheme t = p_scheme b /\ p_authority t = Some ar).
  { rewrite Et. unfold join_parts. rewrite E1, Ar. destruct (negb strict && _); split; reflexivity. }
  destruct J as [J1 J2]. apply compose_origin; [exact V|congruence|exact J2].
Qed.
Lemma named_origin sg fuel base ref strict t o : fits fuel base -> fits fuel ref -> join sg fuel base ref strict = Ok (Some t) ->
  origin ref o -> origin (compose t) o.
Proof.
  intros Fb Fr E O. destruct (join_run _ _ _ _ _ _ Fb Fr E) as (b & r & Eb & Er & Db & Dr & Et & V).
  destruct Dr as [Dr|Dr].
  - destruct (comps_origin _ _ _ Dr O) as (sch & a & Es & Ea & ->). destruct Db as (sb & _ & _ & Esb & _). cbn [comps c_scheme] in Esb.
    assert (J : p_scheme t = Some sch /\ p_authority t = Some a).
    { rewrite Et. unfold join_parts. rewrite Es, Ea, Esb. destruct (negb strict && _) eqn:N; [|split; reflexivity]. cbn [p_scheme p_authority].
      split; [|reflexivity]. apply andb_prop in N. destruct N as [_ N]. destruct (opt_str_eqb_spec (Some sch) (Some sb)); congruence. }
    destruct J as [J1 J2]. apply compose_origin; assumption.
  - exfalso. destruct O as (sch & au & rest & -> & H & S & A & R). unfold origin_of in H. rewrite <- !app_assoc in H. destruct Dr as (sh & st & E1 & E2 & Hh & T).
    rewrite E2 in H. destruct Hh as [(a & sa & sp & _ & -> & _)|[Ea Hh]].
    + cbn [app ss] in H. destruct sch as [|c sch]; [discriminate H|]. injection H as <- _. inversion S as [|? ? [_ N] _]; subst. apply N. left. reflexivity.
    + assert (Lr : local_reference ref) by (apply (decomp_local ref (comps r)); [right; exists sh, st; split; [exact E1|split; [exact E2|split; [right; split; assumption|exact T]]]|exact E1|exact Ea]).
      destruct Lr as [L1 _]. destruct (L1 sch (ss "//" ++ au ++ rest)) as (c & I & N); [rewrite E2; exact H|]. rewrite Forall_forall in S. destruct (S _ I) as [_ K]. contradiction.
Qed.

(* --- C64 ------------------------------------------------------------------------------------------------ *)
Lemma inside_stk l k : inside l k -> forall st, stk st l = st ++ k.
Proof.
  induction 1 as [|l k _ IH|l k x _ IH|l k x H1 H2 _ IH]; intros st; [cbn; now rewrite app_nil_r|..]; rewrite stk_app, IH; cbn [stk].
  - destruct (is_dot_spec dot); [reflexivity|congruence].
  - change (is_dot dotdot) with false. change (is_dotdot dotdot) with true. cbn iota. rewrite app_assoc. apply removelast_snoc.
  - destruct (is_dot_spec x); [congruence|]. destruct (is_dotdot_spec x); [congruence|]. rewrite app_assoc. reflexivity.
Qed.
Lemma inside_or l : (exists k, inside l k) \/ exists pre post, l = pre ++ dotdot :: post /\ inside pre [].
Proof.
  induction l as [|x l [(k & IH)|(pre & post & -> & IH)]] using rev_ind.
  - left. exists []. constructor.
  - destruct (is_dot_spec x) as [->|N1]; [left; exists k; constructor; exact IH|]. destruct (is_dotdot_spec x) as [->|N2]; [|left; exists (k ++ [x]); constructor; assumption].
    destruct k as [|y k _] using rev_ind.
    + right. exists l, []. auto.
    + left. exists k. econstructor. exact IH.
  - right. exists pre, (post ++ [x]). rewrite <- app_assoc. auto.
Qed.
Lemma inside_plain l : Forall (fun s => ~ is_dots s) l -> inside l l.
Proof.
  induction l as [|x l IH] using rev_ind; intros H; [constructor|]. apply Forall_app in H. destruct H as [H1 H2]. inversion H2 as [|? ? N _]; subst.
  apply in_seg; [intros ->; apply N; left; reflexivity|intros ->; apply N; right; reflexivity|auto].
Qed.
Lemma last_dots dir r : r <> [] -> ((exists l x, dir ++ r = l ++ [x] /\ is_dots x) <-> (exists l x, r = l ++ [x] /\ is_dots x)).
Proof.
  intros N. destruct r as [|z r _] using rev_ind; [congruence|]. rewrite app_assoc. split; intros (l & x & E & D); apply app_inj_tail in E; destruct E as [_ <-].
  - exists r, z. auto.
  - exists (dir ++ r), z. auto.
Qed.
Lemma rds_result_last dir r k out : r <> [] -> rds_result (dir ++ r) k out -> rds_result r k out.
Proof. unfold rds_result. intros N H. rewrite (last_dots dir r N) in H. exact H. Qed.
Lemma merged_dir b r : (forall x, c_segments b <> [x]) -> snd (merged b r) = removelast (c_segments b) ++ c_segments r.
Proof. intros N. unfold merged. destruct (c_authority b), (c_segments b); reflexivity. Qed.
Lemma join_merged b r strict : merge_applies strict (comps b) (comps r) -> 
  let dir := match segments (p_path b) with [x] => [x] | l => removelast l end in
  p_path (join_parts b r strict) = mkpath (match p_authority b, segments (p_path b) with Some _, [] => true | _, _ => absolute (p_path b) end) (rds_segments (dir ++ segments (p_path r))).
Proof.
  intros M. cbn zeta. destruct (join_path b r strict) as (abs & segs & R & H). cbn zeta in H.
  assert (NE : segments (p_path r) <> []) by (destruct M as (_ & _ & _ & M); exact M).
  destruct H as [H|(E & _)]; [|congruence]. rewrite H. destruct R as [N|x _ E|_ N]; [contradiction| |].
  - cbn [comps c_segments c_absolute] in *. rewrite E. destruct (p_authority b); reflexivity.
  - rewrite merged_dir by exact N. cbn [comps c_segments c_absolute] in *. unfold merged. cbn [comps c_authority c_segments c_absolute].
    destruct (segments (p_path b)) as [|x [|y l]]; [|elim (N x); reflexivity|]; destruct (p_authority b); reflexivity.
Qed.
Lemma confined b r strict d k : merge_applies strict (comps b) (comps r) -> (forall x, segments (p_path b) <> [x]) ->
  resolves (removelast (segments (p_path b))) d -> inside (segments (p_path r)) k ->
  rds_result (segments (p_path r)) (d ++ k) (segments (p_path (join_parts b r strict))).
Proof.
  intros M N D I. rewrite join_merged by exact M. cbn [segments].
  assert (E : match segments (p_path b) with [x] => [x] | l => removelast l end = removelast (segments (p_path b))).
  { destruct (segments (p_path b)) as [|x [|y l]]; [reflexivity|elim (N x); reflexivity|reflexivity]. }
  rewrite E. clear E. apply rds_result_last with (dir := removelast (segments (p_path b))); [destruct M as (_ & _ & _ & M); exact M|].
  destruct (rds_segments_result (removelast (segments (p_path b)) ++ segments (p_path r))) as (k' & R & Q).
  apply resolves_iff in R. rewrite stk_app in R. apply resolves_iff in D. rewrite D, (inside_stk _ _ I) in R. rewrite R. exact Q.
Qed.
Lemma rds_prefix r k out : rds_result r k out -> exists rest, out = k ++ rest.
Proof. intros [(_ & _ & ->)|(_ & ->)]; [exists [[]]|exists []; rewrite app_nil_r]; reflexivity. Qed.
(* any base, also one of a single segment *)
Lemma confined_any b r strict d k : merge_applies strict (comps b) (comps r) ->
  resolves (removelast (segments (p_path b))) d -> inside (segments (p_path r)) k ->
  exists rest, segments (p_path (join_parts b r strict)) = d ++ rest.
Proof.
  intros M D I. assert (X : (exists x, segments (p_path b) = [x]) \/ forall x, segments (p_path b) <> [x]).
  { destruct (segments (p_path b)) as [|x [|y l]]; [right|left; exists x; reflexivity|right]; intros; discriminate. }
  destruct X as [(x & E)|N].
  - rewrite E in D. cbn in D. apply resolves_iff in D. cbn in D. subst d. eexists. reflexivity.
  - destruct (rds_prefix _ _ _ (confined b r strict d k M N D I)) as (rest & E). exists (k ++ rest). rewrite app_assoc. exact E.
Qed.
(* a reference that does lead above where it starts leads out of some directory *)
Lemma stk_in st l x : In x (stk st l) -> In x st \/ In x l.
Proof.
  revert st. induction l as [|y l IH]; intros st H; [left; exact H|]. cbn [stk] in H. destruct (is_dot y).
  - apply IH in H. intuition auto with datatypes.
  - destruct (is_dotdot y); apply IH in H; destruct H as [H|H]; auto with datatypes.
    + left. clear - H. induction st as [|a st IH]; [exact H|]. destruct st as [|b st]; [destruct H|]. destruct H as [->|H]; [left; reflexivity|right; apply IH; exact H].
    + apply in_app_or in H. destruct H as [H|[->|[]]]; auto with datatypes.
Qed.
Lemma long_segment n : exists x, L Rfc3986.segment x /\ length x = S (S (S n)).
Proof.
  exists (repeat "a"%char (S (S (S n)))). split; [|apply repeat_length].
  generalize (S (S (S n))). intros m. exists (repeat ["a"%char] m). split; [induction m as [|m IH]; cbn [repeat List.concat app]; [reflexivity|f_equal; exact IH]|].
  split; [|split; [lia|exact I]]. apply Forall_forall. intros y H. apply repeat_spec in H. subst. do 9 left. right. exists "a"%char. split; [reflexivity|vm_compute; split; discriminate].
Qed.
Lemma rds_in_stk x segs : In x (rds_segments segs) -> x = [] \/ In x (stk [] segs).
Proof.
  destruct (rds_segments_result segs) as (k & R & Q). apply resolves_iff in R. rewrite R. destruct Q as [(_ & _ & ->)|(_ & ->)]; [|auto].
  intros H. apply in_app_or in H. destruct H as [H|[H|[]]]; auto.
Qed.
Lemma leads_out (r : parts) : p_scheme r = None -> p_authority r = None -> absolute (p_path r) = false -> (forall k, ~ inside (segments (p_path r)) k) ->
  exists x, L Rfc3986.segment x /\ x <> [] /\ ~ is_dots x /\ forall b strict, segments (p_path b) = [x; []] -> ~ In x (segments (p_path (join_parts b r strict))).
Proof.
  intros S A Ab N. destruct (inside_or (segments (p_path r))) as [(k & H)|(pre & post & E & H)]; [elim (N _ H)|].
  destruct (long_segment (fold_right (fun s m => length s + m) 0 post)) as (x & Lx & Len). exists x. split; [exact Lx|].
  assert (Nx : x <> []) by (intros ->; discriminate Len). split; [exact Nx|]. split; [intros [->| ->]; discriminate Len|].
  intros b strict Eb I.
  assert (M : merge_applies strict (comps b) (comps r)).
  { split; [left; exact S|]. cbn [comps c_authority c_absolute c_segments]. rewrite A. split; [reflexivity|]. split; [exact Ab|]. rewrite E. destruct pre; discriminate. }
  rewrite join_merged in I by exact M. cbn [segments] in I. rewrite Eb, E in I. cbn [removelast] in I. apply rds_in_stk in I. destruct I as [I|I]; [contradiction|].
  rewrite stk_app in I. assert (X : stk [] [x] = [x]).
  { cbn [stk]. destruct (is_dot_spec x) as [->|_]; [discriminate Len|]. destruct (is_dotdot_spec x) as [->|_]; [discriminate Len|]. reflexivity. }
  rewrite X, stk_app, (inside_stk _ _ H), app_nil_r in I. cbn [stk] in I. change (is_dot dotdot) with false in I. change (is_dotdot dotdot) with true in I. cbn in I.
  apply stk_in in I. destruct I as [[]|I]. clear - I Len. assert (length x <= fold_right (fun s m => length s + m) 0 post); [|lia].
  clear Len. induction post as [|y post IH]; [destruct I|]. cbn [fold_right]. destruct I as [->|I]; [lia|]. apply IH in I. lia.
Qed.
Lemma slashed_app' a b : slashed (a ++ b) = slashed a ++ slashed b.
Proof. unfold slashed. rewrite map_app, concat_app. reflexivity. Qed.
Lemma confined_text sg fuel base ref strict t cb cr d k o : fits fuel base -> fits fuel ref -> join sg fuel base ref strict = Ok (Some t) ->
  URI_decomp base cb -> reference_decomp ref cr -> merge_applies strict cb cr -> resolves (removelast (c_segments cb)) d -> inside (c_segments cr) k ->
  origin base o -> exists rest, compose t = o ++ slashed d ++ rest /\ ends rest.
Proof.
  intros Fb Fr E Db Dr M D I O. destruct (join_run _ _ _ _ _ _ Fb Fr E) as (b & r & _ & _ & Db' & Dr' & Et & V).
  rewrite (URI_unique _ _ _ Db Db') in *. rewrite (decomp_unique _ _ _ Dr Dr') in *. clear cb cr Db Dr.
  destruct (comps_origin _ _ _ Db' O) as (sch & a & Es & Ea & ->). destruct (confined_any b r strict d k M D I) as (rest & C).
  assert (J : p_scheme t = Some sch /\ p_authority t = Some a).
  { rewrite Et. destruct M as (Ms & Ma & Mb & Mc). cbn [comps c_scheme c_authority c_absolute c_segments] in *. unfold join_parts.
    assert (Q : (if negb strict && opt_eqb str_eqb (p_scheme r) (p_scheme b) then None else p_scheme r) = None).
    { destruct Ms as [Ms|[-> Ms]]; [rewrite Ms; destruct (_ && _); reflexivity|]. rewrite Ms. cbn. destruct (opt_str_eqb_spec (p_scheme b) (p_scheme b)); congruence. }
    rewrite Q. destruct (p_authority r); [discriminate Ma|]. destruct (path_is_empty _); [split; assumption|]. destruct (absolute _); split; assumption. }
  destruct J as [J1 J2]. destruct (compose_origin t sch a V J1 J2) as [_ C2].
  exists (slashed rest ++ opt_pre (ss "?") (p_query t) ++ opt_pre (ss "#") (p_fragment t)). split; [|apply slashed_ends].
  rewrite C2, Et, C, slashed_app', <- !app_assoc. reflexivity.
Qed.
Lemma starts_applies ref cr strict cb : reference_decomp ref cr -> local_reference ref -> starts_with_segment ref -> merge_applies strict cb cr.
Proof.
  intros D Lr (c & r & E & N). destruct (local_decomp _ _ Lr D) as [S A]. split; [left; exact S|]. split; [exact A|].
  destruct D as [(sch & sh & st & Es & _)|(sh & st & _ & E2 & H & T)]; [congruence|]. destruct H as [(a & sa & sp & Ea & _)|[_ H]]; [congruence|].
  destruct H as [(Eb & -> & [Es|(y & q & Es & Hy & _)])|[(Eb & y & q & Es & -> & Hy & _)|(-> & Eb & Es)]].
  - exfalso. rewrite E, Es in E2. injection E2 as -> _. apply N. left. reflexivity.
  - exfalso. rewrite E, Es in E2. injection E2 as -> _. apply N. left. reflexivity.
  - split; [exact Eb|]. rewrite Es. discriminate.
  - exfalso. rewrite E in E2. cbn [app] in E2. destruct (tail_ends _ _ T) as [->|(x & w & -> & X)]; [discriminate E2|]. injection E2 as -> _. contradiction.
Qed.
