(* Encoding or decoding, and resolving: in which order does not matter *)
From Verif Require PropSplitFacts.
From Verif Require Import Base Rfc3986 SpecUri SpecParts ModelUri ModelParts SpecPct SpecPath SpecStore SpecViews SpecCommute PctFacts PathFacts PartsProps SendFacts CommuteFacts.
Local Open Scope nat_scope.

Lemma is_dot_eq s : is_dot s = true <-> s = SpecPath.dot.
Proof. unfold is_dot. destruct (str_eqb_spec s (ss ".")); split; intros; auto; discriminate. Qed.
Lemma is_dotdot_eq s : is_dotdot s = true <-> s = dotdot.
Proof. unfold is_dotdot. destruct (str_eqb_spec s (ss "..")); split; intros; auto; discriminate. Qed.
Lemma is_empty_eq s : is_empty s = true <-> s = [].
Proof. destruct s; split; intros; auto; discriminate. Qed.
Lemma bool_iff a b : (a = true <-> b = true) -> a = b.
Proof. destruct a, b; intros [H K]; auto. symmetry; auto. Qed.
Lemma alike_of (R : field -> str -> str -> Prop) s t : R Segment s t ->
  (s = SpecPath.dot <-> t = SpecPath.dot) -> (s = dotdot <-> t = dotdot) -> (s = [] <-> t = []) -> alike R s t.
Proof.
  intros H A B C. split; [exact H|]. split; [|split]; apply bool_iff; rewrite ?is_dot_eq, ?is_dotdot_eq, ?is_empty_eq; assumption.
Qed.
(* --- encoding ---------------------------------------------------------------------------------------------- *)
(* a text over characters that are neither escaped nor "%" is the encoding of itself only *)
Lemma encodes_only (P : ascii -> Prop) s e z : Forall (fun c => ~ P c /\ c <> percent) z -> encodes P s e -> (s = z <-> e = z).
Proof.
  intros F E. revert z F. induction E as [|c s t Pc E IH|c s t Nc E IH]; intros z F.
  - reflexivity.
  - split; intros <-; [elim (proj1 (Forall_inv F)); exact Pc|]. elim (proj2 (Forall_inv F)). reflexivity.
  - destruct z as [|d z]; [split; discriminate|]. pose proof (IH z (Forall_inv_tail F)) as J. split; intros K; injection K as -> K; f_equal; apply J, K.
Qed.
Lemma dot_free n : Forall (fun c => ~ field_set Segment c /\ c <> percent) (repeat "."%char n).
Proof.
  apply Forall_forall. intros c H. apply repeat_spec in H as ->. split; [|discriminate].
  intros [H|H]; [|discriminate H]. destruct H as [[[H|H]|[H|H]]|[H|H]]; try (vm_compute in H; intuition discriminate).
Qed.
Lemma encoded_alike s t : encoded Segment s t -> alike encoded s t.
Proof.
  intros E. apply alike_of; [exact E| | |]; [apply (encodes_only _ _ _ (repeat "."%char 1) (dot_free 1) E)|apply (encodes_only _ _ _ (repeat "."%char 2) (dot_free 2) E)|apply (encodes_nil _ _ _ E)].
Qed.
Lemma f2_alike (R : field -> str -> str -> Prop) l l' : (forall s t, In s l -> R Segment s t -> alike R s t) -> Forall2 (R Segment) l l' -> Forall2 (alike R) l l'.
Proof. intros H F. induction F; constructor; [apply H; cbn; auto|]. apply IHF. intros; apply H; cbn; auto. Qed.

Lemma scheme_iff (R : field -> str -> str -> Prop) (o1 o1' o2 o2' : option str) : opt_rel (R Scheme) o1 o1' -> opt_rel (R Scheme) o2 o2' ->
  (forall s t, o1 = Some s -> R Scheme s t -> t = s) -> (forall s t, o2 = Some s -> R Scheme s t -> t = s) -> (o1 = o2 <-> o1' = o2').
Proof.
  intros A B U V. assert (o1' = o1) as -> by (destruct A; [reflexivity|f_equal; eauto]). assert (o2' = o2) as -> by (destruct B; [reflexivity|f_equal; eauto]). reflexivity.
Qed.
Lemma encode_join b b' r r' strict : parts_rel encoded b b' -> parts_rel encoded r r' -> strict = true \/ (plain_scheme b /\ plain_scheme r) ->
  parts_rel encoded (join_parts b r strict) (join_parts b' r' strict).
Proof.
  intros B R S. assert (G : forall p q, parts_rel encoded p q -> similar encoded p q).
  { intros p q H. split; [exact H|]. apply f2_alike; [intros; now apply encoded_alike|apply H]. }
  refine (proj1 (join_alike encoded (enc_nil _) b b' r r' strict (G _ _ B) (G _ _ R) _)).
  destruct S as [S|[SB SR]]; [now left|right]. apply (scheme_iff encoded); [apply R|apply B| |]; intros s t Hs E; [apply SR in Hs|apply SB in Hs];
    now apply (encodes_only _ _ _ s Hs E).
Qed.
(* --- decoding ---------------------------------------------------------------------------------------------- *)
Lemma dots_plain s : is_dots s -> ~ In percent s.
Proof. intros [->| ->]; cbn; intuition discriminate. Qed.
Lemma decoded_alike s t : (decodes s t -> is_dots t -> is_dots s) -> decoded Segment s t -> alike decoded s t.
Proof.
  intros N D. change (decodes s t) in D. assert (Same : is_dots s -> t = s) by (intros K; eapply decodes_fun; [exact D|apply decodes_plain, dots_plain, K]).
  apply alike_of; [exact D| | |].
  - split; intros H; [rewrite <- H; apply Same; now left|]. rewrite <- H. symmetry. apply Same, N; [exact D|now left].
  - split; intros H; [rewrite <- H; apply Same; now right|]. rewrite <- H. symmetry. apply Same, N; [exact D|now right].
  - pose proof (decodes_length s t D) as [L1 L2]. split; intros ->; cbn in *; [destruct t|destruct s]; cbn in *; auto; lia.
Qed.
Lemma decode_join b b' r r' strict : parts_rel decoded b b' -> parts_rel decoded r r' -> no_hidden_dots b -> no_hidden_dots r ->
  strict = true \/ (plain_scheme b /\ plain_scheme r) -> parts_rel decoded (join_parts b r strict) (join_parts b' r' strict).
Proof.
  intros B R NB NR S. assert (G : forall p q, no_hidden_dots p -> parts_rel decoded p q -> similar decoded p q).
  { intros p q N H. split; [exact H|]. apply f2_alike; [|apply H]. intros s t I D. apply decoded_alike; [|exact D]. exact (N s t I). }
  refine (proj1 (join_alike decoded dec_nil b b' r r' strict (G _ _ NB B) (G _ _ NR R) _)).
  assert (Pl : forall s t, Forall (fun c => ~ field_set Scheme c /\ c <> percent) s -> decoded Scheme s t -> t = s).
  { intros s t F D. eapply decodes_fun; [exact D|]. apply decodes_plain. intros I. rewrite Forall_forall in F. now apply F in I as [_ I]. }
  destruct S as [S|[SB SR]]; [now left|right]. apply (scheme_iff decoded); [apply R|apply B| |]; intros s t Hs E; [apply SR in Hs|apply SB in Hs]; eauto.
Qed.
(* --- the functions ------------------------------------------------------------------------------------------- *)
Definition short_hosts (p : parts) : Prop := forall a, p_authority p = Some a -> (N.of_nat (length (host a)) < 2 ^ 32)%N.
Lemma opt_rel_fun {A} (R : A -> A -> Prop) o x y : (forall a b c, o = Some a -> R a b -> R a c -> b = c) -> opt_rel R o x -> opt_rel R o y -> x = y.
Proof. intros U X Y. destruct X; inversion Y; subst; [reflexivity|f_equal; eauto]. Qed.
Lemma f2_fun {A} (R : A -> A -> Prop) l x y : (forall a b c, R a b -> R a c -> b = c) -> Forall2 R l x -> Forall2 R l y -> x = y.
Proof. intros U X. revert y. induction X; intros z Y; inversion Y; subst; [reflexivity|f_equal; eauto]. Qed.
Lemma parts_rel_fun (R : field -> str -> str -> Prop) p x y :
  (forall f s t t', f <> Host -> R f s t -> R f s t' -> t = t') -> (forall a t t', p_authority p = Some a -> R Host (host a) t -> R Host (host a) t' -> t = t') ->
  parts_rel R p x -> parts_rel R p y -> x = y.
Proof.
  intros U V (X1 & X2 & X3 & X4 & X5 & X6) (Y1 & Y2 & Y3 & Y4 & Y5 & Y6).
  assert (O : forall f o a b, f <> Host -> opt_rel (R f) o a -> opt_rel (R f) o b -> a = b) by (intros f o a b N; apply opt_rel_fun; intros; eapply U; eauto).
  destruct x as [xs xa [xabs xsg] xq xf], y as [ys ya [yabs ysg] yq yf]. cbn [p_scheme p_authority p_path p_query p_fragment absolute segments] in *. f_equal.
  - eapply O; [|exact X1|exact Y1]; discriminate.
  - eapply opt_rel_fun; [|exact X2|exact Y2]. intros a [bu bh bp] [cu ch cp] Ha (B1 & B2 & B3) (C1 & C2 & C3). cbn [userinfo host port] in *. f_equal.
    + eapply O; [|exact B1|exact C1]; discriminate. + eapply V; eauto. + eapply O; [|exact B3|exact C3]; discriminate.
  - f_equal; [congruence|]. eapply f2_fun; [|exact X4|exact Y4]. intros a b c. apply U. discriminate.
  - eapply O; [|exact X5|exact Y5]; discriminate.
  - eapply O; [|exact X6|exact Y6]; discriminate.
Qed.
Lemma encoded_parts_fun p x y : short_hosts p -> parts_rel encoded p x -> parts_rel encoded p y -> x = y.
Proof.
  intros S. apply parts_rel_fun.
  - intros f s t t' N A B. destruct f; try contradiction; eapply encodes_fun; eassumption.
  - intros a t t' Ha A B. eapply (c26_unique Host); [exact (S a Ha)|exact A|exact B].
Qed.
Lemma decoded_parts_fun p x y : parts_rel decoded p x -> parts_rel decoded p y -> x = y.
Proof. apply parts_rel_fun; intros; eapply decoded_fun; eassumption. Qed.
Lemma opt2_fun {A B} (R : A -> B -> Prop) o x y : (forall a b c, R a b -> R a c -> b = c) -> opt_rel2 R o x -> opt_rel2 R o y -> x = y.
Proof. intros U X Y. destruct X; inversion Y; subst; [reflexivity|f_equal; eauto]. Qed.
Lemma shows_fun st p x y : shows st p x -> shows st p y -> x = y.
Proof.
  intros (X1 & X2 & X3 & X4 & X5 & X6) (Y1 & Y2 & Y3 & Y4 & Y5 & Y6).
  assert (U : forall v s t, read st v = Ok s -> read st v = Ok t -> s = t) by congruence.
  destruct x as [xs xa [xabs xsg] xq xf], y as [ys ya [yabs ysg] yq yf]. cbn [p_scheme p_authority p_path p_query p_fragment absolute segments] in *. f_equal.
  - exact (opt2_fun _ _ _ _ U X1 Y1).
  - eapply opt2_fun; [|exact X2|exact Y2]. intros a [bu bh bp] [cu ch cp] (B1 & B2 & B3) (C1 & C2 & C3). cbn [userinfo host port] in *.
    f_equal; [exact (opt2_fun _ _ _ _ U B1 C1)|congruence|exact (opt2_fun _ _ _ _ U B3 C3)].
  - f_equal; [congruence|]. clear - X4 Y4. revert ysg Y4. induction X4; intros z Y; inversion Y; subst; [reflexivity|f_equal; [congruence|auto]].
  - exact (opt2_fun _ _ _ _ U X5 Y5).
  - exact (opt2_fun _ _ _ _ U X6 Y6).
Qed.
Lemma proper_short st p pc : proper p -> shows st p pc -> short_hosts pc.
Proof.
  intros ((_ & O & _) & _ & (_ & H & _)) (_ & S & _) a Ha. rewrite Ha in S. inversion S as [|va a' (_ & Hh & _) E1 E2]; subst. rewrite <- E1 in H, O.
  inversion H as [|? ? (_ & Q & _)]; subst. inversion O as [|? ? (_ & Q' & _)]; subst. destruct (v_host va) as [|s|x y z]; cbn in Hh.
  - injection Hh as <-. reflexivity. - injection Hh as <-. exact Q. - contradiction.
Qed.
Lemma encode_then_join grow1 store1 vb b st1 qb b' grow2 store2 vr r st2 qr r' grow3 store3 vj st3 qj j strict :
  proper vb -> shows store1 vb b -> parts_encode grow1 store1 vb = Ok (st1, qb) -> shows st1 qb b' ->
  proper vr -> shows store2 vr r -> parts_encode grow2 store2 vr = Ok (st2, qr) -> shows st2 qr r' ->
  proper vj -> shows store3 vj (join_parts b r strict) -> parts_encode grow3 store3 vj = Ok (st3, qj) -> shows st3 qj j ->
  strict = true \/ (plain_scheme b /\ plain_scheme r) -> j = join_parts b' r' strict.
Proof.
  intros P1 S1 E1 T1 P2 S2 E2 T2 P3 S3 E3 T3 S.
  destruct (c26_encode_text _ _ _ _ _ _ P1 S1 E1) as (b1 & H1 & K1). destruct (c26_encode_text _ _ _ _ _ _ P2 S2 E2) as (r1 & H2 & K2).
  destruct (c26_encode_text _ _ _ _ _ _ P3 S3 E3) as (j1 & H3 & K3).
  assert (b1 = b') as -> by (eapply shows_fun; eauto). assert (r1 = r') as -> by (eapply shows_fun; eauto). assert (j1 = j) as -> by (eapply shows_fun; eauto).
  eapply encoded_parts_fun; [eapply proper_short; eauto|exact K3|]. now apply encode_join.
Qed.
Lemma decode_then_join grow1 store1 vb b st1 qb b' grow2 store2 vr r st2 qr r' grow3 store3 vj st3 qj j strict :
  proper vb -> shows store1 vb b -> parts_decode grow1 store1 vb = Ok (st1, inl qb) -> shows st1 qb b' ->
  proper vr -> shows store2 vr r -> parts_decode grow2 store2 vr = Ok (st2, inl qr) -> shows st2 qr r' ->
  proper vj -> shows store3 vj (join_parts b r strict) -> parts_decode grow3 store3 vj = Ok (st3, inl qj) -> shows st3 qj j ->
  no_hidden_dots b -> no_hidden_dots r -> strict = true \/ (plain_scheme b /\ plain_scheme r) -> j = join_parts b' r' strict.
Proof.
  intros P1 S1 E1 T1 P2 S2 E2 T2 P3 S3 E3 T3 N1 N2 S.
  destruct (c26_decode_text _ _ _ _ _ _ P1 S1 E1) as (b1 & H1 & K1). destruct (c26_decode_text _ _ _ _ _ _ P2 S2 E2) as (r1 & H2 & K2).
  destruct (c26_decode_text _ _ _ _ _ _ P3 S3 E3) as (j1 & H3 & K3).
  assert (b1 = b') as -> by (eapply shows_fun; eauto). assert (r1 = r') as -> by (eapply shows_fun; eauto). assert (j1 = j) as -> by (eapply shows_fun; eauto).
  eapply decoded_parts_fun; [exact K3|]. now apply decode_join.
Qed.

Lemma split_plain sg fuel s p : fits fuel s -> split sg fuel s = Ok (Some p) \/ split_reference sg fuel s = Ok (Some p) -> plain_scheme p.
Proof.
  intros F H sch E.
  assert (D : URI_decomp s (comps p) \/ relative_decomp s (comps p)).
  { destruct H as [H|H]; [left; apply (PropSplitFacts.split_sound sg fuel s p F H)|apply (PropSplitFacts.split_reference_spec sg fuel s p F), H]. }
  destruct D as [(sch' & sh & st & D & Ls & _)|(sh & st & D & _)]; cbn in D; rewrite E in D; [|discriminate D]. injection D as <-.
  eapply Forall_impl; [|apply scheme_tame, Ls]. intros c. apply tame_spec.
Qed.
