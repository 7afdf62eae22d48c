(* The parser under any usable locale: proofs for C54. *)
From Verif Require Import Base ModelRule ModelUri ModelLocale SpecLocale SpecStore.
From Coq Require Import Lia.
Local Open Scope list_scope.

Lemma removelast_map {A B} (g : A -> B) l : removelast (map g l) = map g (removelast l).
Proof. induction l as [|x [|y l] IH]; [reflexivity|reflexivity|]. change (removelast (map g (x :: y :: l))) with (g x :: removelast (map g (y :: l))). now rewrite IH. Qed.
Section Sim.
Variable L : locale.
Hypothesis U : usable L.
Variable sg : bool.
(* [f] is [seen_as L], or any function that is so on the bytes in question *)
Variable f : ascii -> ascii.
Definition gd (c : ascii) : Prop := sg = false \/ (code c < 128)%N.
Definition good (c : ascii) : Prop := gd c /\ f c = seen_as L c.
Local Notation rule := (rule action).
Local Notation matcher := (matcher action).
Definition amap (l : acceptors action) : acceptors action := map (fun x => (fst x, map f (snd x))) l.
Definition rmap (r : rule) : rule := mkrule (option_map (map f) (tail r)) (amap (accs r)).
Definition mres (m : matched_result action) : matched_result action := option_map (fun p => (map f (fst p), amap (snd p))) m.
Definition okr (r : rule) : Prop := match tail r with Some t => Forall good t | None => True end.
Definition sim (m m' : matcher) : Prop := forall r, okr r -> m' (rmap r) = result_map mres (m r).
Definition tsim (g g' : rule -> outcome rule) : Prop :=
  forall r, okr r -> g' (rmap r) = result_map rmap (g r) /\ forall r2, g r = Ok r2 -> okr r2.

Lemma amap_app a b : amap (a ++ b) = amap a ++ amap b. Proof. apply map_app. Qed.
Lemma good_skipn n t : Forall good t -> Forall good (skipn n t).
Proof. intros H. rewrite <- (firstn_skipn n t) in H. now apply Forall_app in H. Qed.
Lemma rmap_of t : rmap (rule_of t) = rule_of (map f t). Proof. reflexivity. Qed.
Lemma tsim_id : tsim (fun r => Ok r) (fun r => Ok r).
Proof. intros r H. split; [reflexivity|]. intros r2 E. injection E as <-. exact H. Qed.
Lemma tsim_bind x x' g g' : tsim x x' -> tsim g g' -> tsim (fun r => x r >>= g) (fun r => x' r >>= g').
Proof.
  intros Hx Hg r H. destruct (Hx r H) as [E K]. rewrite E. destruct (x r) as [r1| |]; cbn [result_map bind]; try (split; [reflexivity|discriminate]).
  apply Hg. now apply K.
Qed.
Lemma sim_matched x x' : tsim x x' -> sim (fun r => x r >>= matched r) (fun r => x' r >>= matched r).
Proof.
  intros Hx r H. destruct (Hx r H) as [E _]. rewrite E. destruct (x r) as [r1| |]; cbn [result_map bind]; try reflexivity.
  unfold matched. cbn [tail rmap]. destruct (tail r1) as [t|]; cbn [option_map]; [|reflexivity]. destruct (tail r) as [i|]; cbn [option_map]; [|reflexivity].
  rewrite !map_length. destruct (Nat.ltb _ _); cbn [result_map mres option_map fst snd accs rmap]; [reflexivity|]. now rewrite firstn_map.
Qed.
Lemma join_m r t s a : tail r = Some t -> join_rule_m (rmap r) (map f s, amap a) = result_map rmap (join_rule_m r (s, a)).
Proof.
  intros E. unfold join_rule_m. cbn [tail rmap]. rewrite E. cbn [option_map fst snd]. unfold substr_from. rewrite !map_length.
  destruct (Nat.ltb _ _); cbn [bind result_map]; [reflexivity|]. unfold rmap. cbn [tail accs option_map]. rewrite skipn_map, amap_app. reflexivity.
Qed.
Lemma join_ok r s a r2 : okr r -> join_rule_m r (s, a) = Ok r2 -> okr r2.
Proof.
  unfold okr, join_rule_m, substr_from. destruct (tail r) as [t|]; [|discriminate]. cbn [fst]. destruct (Nat.ltb _ _); cbn [bind]; [discriminate|]. intros H E. injection E as <-. cbn. now apply good_skipn.
Qed.
Lemma tsim_concat_impl m m' acc opt : sim m m' -> tsim (concat_impl m acc opt) (concat_impl m' acc opt).
Proof.
  intros Hm r H. unfold concat_impl. cbn [tail rmap]. pose proof H as H0. unfold okr in H. destruct (tail r) as [t|] eqn:E; cbn [option_map].
  2:{ split; [reflexivity|]. intros r2 Q. injection Q as <-. exact H0. }
  rewrite <- rmap_of. rewrite (Hm (rule_of t) H). destruct (m (rule_of t)) as [[[s a]|]| |]; cbn [result_map mres option_map bind fst snd]; try (split; [reflexivity|discriminate]).
  - split.
    + destruct acc as [g|]; [|now apply (join_m r t)]. refine (eq_trans _ (join_m r t s (a ++ [(g, s)]) E)). cbv zeta. now rewrite amap_app.
    + destruct acc as [g|]; intros r2; now apply join_ok.
  - destruct opt; split; try reflexivity; intros r2 Q; injection Q as <-; [exact H0|exact I].
Qed.
Lemma tsim_concat m m' : sim m m' -> tsim (concat m) (concat m'). Proof. apply tsim_concat_impl. Qed.
Lemma tsim_concat_a m m' g : sim m m' -> tsim (concat_a m g) (concat_a m' g). Proof. apply tsim_concat_impl. Qed.
Lemma tsim_optional m m' : sim m m' -> tsim (optional m) (optional m').
Proof.
  intros Hm r H. unfold optional, optional_impl. cbn [tail rmap]. pose proof H as H0. unfold okr in H. destruct (tail r) as [t|] eqn:E; cbn [option_map].
  2:{ split; [reflexivity|]. intros r2 Q. injection Q as <-. exact H0. }
  destruct (tsim_concat_impl m m' None true Hm (rule_of t) H) as [Q K]. rewrite rmap_of in Q. rewrite Q.
  destruct (concat_impl m None true (rule_of t)) as [res| |]; cbn [result_map bind]; try (split; [reflexivity|discriminate]). specialize (K res eq_refl).
  cbn [tail rmap]. unfold okr in K. destruct (tail res) as [t'|] eqn:E'; cbn [option_map].
  - split.
    + cbn [result_map]. unfold join_rule_r, rmap. cbn [tail accs]. rewrite E', amap_app. reflexivity.
    + intros r2 Q2. injection Q2 as <-. unfold okr. cbn. now rewrite E'.
  - split; [reflexivity|]. intros r2 Q2. injection Q2 as <-. exact H0.
Qed.
Lemma star_loop_sim fuel m m' mx : sim m m' -> forall s len acc count, Forall good s ->
  star_loop fuel m' mx (map f s) len (amap acc) count = result_map (fun x => (fst (fst x), amap (snd (fst x)), snd x)) (star_loop fuel m mx s len acc count).
Proof.
  intros Hm. induction fuel as [|n IH]; intros s len acc count H; cbn [star_loop]; [reflexivity|].
  rewrite <- rmap_of. rewrite (Hm (rule_of s) H). destruct (m (rule_of s)) as [[[ms a]|]| |]; cbn [result_map mres option_map bind fst snd]; try reflexivity.
  destruct (mx <? uint_incr count)%N; [reflexivity|]. rewrite !map_length. destruct (Nat.ltb _ _); [reflexivity|].
  rewrite skipn_map, <- amap_app. apply IH. now apply good_skipn.
Qed.
Lemma tsim_star fuel m m' mn mx : sim m m' -> tsim (star fuel m mn mx) (star fuel m' mn mx).
Proof.
  intros Hm r H. unfold star. cbn [tail rmap]. pose proof H as H0. unfold okr in H. destruct (tail r) as [t|] eqn:E; cbn [option_map accs].
  2:{ split; [reflexivity|]. intros r2 Q. injection Q as <-. exact H0. }
  try change (accs (rmap r)) with (amap (accs r)). rewrite (star_loop_sim fuel m m' mx Hm t 0 (accs r) 0%N H). destruct (star_loop fuel m mx t 0 (accs r) 0%N) as [[[len acc] count]| |]; cbn [result_map bind fst snd]; try (split; [reflexivity|discriminate]).
  destruct (count <? mn)%N; [split; [reflexivity|]; intros r2 Q; injection Q as <-; exact I|].
  unfold substr_from. rewrite map_length. destruct (Nat.ltb _ _); cbn [bind result_map]; [split; [reflexivity|discriminate]|]. split.
  - unfold rmap. cbn [tail accs option_map]. now rewrite skipn_map.
  - intros r2 Q. injection Q as <-. cbn. now apply good_skipn.
Qed.
Lemma tsim_alternative ms ms' : Forall2 sim ms ms' -> tsim (alternative ms) (alternative ms').
Proof.
  induction 1 as [|m m' ms ms' Hm _ IH]; intros r H.
  - split; [reflexivity|]. intros r2 Q. injection Q as <-. exact I.
  - cbn [alternative]. cbn [tail rmap]. pose proof H as H0. unfold okr in H. destruct (tail r) as [t|] eqn:E; cbn [option_map].
    2:{ split; [reflexivity|]. intros r2 Q. injection Q as <-. exact H0. }
    rewrite <- rmap_of. rewrite (Hm (rule_of t) H). destruct (m (rule_of t)) as [[[s a]|]| |]; cbn [result_map mres option_map bind fst snd]; try (split; [reflexivity|discriminate]).
    + split; [now apply (join_m r t)|]. intros r2. now apply join_ok.
    + exact (IH r H0).
Qed.

(* --- single characters --- *)
Lemma sim_char p p' : (forall c, good c -> p' (f c) = p c) -> sim (single_char_p p) (single_char_p p').
Proof.
  intros H r Hr. unfold single_char_p. cbn [tail rmap]. unfold okr in Hr. destruct (tail r) as [[|c t]|]; cbn [option_map map]; try reflexivity.
  inversion Hr; subst. rewrite H by assumption. destruct (p c) as [[]| |]; reflexivity.
Qed.
Local Open Scope Z_scope.
Local Notation h := (seen_as L).
Lemma code_bound c : (code c < 256)%N. Proof. apply N_ascii_bounded. Qed.
Lemma good_int c : gd c -> as_int sg c = Z.of_N (code c).
Proof.
  intros [->|H]; unfold as_int; cbn [andb]; [reflexivity|]. destruct sg; cbn [andb]; [|reflexivity].
  destruct (Z.leb_spec 128 (Z.of_N (code c))); [lia|reflexivity].
Qed.
Lemma good_dom c : ctype_dom (Z.of_N (code c)) = true.
Proof. pose proof (code_bound c). unfold ctype_dom. apply orb_true_iff. right. apply andb_true_iff. split; apply Z.leb_le; lia. Qed.
Lemma good_f c : gd c -> gd (h c).
Proof. intros H. unfold seen_as. destruct (_ && _); [right; reflexivity|exact H]. Qed.
(* what can happen: a byte of ASCII; a letter beyond; something else beyond *)
Lemma cases c : (code c < 128)%N /\ h c = c \/ (128 <= code c)%N /\ l_isalpha L (Z.of_N (code c)) = true /\ h c = "g"%char
  \/ (128 <= code c)%N /\ l_isalpha L (Z.of_N (code c)) = false /\ h c = c.
Proof.
  unfold seen_as. destruct (N.leb_spec 128 (code c)); cbn [andb]; [|now left]. right. destruct (l_isalpha L _) eqn:E; [left|right]; auto.
Qed.
Lemma c_big_alpha i : 128 <= i -> c_isalpha i = false.
Proof. intros. unfold c_isalpha, c_isupper, c_islower. repeat match goal with |- context [?a <=? ?b] => destruct (Z.leb_spec a b) end; try reflexivity; lia. Qed.
Lemma c_big_digit i : 128 <= i -> c_isdigit i = false.
Proof. intros. unfold c_isdigit. repeat match goal with |- context [?a <=? ?b] => destruct (Z.leb_spec a b) end; try reflexivity; lia. Qed.
Lemma c_big_xdigit i : 128 <= i -> c_isxdigit i = false.
Proof. intros. unfold c_isxdigit, c_isdigit. repeat match goal with |- context [?a <=? ?b] => destruct (Z.leb_spec a b) end; try reflexivity; lia. Qed.
Lemma alpha_eq c : c_isalpha (Z.of_N (code (h c))) = l_isalpha L (Z.of_N (code c)).
Proof.
  destruct (cases c) as [[H ->]|[(H & E & ->)|(H & E & ->)]].
  - rewrite (us_alpha L U) by lia. reflexivity.
  - now rewrite E.
  - rewrite E. apply c_big_alpha. lia.
Qed.
Lemma digit_eq c : c_isdigit (Z.of_N (code (h c))) = c_isdigit (Z.of_N (code c)).
Proof. destruct (cases c) as [[H ->]|[(H & E & ->)|(H & E & ->)]]; try reflexivity. rewrite (c_big_digit (Z.of_N (code c))) by lia. reflexivity. Qed.
Lemma xdigit_eq c : c_isxdigit (Z.of_N (code (h c))) = c_isxdigit (Z.of_N (code c)).
Proof. destruct (cases c) as [[H ->]|[(H & E & ->)|(H & E & ->)]]; try reflexivity. rewrite (c_big_xdigit (Z.of_N (code c))) by lia. reflexivity. Qed.
Lemma code_eq n c : (n < 128)%N -> n <> 103%N -> (code (h c) =? n)%N = (code c =? n)%N.
Proof.
  intros Hn Hg. destruct (cases c) as [[H ->]|[(H & E & ->)|(H & E & ->)]]; try reflexivity.
  change (code "g"%char) with 103%N. destruct (N.eqb_spec 103 n); [congruence|]. symmetry. apply N.eqb_neq. lia.
Qed.
Lemma letter_not i : 0 <= i < 128 -> is_letter i = false -> l_isalpha L i = false.
Proof. intros H E. now rewrite (us_alpha L U). Qed.
(* tolower in the locale goes to i only from i, if i is not a letter *)
Lemma lower_only c i : 0 <= i < 128 -> is_letter i = false -> (l_tolower L (Z.of_N (code c)) = i <-> Z.of_N (code c) = i).
Proof.
  intros H E. pose proof (code_bound c). destruct (us_tolower L U (Z.of_N (code c))) as [T|[Up Lo]]; [lia|rewrite T; tauto|].
  apply (us_upper L U) in Up. apply (us_lower L U) in Lo. split; intros Q; exfalso; [rewrite Q in Lo; rewrite letter_not in Lo by assumption; discriminate|rewrite Q in Up; rewrite letter_not in Up by assumption; discriminate].
Qed.
Lemma tolower_c i : 0 <= i <= 255 -> c_tolower i = Ok (if c_isupper i then i + 32 else i).
Proof. intros H. unfold c_tolower, ctype_dom. destruct (Z.leb_spec 0 i), (Z.leb_spec i 255); try lia. cbn [andb]. now rewrite orb_true_r. Qed.
Lemma tolower_l i : 0 <= i <= 255 -> tolower_in L i = Ok (l_tolower L i).
Proof. intros H. unfold tolower_in, ctype_dom. destruct (Z.leb_spec 0 i), (Z.leb_spec i 255); try lia. cbn [andb]. now rewrite orb_true_r. Qed.
Lemma beq_iff (a b : bool) : a = b -> (a = true <-> b = true). Proof. intros ->; tauto. Qed.
Definition clow (i : Z) : Z := if c_isupper i then i + 32 else i.
Lemma clow_cases i : 65 <= i <= 90 /\ clow i = i + 32 \/ (i < 65 \/ 90 < i) /\ clow i = i.
Proof. unfold clow, c_isupper. destruct (Z.leb_spec 65 i), (Z.leb_spec i 90); cbn [andb]; lia. Qed.
Lemma is_letter_cases i : is_letter i = false -> i < 65 \/ 90 < i < 97 \/ 122 < i.
Proof. unfold is_letter. destruct (Z.leb_spec 65 i), (Z.leb_spec i 90), (Z.leb_spec 97 i), (Z.leb_spec i 122); cbn; intros; try discriminate; lia. Qed.
Lemma c_lower_only i k : is_letter i = false -> (clow k = i <-> k = i).
Proof. intros H. apply is_letter_cases in H. destruct (clow_cases k) as [[A B]|[A B]]; rewrite B; lia. Qed.
Lemma sim_lit n : (n < 128)%N -> is_letter (Z.of_N n) = false -> sim (single_char_in L sg (chr n)) (single_char sg (chr n)).
Proof.
  intros Hn E. assert (C : code (chr n) = n) by (unfold code, chr; apply N_ascii_embedding; lia).
  assert (G : gd (chr n)) by (right; now rewrite C).
  assert (X : single_char sg (chr n) = single_char_p (A := action) (fun d => do d2 <- c_tolower (as_int sg d); Ok (Z.of_N n =? d2))).
  { unfold single_char. rewrite (good_int _ G), C, tolower_c by lia. cbn [bind]. fold (clow (Z.of_N n)). rewrite (proj2 (c_lower_only (Z.of_N n) (Z.of_N n) E) eq_refl). reflexivity. }
  assert (Y : single_char_in L sg (chr n) = single_char_p (A := action) (fun d => do d2 <- tolower_in L (as_int sg d); Ok (Z.of_N n =? d2))).
  { unfold single_char_in. rewrite (good_int _ G), C, tolower_l by lia. cbn [bind]. pose proof (proj2 (lower_only (chr n) (Z.of_N n) ltac:(lia) E)) as P. rewrite C in P. now rewrite P. }
  rewrite X, Y. apply sim_char. intros c [Hc ->]. rewrite !good_int by auto using good_f. pose proof (code_bound c). pose proof (code_bound (h c)).
  rewrite tolower_l, tolower_c by lia. cbn [bind]. fold (clow (Z.of_N (code (h c)))). f_equal.
  apply eq_true_iff_eq. rewrite !Z.eqb_eq. pose proof (c_lower_only (Z.of_N n) (Z.of_N (code (h c))) E) as P1. pose proof (lower_only c (Z.of_N n) ltac:(lia) E) as P2.
  assert (n <> 103%N) by (intros ->; discriminate E). pose proof (code_eq n c Hn H1) as Q. apply beq_iff in Q. rewrite !N.eqb_eq in Q. lia.
Qed.
Lemma sim_v : sim (single_char_in L sg (chr 0x76)) (single_char sg (chr 0x76)).
Proof.
  assert (X : single_char sg (chr 0x76) = single_char_p (A := action) (fun d => do d2 <- c_tolower (as_int sg d); Ok (0x76 =? d2))).
  { unfold single_char. rewrite good_int by (right; reflexivity). reflexivity. }
  assert (Y : single_char_in L sg (chr 0x76) = single_char_p (A := action) (fun d => do d2 <- tolower_in L (as_int sg d); Ok (0x76 =? d2))).
  { unfold single_char_in. rewrite good_int by (right; reflexivity). change (Z.of_N (code (chr 0x76))) with 0x76. rewrite tolower_l by lia. cbn [bind]. rewrite (proj2 (us_v L U 0x76 ltac:(lia))) by now left. reflexivity. }
  rewrite X, Y. apply sim_char. intros c [Hc ->]. rewrite !good_int by auto using good_f. pose proof (code_bound c). pose proof (code_bound (h c)).
  rewrite tolower_l, tolower_c by lia. cbn [bind]. fold (clow (Z.of_N (code (h c)))). f_equal.
  apply eq_true_iff_eq. rewrite !Z.eqb_eq. pose proof (us_v L U (Z.of_N (code c)) ltac:(lia)) as P.
  assert (Q1 := code_eq 0x76 c eq_refl ltac:(discriminate)). assert (Q2 := code_eq 0x56 c eq_refl ltac:(discriminate)). apply beq_iff in Q1, Q2. rewrite !N.eqb_eq in Q1, Q2.
  destruct (clow_cases (Z.of_N (code (h c)))) as [[A B]|[A B]]; rewrite B; lia.
Qed.
Lemma sim_range a b : (48 <= a <= b)%N -> (b <= 57)%N -> sim (char_range_in L sg (chr a) (chr b)) (char_range sg (chr a) (chr b)).
Proof.
  intros Ha Hb. assert (Ca : code (chr a) = a) by (unfold code, chr; apply N_ascii_embedding; lia). assert (Cb : code (chr b) = b) by (unfold code, chr; apply N_ascii_embedding; lia).
  assert (Ga : gd (chr a)) by (right; lia). assert (Gb : gd (chr b)) by (right; lia).
  assert (Dl : forall i, 48 <= i <= 57 -> is_letter i = false) by (intros i Hi; unfold is_letter; destruct (Z.leb_spec 65 i), (Z.leb_spec 97 i); cbn; lia || reflexivity).
  assert (X : char_range sg (chr a) (chr b) = single_char_p (A := action) (fun c => do cl <- c_tolower (as_int sg c); Ok ((Z.of_N a <=? cl) && (cl <=? Z.of_N b)))).
  { unfold char_range. rewrite !good_int, Ca, Cb, !tolower_c by (auto; lia). cbn [bind]. fold (clow (Z.of_N a)) (clow (Z.of_N b)).
    rewrite (proj2 (c_lower_only _ _ (Dl (Z.of_N a) ltac:(lia))) eq_refl), (proj2 (c_lower_only _ _ (Dl (Z.of_N b) ltac:(lia))) eq_refl). reflexivity. }
  assert (Y : char_range_in L sg (chr a) (chr b) = single_char_p (A := action) (fun c => do cl <- tolower_in L (as_int sg c); Ok ((Z.of_N a <=? cl) && (cl <=? Z.of_N b)))).
  { unfold char_range_in. rewrite !good_int, Ca, Cb, !tolower_l by (auto; lia). cbn [bind].
    pose proof (proj2 (lower_only (chr a) (Z.of_N a) ltac:(lia) (Dl (Z.of_N a) ltac:(lia)))) as Pa. pose proof (proj2 (lower_only (chr b) (Z.of_N b) ltac:(lia) (Dl (Z.of_N b) ltac:(lia)))) as Pb. rewrite Ca in Pa. rewrite Cb in Pb. rewrite Pa, Pb by reflexivity. reflexivity. }
  rewrite X, Y. apply sim_char. intros c [Hc ->]. rewrite !good_int by auto using good_f. pose proof (code_bound c). pose proof (code_bound (h c)).
  rewrite tolower_l, tolower_c by lia. cbn [bind]. fold (clow (Z.of_N (code (h c)))). f_equal.
  assert (Q : forall i, 48 <= i <= 57 -> clow (Z.of_N (code (h c))) = i <-> l_tolower L (Z.of_N (code c)) = i).
  { intros i Hi. rewrite (c_lower_only _ _ (Dl i Hi)), (lower_only c i ltac:(lia) (Dl i Hi)). pose proof (code_eq (Z.to_N i) c ltac:(lia) ltac:(lia)) as Q. apply beq_iff in Q. rewrite !N.eqb_eq in Q. lia. }
  apply eq_true_iff_eq. rewrite !andb_true_iff, !Z.leb_le. split; intros [H1 H2].
  - pose proof (proj1 (Q _ (conj (Z.le_trans _ _ _ (proj1 (N2Z.inj_le 48 a) (proj1 Ha)) H1) (Z.le_trans _ _ _ H2 (proj1 (N2Z.inj_le b 57) Hb)))) eq_refl) as R. rewrite R. auto.
  - pose proof (proj2 (Q _ (conj (Z.le_trans _ _ _ (proj1 (N2Z.inj_le 48 a) (proj1 Ha)) H1) (Z.le_trans _ _ _ H2 (proj1 (N2Z.inj_le b 57) Hb)))) eq_refl) as R. rewrite R. auto.
Qed.
Lemma sim_alpha : sim (alpha_in L sg) (alpha sg).
Proof. apply sim_char. intros c [H ->]. unfold ctype. rewrite !good_int by auto using good_f. rewrite !good_dom. now rewrite alpha_eq. Qed.
Lemma sim_digit : sim (digit sg) (digit sg).
Proof. apply sim_char. intros c [H ->]. unfold ctype. rewrite !good_int by auto using good_f. rewrite !good_dom. now rewrite digit_eq. Qed.
Lemma sim_hexdig : sim (hexdig sg) (hexdig sg).
Proof. apply sim_char. intros c [H ->]. unfold ctype. rewrite !good_int by auto using good_f. rewrite !good_dom. now rewrite xdigit_eq. Qed.
Lemma existsb_eq c l : forallb (fun n => (n <? 128)%N && negb (n =? 103)%N) l = true -> existsb (fun n => (code (h c) =? n)%N) l = existsb (fun n => (code c =? n)%N) l.
Proof.
  induction l as [|n l IH]; [reflexivity|]. cbn [forallb existsb]. intros H. apply andb_true_iff in H as [H H']. apply andb_true_iff in H as [H1 H2].
  rewrite IH by exact H'. rewrite code_eq; [reflexivity|now apply N.ltb_lt|]. apply negb_true_iff, N.eqb_neq in H2. exact H2.
Qed.
Lemma sim_sub : sim sub_delims sub_delims.
Proof. apply sim_char. intros c [H ->]. unfold is_sub_delim. now rewrite existsb_eq. Qed.
Lemma sim_unreserved : sim (unreserved_in L sg) (unreserved sg).
Proof.
  apply sim_char. intros c [H ->]. unfold ctype. rewrite !good_int by auto using good_f. rewrite !good_dom. cbn [bind]. unfold c_isalnum, l_isalnum. rewrite alpha_eq, digit_eq, existsb_eq by reflexivity. reflexivity.
Qed.
Lemma sim_not_colon : sim not_colon not_colon.
Proof.
  intros r Hr. unfold not_colon. cbn [tail rmap]. unfold okr in Hr. destruct (tail r) as [[|c t]|]; cbn [option_map map]; try reflexivity.
  inversion Hr as [|? ? [_ Hf] _]; subst. rewrite Hf. replace (Ascii.eqb (h c) ":") with (Ascii.eqb c ":"); [destruct (Ascii.eqb c ":"); reflexivity|].
  destruct (cases c) as [[H ->]|[(H & E & ->)|(H & E & ->)]]; try reflexivity. destruct (Ascii.eqb_spec c ":"); [subst; now exfalso|reflexivity].
Qed.
Local Close Scope Z_scope.
Variable fuel : nat.
Ltac go := lazymatch goal with
  | |- sim _ _ => first [assumption | solve [eauto with sims] | apply sim_matched; go]
  | |- tsim Ok _ => apply tsim_id
  | |- tsim (fun r => @?x r >>= _) _ => apply tsim_bind; go
  | |- tsim (concat _) _ => apply tsim_concat; go
  | |- tsim (concat_a _ _) _ => apply tsim_concat_a; go
  | |- tsim (optional _) _ => apply tsim_optional; go
  | |- tsim (star _ _ _ _) _ => apply tsim_star; go
  | |- tsim (alternative _) _ => apply tsim_alternative; go
  | |- Forall2 _ [] _ => apply Forall2_nil
  | |- Forall2 _ (_ :: _) _ => apply Forall2_cons; go
  end.
Ltac lit := apply sim_lit; reflexivity.
Hint Resolve sim_v sim_alpha sim_digit sim_hexdig sim_sub sim_unreserved sim_not_colon : sims.
Lemma s_commercial_at : sim (commercial_at_in L sg) (commercial_at sg). Proof. lit. Qed.
Lemma s_colon : sim (colon_in L sg) (colon sg). Proof. lit. Qed.
Lemma s_hash : sim (hash_in L sg) (hash sg). Proof. lit. Qed.
Lemma s_plus : sim (plus_in L sg) (plus sg). Proof. lit. Qed.
Lemma s_minus : sim (minus_in L sg) (minus sg). Proof. lit. Qed.
Lemma s_solidus : sim (solidus_in L sg) (solidus sg). Proof. lit. Qed.
Lemma s_question_mark : sim (question_mark_in L sg) (question_mark sg). Proof. lit. Qed.
Lemma s_full_stop : sim (full_stop_in L sg) (full_stop sg). Proof. lit. Qed.
Lemma s_lsb : sim (left_square_bracket_in L sg) (left_square_bracket sg). Proof. lit. Qed.
Lemma s_rsb : sim (right_square_bracket_in L sg) (right_square_bracket sg). Proof. lit. Qed.
Lemma s_percent : sim (percent_sign_in L sg) (percent_sign sg). Proof. lit. Qed.
Lemma s_one : sim (digit_one_in L sg) (digit_one sg). Proof. lit. Qed.
Lemma s_two : sim (digit_two_in L sg) (digit_two sg). Proof. lit. Qed.
Lemma s_five : sim (digit_five_in L sg) (digit_five sg). Proof. lit. Qed.
Lemma s_v : sim (latin_small_letter_v_in L sg) (latin_small_letter_v sg). Proof. exact sim_v. Qed.
Lemma s_r05 : sim (code_point_range_in L sg 0x30 0x35) (code_point_range sg 0x30 0x35). Proof. apply sim_range; lia. Qed.
Lemma s_r04 : sim (code_point_range_in L sg 0x30 0x34) (code_point_range sg 0x30 0x34). Proof. apply sim_range; lia. Qed.
Lemma s_r19 : sim (code_point_range_in L sg 0x31 0x39) (code_point_range sg 0x31 0x39). Proof. apply sim_range; lia. Qed.
Hint Resolve s_commercial_at s_colon s_hash s_plus s_minus s_solidus s_question_mark s_full_stop s_lsb s_rsb s_percent s_one s_two s_five s_v s_r05 s_r04 s_r19 : sims.
Lemma s_single_colon : sim (single_colon_in L sg) (single_colon sg). Proof. unfold single_colon_in, single_colon. go. Qed.
Hint Resolve s_single_colon : sims.
Lemma s_pct : sim (pct_encoded_in L sg) (pct_encoded sg). Proof. unfold pct_encoded_in, pct_encoded. go. Qed.
Hint Resolve s_pct : sims.
Lemma s_pchar : sim (pchar_in L sg) (pchar sg). Proof. unfold pchar_in, pchar. go. Qed.
Hint Resolve s_pchar : sims.
Lemma s_userinfo : sim (userinfo_r_in L sg fuel) (userinfo_r sg fuel). Proof. unfold userinfo_r_in, userinfo_r. go. Qed.
Lemma s_scheme : sim (scheme_in L sg fuel) (scheme sg fuel). Proof. unfold scheme_in, scheme. go. Qed.
Lemma s_reg_name : sim (reg_name_in L sg fuel) (reg_name sg fuel). Proof. unfold reg_name_in, reg_name. go. Qed.
Lemma s_dec : sim (dec_octet_in L sg) (dec_octet sg). Proof. unfold dec_octet_in, dec_octet. go. Qed.
Hint Resolve s_userinfo s_scheme s_reg_name s_dec : sims.
Lemma s_ipv4 : sim (ipv4address_in L sg) (ipv4address sg). Proof. unfold ipv4address_in, ipv4address. go. Qed.
Lemma s_h16 : sim (h16_in sg fuel) (h16 sg fuel). Proof. unfold h16_in, h16. go. Qed.
Hint Resolve s_ipv4 s_h16 : sims.
Lemma s_h16c : sim (h16_colon_in L sg fuel) (h16_colon sg fuel). Proof. unfold h16_colon_in, h16_colon. go. Qed.
Lemma s_cc : sim (colon_colon_in L sg) (colon_colon sg). Proof. unfold colon_colon_in, colon_colon. go. Qed.
Lemma s_ls32 : sim (ls32_in L sg fuel) (ls32 sg fuel). Proof. unfold ls32_in, ls32. go. Qed.
Hint Resolve s_h16c s_cc s_ls32 : sims.
Lemma s_upto k : sim (upto_h16_in L sg fuel k) (upto_h16 sg fuel k). Proof. unfold upto_h16_in, upto_h16. go. Qed.
Hint Resolve s_upto : sims.
Lemma s_ipv6 : sim (ipv6address_in L sg fuel) (ipv6address sg fuel). Proof. unfold ipv6address_in, ipv6address. go. Qed.
Lemma s_ipvf : sim (ipvfuture_in L sg fuel) (ipvfuture sg fuel). Proof. unfold ipvfuture_in, ipvfuture. go. Qed.
Hint Resolve s_ipv6 s_ipvf : sims.
Lemma s_ipl : sim (ip_literal_in L sg fuel) (ip_literal sg fuel). Proof. unfold ip_literal_in, ip_literal. go. Qed.
Hint Resolve s_ipl : sims.
Lemma s_host : sim (host_r_in L sg fuel) (host_r sg fuel). Proof. unfold host_r_in, host_r. go. Qed.
Hint Resolve s_host : sims.
Lemma s_host_rule : sim (host_rule_in L sg fuel) (host_rule sg fuel). Proof. unfold host_rule_in, host_rule. go. Qed.
Lemma s_uat : sim (userinfo_at_in L sg fuel) (userinfo_at sg fuel). Proof. unfold userinfo_at_in, userinfo_at. go. Qed.
Lemma s_port : sim (port_r_in sg fuel) (port_r sg fuel). Proof. unfold port_r_in, port_r. go. Qed.
Hint Resolve s_host_rule s_uat s_port : sims.
Lemma s_cport : sim (colon_port_in L sg fuel) (colon_port sg fuel). Proof. unfold colon_port_in, colon_port. go. Qed.
Hint Resolve s_cport : sims.
Lemma s_auth : sim (authority_r_in L sg fuel) (authority_r sg fuel). Proof. unfold authority_r_in, authority_r. go. Qed.
Lemma s_seg : sim (segment_in L sg fuel) (segment sg fuel). Proof. unfold segment_in, segment. go. Qed.
Lemma s_segnz : sim (segment_nz_in L sg fuel) (segment_nz sg fuel). Proof. unfold segment_nz_in, segment_nz. go. Qed.
Lemma s_segnznc : sim (segment_nz_nc_in L sg fuel) (segment_nz_nc sg fuel). Proof. unfold segment_nz_nc_in, segment_nz_nc. go. Qed.
Hint Resolve s_auth s_seg s_segnz s_segnznc : sims.
Lemma s_pabe : sim (path_abempty_in L sg fuel) (path_abempty sg fuel). Proof. unfold path_abempty_in, path_abempty. go. Qed.
Lemma s_sls : sim (slash_segment_in L sg fuel) (slash_segment sg fuel). Proof. unfold slash_segment_in, slash_segment. go. Qed.
Hint Resolve s_pabe s_sls : sims.
Lemma s_pabs : sim (path_absolute_in L sg fuel) (path_absolute sg fuel). Proof. unfold path_absolute_in, path_absolute. go. Qed.
Lemma s_pnos : sim (path_noscheme_in L sg fuel) (path_noscheme sg fuel). Proof. unfold path_noscheme_in, path_noscheme. go. Qed.
Lemma s_pemp : sim (path_empty_in L sg fuel) (path_empty sg fuel). Proof. unfold path_empty_in, path_empty. go. Qed.
Lemma s_proot : sim (path_rootless_in L sg fuel) (path_rootless sg fuel). Proof. unfold path_rootless_in, path_rootless. go. Qed.
Lemma s_aabe : sim (auth_abempty_in L sg fuel) (auth_abempty sg fuel). Proof. unfold auth_abempty_in, auth_abempty. go. Qed.
Hint Resolve s_pabs s_pnos s_pemp s_proot s_aabe : sims.
Lemma s_relp : sim (relative_part_in L sg fuel) (relative_part sg fuel). Proof. unfold relative_part_in, relative_part. go. Qed.
Lemma s_query : sim (query_in L sg fuel) (query sg fuel). Proof. unfold query_in, query. go. Qed.
Lemma s_frag : sim (fragment_in L sg fuel) (fragment sg fuel). Proof. exact s_query. Qed.
Hint Resolve s_relp s_query s_frag : sims.
Lemma s_qq : sim (question_query_in L sg fuel) (question_query sg fuel). Proof. unfold question_query_in, question_query. go. Qed.
Lemma s_hf : sim (hash_fragment_in L sg fuel) (hash_fragment sg fuel). Proof. unfold hash_fragment_in, hash_fragment. go. Qed.
Hint Resolve s_qq s_hf : sims.
Lemma s_relref : sim (relative_ref_in L sg fuel) (relative_ref sg fuel). Proof. unfold relative_ref_in, relative_ref. go. Qed.
Lemma s_hier : sim (hier_part_in L sg fuel) (hier_part sg fuel). Proof. unfold hier_part_in, hier_part. go. Qed.
Hint Resolve s_relref s_hier : sims.
Lemma s_URI : sim (URI_in L sg fuel) (URI sg fuel). Proof. unfold URI_in, URI. go. Qed.
Hint Resolve s_URI : sims.
Lemma s_URI_ref : sim (URI_reference_in L sg fuel) (URI_reference sg fuel). Proof. unfold URI_reference_in, URI_reference. go. Qed.

(* --- acceptors --- *)
Local Notation pm := (parts_map f).
Lemma ensure_map p : ensure_authority (pm p) = authority_map f (ensure_authority p).
Proof. unfold ensure_authority. destruct p as [s [a|] pa q fr]; reflexivity. Qed.
Lemma run_map a s p : run_action a (map f s) (pm p) = result_map pm (run_action a s p).
Proof.
  destruct a; cbn [run_action]; try reflexivity.
  - rewrite ensure_map. destruct p as [? [?|] [? ?] ? ?]; reflexivity.
  - rewrite ensure_map. destruct p as [? [?|] [? ?] ? ?]; reflexivity.
  - rewrite ensure_map. destruct p as [? [?|] [? ?] ? ?]; reflexivity.
  - destruct p as [? ? [ab sg'] ? ?]. cbn. unfold set_path, parts_map. cbn. rewrite map_app. reflexivity.
  - destruct p as [sc au [ab sl] q fr]. cbn. unfold set_back. destruct sl as [|x sl]; cbn [map bind result_map]; [reflexivity|].
    unfold set_path, parts_map. cbn [p_scheme p_authority p_path p_query p_fragment absolute segments]. rewrite map_app. change (map f x :: map (map f) sl) with (map (map f) (x :: sl)). now rewrite removelast_map.
  - destruct p as [? ? [ab sl] ? ?]. cbn. unfold set_path, parts_map. cbn. rewrite map_app. reflexivity.
Qed.
Lemma accs_map l p : run_accs run_action (amap l) (pm p) = result_map pm (run_accs run_action l p).
Proof.
  revert p. induction l as [|[a s] l IH]; intros p; [reflexivity|]. cbn [amap map run_accs fst snd]. rewrite run_map. destruct (run_action a s p) as [p'| |]; cbn [result_map bind]; try reflexivity. apply IH.
Qed.
Lemma done_map r p : done run_action (rmap r) (pm p) = result_map (fun x => (fst x, pm (snd x))) (done run_action r p).
Proof.
  unfold done. cbn [tail rmap accs]. destruct (tail r) as [[|c t]|]; cbn [option_map map]; try reflexivity. rewrite accs_map. destruct (run_accs run_action (accs r) p); reflexivity.
Qed.
Lemma parse_map m m' s : sim m m' -> Forall good s -> parse_done m' (map f s) = result_map (option_map pm) (parse_done m s).
Proof.
  intros Hm Hs. unfold parse_done. destruct (tsim_concat m m' Hm (rule_of s) Hs) as [E _]. rewrite rmap_of in E. rewrite E.
  destruct (concat m (rule_of s)) as [r| |]; cbn [result_map bind]; try reflexivity. change empty_parts with (pm empty_parts) at 1. rewrite done_map.
  destruct (done run_action r empty_parts) as [[[] p]| |]; reflexivity.
Qed.
Lemma matches_map m m' s : sim m m' -> Forall good s -> matches m' (map f s) = matches m s.
Proof.
  intros Hm Hs. unfold matches. destruct (tsim_concat m m' Hm (rule_of s) Hs) as [E _]. rewrite rmap_of in E. rewrite E.
  destruct (concat m (rule_of s)) as [r| |]; cbn [result_map bind]; try reflexivity. change empty_parts with (pm empty_parts) at 1. rewrite done_map.
  destruct (done run_action r empty_parts) as [[[] p]| |]; reflexivity.
Qed.
Lemma split_map_g s : Forall good s -> split sg fuel (map f s) = result_map (option_map pm) (split_in L sg fuel s).
Proof. intros H. apply parse_map; [apply s_URI|exact H]. Qed.
Lemma split_reference_map_g s : Forall good s -> split_reference sg fuel (map f s) = result_map (option_map pm) (split_reference_in L sg fuel s).
Proof. intros H. apply parse_map; [apply s_URI_ref|exact H]. Qed.
Lemma opt_map m m' o : sim m m' -> opt_all (Forall good) o -> opt_matches m' (option_map (map f) o) = opt_matches m o.
Proof. intros Hm Ho. destruct o; cbn; [|reflexivity]. now apply matches_map. Qed.
Lemma segs_map l : Forall (Forall good) l -> segs_valid sg fuel (map (map f) l) = segs_valid_in L sg fuel l.
Proof.
  induction 1 as [|x l Hx _ IH]; [reflexivity|]. cbn [map segs_valid segs_valid_in]. rewrite IH. f_equal. apply matches_map; [apply s_seg|exact Hx].
Qed.
Lemma valid_map_g p : parts_all (fun _ => Forall good) p -> parts_valid sg fuel (pm p) = parts_valid_in L sg fuel p.
Proof.
  intros (Hs & Ha & Hp & Hq & Hf). unfold parts_valid, parts_valid_in, parts_map. cbn [p_scheme p_authority p_path p_query p_fragment]. f_equal; [|f_equal; [|f_equal; [|f_equal]]].
  - destruct (p_scheme p); [|reflexivity]. apply matches_map; [apply s_scheme|exact Hs].
  - destruct (p_authority p) as [a|]; [|reflexivity]. destruct Ha as (Hu & Hh & Hpo). cbn [option_map]. unfold authority_valid, authority_valid_in, authority_map. cbn [userinfo host port].
    rewrite (opt_map _ _ _ s_userinfo Hu), (matches_map _ _ _ s_host Hh), (opt_map _ _ _ s_port Hpo). reflexivity.
  - unfold path_valid, path_valid_in. cbn [segments]. now apply segs_map.
  - now apply opt_map; [apply s_query|].
  - now apply opt_map; [apply s_frag|].
Qed.
End Sim.

Lemma dom_good L sg s : in_domain sg s -> Forall (good L sg (seen_as L)) s.
Proof. intros [H|H]; [apply Forall_forall; intros c _; split; [now left|reflexivity]|]. eapply Forall_impl; [|exact H]. intros c Hc. split; [now right|reflexivity]. Qed.
Lemma dom_good_id L sg s : in_domain sg s -> Forall (fun c => seen_as L c = c) s -> Forall (good L sg (fun c => c)) s.
Proof. rewrite !Forall_forall. intros H E c Hc. split; [|symmetry; auto]. destruct H as [H|H]; [now left|right]. rewrite Forall_forall in H. auto. Qed.
Lemma parts_map_id p : parts_map (fun c => c) p = p.
Proof.
  assert (O : forall o : option str, option_map (map (fun c => c)) o = o) by (intros [o|]; cbn; [now rewrite map_id|reflexivity]).
  destruct p as [s a [ab sl] q fr]. unfold parts_map. cbn. rewrite !O. replace (map (map (fun c => c)) sl) with sl by (induction sl; cbn; [reflexivity|now rewrite map_id, <- IHsl]).
  destruct a as [[u h po]|]; [|reflexivity]. unfold authority_map. cbn. now rewrite !O, map_id.
Qed.
Lemma result_map_id {A} (g : A -> A) x : (forall a, g a = a) -> result_map g x = x.
Proof. intros H. destruct x; cbn; [now rewrite H|reflexivity|reflexivity]. Qed.
Lemma split_same L sg fuel s : usable L -> in_domain sg s -> Forall (fun c => seen_as L c = c) s -> split_in L sg fuel s = split sg fuel s.
Proof.
  intros U D E. pose proof (split_map_g L U sg (fun c => c) fuel s (dom_good_id _ _ _ D E)) as Q. rewrite map_id in Q. rewrite Q.
  symmetry. apply result_map_id. intros [p|]; cbn; [now rewrite parts_map_id|reflexivity].
Qed.
Lemma split_reference_same L sg fuel s : usable L -> in_domain sg s -> Forall (fun c => seen_as L c = c) s -> split_reference_in L sg fuel s = split_reference sg fuel s.
Proof.
  intros U D E. pose proof (split_reference_map_g L U sg (fun c => c) fuel s (dom_good_id _ _ _ D E)) as Q. rewrite map_id in Q. rewrite Q.
  symmetry. apply result_map_id. intros [p|]; cbn; [now rewrite parts_map_id|reflexivity].
Qed.
Lemma parts_all_impl (P Q : field -> str -> Prop) p : (forall f s, P f s -> Q f s) -> parts_all P p -> parts_all Q p.
Proof.
  intros H (A & B & C & D & E). assert (O : forall fl (o : option str), opt_all (P fl) o -> opt_all (Q fl) o) by (intros fl [o|]; cbn; auto).
  split; [auto|]. split; [|split; [|split; auto]].
  - destruct (p_authority p) as [a|]; cbn in *; [|exact I]. destruct B as (B1 & B2 & B3). auto.
  - eapply Forall_impl; [|exact C]. auto.
Qed.
Lemma valid_same L sg fuel p : usable L -> parts_all (fun _ s => in_domain sg s /\ Forall (fun c => seen_as L c = c) s) p -> parts_valid_in L sg fuel p = parts_valid sg fuel p.
Proof.
  intros U H. pose proof (valid_map_g L U sg (fun c => c) fuel p) as Q. rewrite parts_map_id in Q. symmetry. apply Q. eapply parts_all_impl; [|exact H]. cbn. intros _ s [D E]. now apply dom_good_id.
Qed.
Lemma seen_ascii L s : Forall (fun c => (code c < 128)%N) s -> Forall (fun c => seen_as L c = c) s.
Proof. apply Forall_impl. intros c H. unfold seen_as. destruct (N.leb_spec 128 (code c)); [lia|reflexivity]. Qed.
Lemma seen_none L s : (forall i, (128 <= i <= 255)%Z -> l_isalpha L i = false) -> Forall (fun c => seen_as L c = c) s.
Proof.
  intros H. apply Forall_forall. intros c _. unfold seen_as. destruct (N.leb_spec 128 (code c)); cbn [andb]; [|reflexivity]. rewrite H; [reflexivity|]. pose proof (N_ascii_bounded c). unfold code in *. lia.
Qed.
(* a URI is ASCII *)
From Verif Require Rfc3986.
Fixpoint ascii_g (g : Rfc3986.abnf) : bool :=
  match g with
  | Rfc3986.Rng _ hi => (hi <? 128)%N
  | Rfc3986.Lit l => forallb (fun c => (code c <? 128)%N) (ss l)
  | Rfc3986.Cat a b | Rfc3986.Alt a b => ascii_g a && ascii_g b
  | Rfc3986.Rep _ _ a => ascii_g a
  end.
Lemma lower_ascii c : (code (Rfc3986.lower c) < 128)%N -> (code c < 128)%N.
Proof. unfold Rfc3986.lower. destruct (N.leb_spec 65 (code c)), (N.leb_spec (code c) 90); cbn [andb]; lia. Qed.
Lemma ascii_lower c : (code c < 128)%N -> (code (Rfc3986.lower c) < 128)%N.
Proof.
  unfold Rfc3986.lower. destruct (N.leb_spec 65 (code c)), (N.leb_spec (code c) 90); cbn [andb]; try lia. intros _.
  unfold code at 1, chr. rewrite N_ascii_embedding; lia.
Qed.
Lemma L_ascii g s : ascii_g g = true -> Rfc3986.L g s -> Forall (fun c => (code c < 128)%N) s.
Proof.
  revert s. induction g as [lo hi|l|a IHa b IHb|a IHa b IHb|mn mx a IHa]; intros s A H; cbn [ascii_g Rfc3986.L] in *.
  - destruct H as (c & -> & H). apply N.ltb_lt in A. constructor; [lia|constructor].
  - rewrite forallb_forall in A. rewrite Forall_forall. intros c Hc. apply (in_map Rfc3986.lower) in Hc. rewrite H in Hc. apply in_map_iff in Hc as (d & E & Hd).
    apply lower_ascii. rewrite <- E. apply ascii_lower. apply N.ltb_lt. now apply A.
  - destruct H as (s1 & s2 & -> & H1 & H2). apply andb_true_iff in A as [A1 A2]. apply Forall_app. auto.
  - apply andb_true_iff in A as [A1 A2]. destruct H; auto.
  - destruct H as (l & -> & H & _). induction H as [|x l Hx _ IH]; cbn; [constructor|]. apply Forall_app. auto.
Qed.
Lemma URI_ascii s : Rfc3986.L Rfc3986.URI s -> Forall (fun c => (code c < 128)%N) s.
Proof. apply L_ascii. vm_compute. reflexivity. Qed.
