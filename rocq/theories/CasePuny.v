(* Punycode and the case of letters: proofs for C85. *)
From Verif Require Import Base ModelAlgo ModelPuny Rfc3986 SpecPct SpecStore SpecCase CommuteFacts CaseFacts AlgoFacts.
From Coq Require Import Lia.
Local Open Scope N_scope.
Local Open Scope list_scope.

Definition same_point (a b : N) : Prop := lower_point a = lower_point b.
Lemma point_code c : lower_point (code c) = code (lower c). Proof. destruct c as [[] [] [] [] [] [] [] []]; vm_compute; reflexivity. Qed.
Lemma point_same a b : same_letter a b -> same_point (code a) (code b).
Proof. unfold same_letter, same_point. rewrite !point_code. now intros ->. Qed.
Lemma points_of s t : same_text s t -> same_points (map code s) (map code t).
Proof. induction 1; constructor; auto. now apply point_same. Qed.
Lemma point_cases a b : same_point a b -> a = b \/ (a < 0x80 /\ b < 0x80).
Proof.
  unfold same_point, lower_point. destruct (N.leb_spec 65 a), (N.leb_spec a 90), (N.leb_spec 65 b), (N.leb_spec b 90); cbn [andb]; intros E; lia.
Qed.
Lemma points_refl u : same_points u u. Proof. induction u; constructor; auto. Qed.
Lemma points_app u v u' v' : same_points u u' -> same_points v v' -> same_points (u ++ v) (u' ++ v'). Proof. intros. now apply Forall2_app. Qed.
Lemma points_length u v : same_points u v -> length u = length v. Proof. apply f2_length. Qed.
Lemma points_map u v : same_points u v <-> map lower_point u = map lower_point v.
Proof.
  split.
  - induction 1 as [|a b s t H F IH]; [reflexivity|]. cbn. congruence.
  - revert v. induction u as [|a s IH]; intros [|b t] E; try discriminate; [constructor|]. injection E as E1 E2. constructor; [exact E1|now apply IH].
Qed.
Lemma points_skipn n s t : same_points s t -> same_points (skipn n s) (skipn n t).
Proof. rewrite !points_map, <- !skipn_map. congruence. Qed.
Lemma points_firstn n s t : same_points s t -> same_points (firstn n s) (firstn n t).
Proof. rewrite !points_map, <- !firstn_map. congruence. Qed.
Lemma chr_point a b : a < 0x80 -> b < 0x80 -> same_point a b -> same_letter (chr a) (chr b).
Proof.
  intros A B H. unfold same_letter. assert (K : forall x, x < 0x80 -> lower (chr x) = chr (lower_point x)).
  { intros x X. unfold lower, lower_point. assert (E : code (chr x) = x) by (unfold code, chr; rewrite N_ascii_embedding by lia; reflexivity). rewrite E. destruct (_ && _); reflexivity. }
  rewrite !K by assumption. unfold same_point in H. now rewrite H.
Qed.

(* --- decode --- *)
Lemma digit_lower c : decode_digit (code (lower c)) = decode_digit (code c). Proof. destruct c as [[] [] [] [] [] [] [] []]; vm_compute; reflexivity. Qed.
Lemma digit_same a b : same_letter a b -> decode_digit (code a) = decode_digit (code b).
Proof. unfold same_letter. intros H. rewrite <- (digit_lower a), <- (digit_lower b). now rewrite H. Qed.
Definition vli_rel (x y : N * str) : Prop := fst x = fst y /\ same_text (snd x) (snd y).
Lemma vli_sim s t : same_text s t -> forall k w v bias, same_answer (sum_rel vli_rel) (decode_vli_loop s k w v bias) (decode_vli_loop t k w v bias).
Proof.
  induction 1 as [|a b s t H F IH]; intros k w v bias; cbn [decode_vli_loop]; [now constructor|]. rewrite <- (digit_same a b H). cbv zeta.
  destruct (base <? decode_digit (code a)); [constructor|]. destruct (base <=? decode_digit (code a)); [now constructor|]. destruct (w =? 0); [constructor|].
  destruct ((size_max - v) / w <? decode_digit (code a)); [now constructor|]. destruct (decode_digit (code a) <? clamp k bias); [constructor; split; [reflexivity|exact F]|].
  destruct (base - clamp k bias =? 0); [constructor|]. destruct (size_max / (base - clamp k bias) <? w); [now constructor|]. apply IH.
Qed.
Lemma flf_sim (f : ascii -> bool) s t : (forall c, f (lower c) = f c) -> same_text s t -> forall n o, flf_loop f s n o = flf_loop f t n o.
Proof.
  intros Hf. induction 1 as [|a b s t H F IH]; intros n o; cbn [flf_loop]; [reflexivity|]. rewrite <- (Hf a), <- (Hf b). unfold same_letter in H. rewrite <- H. now rewrite IH.
Qed.
Lemma find_sim f s t : (forall c, f (lower c) = f c) -> same_text s t -> find_last_bidi f s = find_last_bidi f t.
Proof. intros Hf S. rewrite !find_last_bidi_forward. unfold find_last_forward. now rewrite (flf_sim f s t Hf S), (text_length s t S). Qed.
Lemma basic_same a b : same_point a b -> is_basic_code_point a = is_basic_code_point b.
Proof. intros H. destruct (point_cases a b H) as [->|[A B]]; [reflexivity|]. unfold is_basic_code_point. apply N.ltb_lt in A, B. congruence. Qed.
Lemma copy_sim s t : same_text s t -> forall o o', same_points o o' -> sum_rel same_points (copy_basic s o) (copy_basic t o').
Proof.
  induction 1 as [|a b s t H F IH]; intros o o' O; cbn [copy_basic]; [exact O|]. apply point_same in H. rewrite <- (basic_same _ _ H). destruct (is_basic_code_point (code a)); [|reflexivity].
  apply IH. apply points_app; [exact O|]. constructor; [exact H|constructor].
Qed.
Lemma plain_sim s t : same_text s t -> same_answer (sum_rel (fun x y => same_points (fst x) (fst y) /\ same_text (snd x) (snd y))) (copy_plain_ascii_part s) (copy_plain_ascii_part t).
Proof.
  intros S. unfold copy_plain_ascii_part. rewrite <- (find_sim (fun c => Ascii.eqb c delimiter) s t) by (first [exact S|intros c; every c]).
  destruct (find_last_bidi _ s) as [[b e]| |]; cbn [bind]; [|constructor|constructor]. destruct (Nat.eqb b e); [constructor; split; [constructor|exact S]|].
  pose proof (copy_sim _ _ (text_firstn b s t S) [] [] (Forall2_nil _)) as K. destruct (copy_basic (firstn b s) []), (copy_basic (firstn b t) []); try contradiction; constructor; [|exact K].
  split; [exact K|]. now apply text_skipn.
Qed.
Lemma insert_sim u v pos c : same_points u v -> same_answer same_points (string_insert u pos c) (string_insert v pos c).
Proof.
  intros H. unfold string_insert. rewrite <- (points_length u v H). destruct (_ <? _); constructor. apply points_app; [now apply points_firstn|]. constructor; [reflexivity|now apply points_skipn].
Qed.
Lemma decode_loop_sim fuel : forall s t, same_text s t -> forall n index bias u v, same_points u v ->
  same_answer (sum_rel same_points) (decode_loop fuel s n index bias u) (decode_loop fuel t n index bias v).
Proof.
  induction fuel as [|fuel IH]; intros s t S n index bias u v P; (destruct S as [|a b s t H F]; [now constructor|]); cbn [decode_loop]; [constructor|].
  pose proof (vli_sim (a :: s) (b :: t) (Forall2_cons _ _ H F) base 1 index bias) as V. unfold decode_vli. eapply answer_bind; [exact V|]. clear V.
  intros [[i1 s1]|e] [[i2 s2]|e'] K; try contradiction; [|cbn in K; subst; now constructor]. destruct K as [K1 K2]. cbn [fst snd] in K1, K2. subst i2. cbv zeta.
  rewrite <- (points_length u v P). destruct (i1 <? index); [constructor|]. destruct (adapt _ _ _) as [bias'| |]; cbn [bind]; [|constructor|constructor].
  destruct (2 ^ 32 - 1 <? n); [constructor|]. destruct (_ <? _); [now constructor|]. eapply answer_bind; [now apply insert_sim|]. intros u' v' P'. now apply IH.
Qed.
Lemma decode_sim s t : same_text s t -> same_answer (sum_rel same_points) (decode s) (decode t).
Proof.
  intros S. unfold decode. eapply answer_bind; [now apply plain_sim|]. intros [[u s1]|e] [[v t1]|e'] K; try contradiction; [|cbn in K; subst; now constructor].
  destruct K as [K1 K2]. cbn [fst snd] in K1, K2. rewrite <- (text_length _ _ K2). now apply decode_loop_sim.
Qed.

(* --- encode --- *)
Definition st_rel (a b : enc_state) : Prop := same_text (e_out a) (e_out b) /\ e_i a = e_i b /\ e_delta a = e_delta b /\ e_bias a = e_bias b.
Lemma vli_out fuel : forall k q bias o o', same_text o o' -> same_answer same_text (encode_vli_loop fuel k q bias o) (encode_vli_loop fuel k q bias o').
Proof.
  induction fuel as [|fuel IH]; intros k q bias o o' O; cbn [encode_vli_loop]; [constructor|]. cbv zeta.
  destruct (q <? clamp k bias). { destruct (encode_digit (w32 q)) as [d| |]; cbn [bind]; constructor. apply text_app; [exact O|apply text_refl]. }
  destruct (base <? clamp k bias); [constructor|]. destruct (base - clamp k bias =? 0); [constructor|].
  destruct (encode_digit _) as [d| |]; cbn [bind]; [|constructor|constructor]. apply IH. apply text_app; [exact O|apply text_refl].
Qed.
Lemma pass_sim n nb u v : 0x80 <= n -> same_points u v -> forall s s', st_rel s s' -> same_answer st_rel (encode_pass u n nb s) (encode_pass v n nb s').
Proof.
  intros N. induction 1 as [|a b u v H F IH]; intros s s' S; cbn [encode_pass]; [now constructor|]. pose proof S as (S1 & S2 & S3 & S4).
  assert (E : (a <? n) = (b <? n) /\ (a =? n) = (b =? n)).
  { destruct (point_cases a b H) as [->|[A B]]; [auto|]. split; apply Bool.eq_iff_eq_true; rewrite ?N.ltb_lt, ?N.eqb_eq; lia. }
  destruct E as [E1 E2]. rewrite <- E1, <- E2. destruct (a <? n).
  - apply IH. split; cbn; auto. rewrite S3. auto.
  - destruct (a =? n); [|now apply IH]. unfold encode_vli. rewrite <- S2, <- S3, <- S4. eapply answer_bind; [now apply vli_out|]. intros o o' O. destruct (adapt _ _ _) as [bias| |]; cbn [bind]; [|constructor|constructor].
    apply IH. split; cbn; auto.
Qed.
Lemma loop_sim u v nb : same_points u v -> forall l n s s', Forall (fun c => 0x80 <= c) l -> st_rel s s' -> same_answer same_text (encode_loop l u n nb s) (encode_loop l v n nb s').
Proof.
  intros P. induction l as [|m l IH]; intros n s s' F S; cbn [encode_loop]; [constructor; apply S|]. destruct (m <? n); [constructor|]. pose proof S as (S1 & S2 & S3 & S4).
  eapply answer_bind; [apply (pass_sim m nb u v (Forall_inv F) P); split; cbn; [exact S1|rewrite S2, S3; auto]|]. intros x y (X1 & X2 & X3 & X4).
  apply IH; [exact (Forall_inv_tail F)|]. split; cbn; [exact X1|rewrite X3; auto].
Qed.
Lemma filter_basic u v : same_points u v -> same_text (map chr (filter is_basic_code_point u)) (map chr (filter is_basic_code_point v)).
Proof.
  induction 1 as [|a b u v H F IH]; [constructor|]. cbn [filter]. rewrite <- (basic_same a b H). destruct (is_basic_code_point a) eqn:E; [|exact IH]. cbn [map]. constructor; [|exact IH].
  pose proof (basic_same a b H) as E'. rewrite E in E'. unfold is_basic_code_point in E, E'. apply chr_point; [now apply N.ltb_lt|now apply N.ltb_lt|exact H].
Qed.
Lemma filter_rest u v : same_points u v -> filter (fun c => negb (is_basic_code_point c)) u = filter (fun c => negb (is_basic_code_point c)) v.
Proof.
  induction 1 as [|a b u v H F IH]; [reflexivity|]. cbn [filter]. rewrite <- (basic_same a b H), IH. destruct (is_basic_code_point a) eqn:E; cbn [negb]; [reflexivity|].
  f_equal. destruct (point_cases a b H) as [A|[A _]]; [exact A|]. unfold is_basic_code_point in E. apply N.ltb_ge in E. lia.
Qed.
Lemma insert_all (Q : N -> Prop) x l : Q x -> Forall Q l -> Forall Q (insert_sorted x l).
Proof. intros X. induction 1 as [|y l Y F IH]; cbn [insert_sorted]; [auto|]. destruct (x <=? y); auto. Qed.
Lemma sorted_all (Q : N -> Prop) l : Forall Q l -> Forall Q (sort_and_remove_duplicates l).
Proof.
  intros F. assert (S : Forall Q (sort l)) by (induction F; [constructor|now apply insert_all]). unfold sort_and_remove_duplicates. revert S. generalize (sort l). clear l F.
  intros l F. induction F as [|x l X F IH]; [constructor|]. cbn [unique]. destruct l as [|y l]; [auto|]. destruct (x =? y); auto.
Qed.
Lemma encode_sim u v plain : same_points u v -> same_answer (fun x y => same_text (fst x) (fst y) /\ snd x = snd y) (encode u plain) (encode v plain).
Proof.
  intros P. unfold encode. cbv zeta. pose proof (filter_basic u v P) as B. rewrite <- (filter_rest u v P).
  assert (L : length (filter is_basic_code_point u) = length (filter is_basic_code_point v)) by (rewrite <- (map_length chr (filter _ u)), <- (map_length chr (filter _ v)); now apply text_length).
  rewrite <- L. destruct (plain && _); [constructor; split; [exact B|reflexivity]|].
  eapply answer_bind.
  - apply (loop_sim u v _ P).
    + apply sorted_all. apply Forall_forall. intros c C. apply filter_In in C. destruct C as [_ C]. unfold is_basic_code_point in C. destruct (N.ltb_spec c 0x80); [discriminate|lia].
    + split; cbn [e_out e_i e_delta e_bias]; [|auto]. destruct (0 <? _); [|exact B]. apply text_app; [exact B|apply text_refl].
  - intros o o' O. constructor. split; [exact O|reflexivity].
Qed.
