(* The parser does not see the case of letters: proofs for C85. *)
From Verif Require Import Base ModelRule ModelUri ModelParse ParseWork Rfc3986 SpecPct SpecStore SpecCase CommuteFacts.
From Coq Require Import Lia.
Local Open Scope list_scope.

(* --- texts --- *)
Lemma letter_refl a : same_letter a a. Proof. reflexivity. Qed.
Lemma text_refl s : same_text s s. Proof. induction s; constructor; auto. reflexivity. Qed.
Lemma text_map s t : same_text s t <-> map lower s = map lower t.
Proof.
  split.
  - induction 1 as [|a b s t H F IH]; [reflexivity|]. cbn. unfold same_letter in H. congruence.
  - revert t. induction s as [|a s IH]; intros [|b t] E; try discriminate; [constructor|]. injection E as E1 E2. constructor; [exact E1|now apply IH].
Qed.
Lemma text_sym s t : same_text s t -> same_text t s. Proof. rewrite !text_map. congruence. Qed.
Lemma text_trans s t u : same_text s t -> same_text t u -> same_text s u. Proof. rewrite !text_map. congruence. Qed.
Lemma text_length s t : same_text s t -> length s = length t. Proof. apply f2_length. Qed.
Lemma text_app s t s' t' : same_text s s' -> same_text t t' -> same_text (s ++ t) (s' ++ t'). Proof. intros. now apply Forall2_app. Qed.
Lemma text_skipn n s t : same_text s t -> same_text (skipn n s) (skipn n t).
Proof. rewrite !text_map, <- !skipn_map. congruence. Qed.
Lemma text_firstn n s t : same_text s t -> same_text (firstn n s) (firstn n t).
Proof. rewrite !text_map, <- !firstn_map. congruence. Qed.

(* --- what the leaves of the grammar ask of a character --- *)
Ltac every c := destruct c as [[] [] [] [] [] [] [] []]; vm_compute; reflexivity.
Lemma tolower_lower sg c : c_tolower (as_int sg (lower c)) = c_tolower (as_int sg c). Proof. destruct sg; every c. Qed.
Lemma alpha_lower sg c : ctype c_isalpha (as_int sg (lower c)) = ctype c_isalpha (as_int sg c). Proof. destruct sg; every c. Qed.
Lemma digit_lower sg c : ctype c_isdigit (as_int sg (lower c)) = ctype c_isdigit (as_int sg c). Proof. destruct sg; every c. Qed.
Lemma xdigit_lower sg c : ctype c_isxdigit (as_int sg (lower c)) = ctype c_isxdigit (as_int sg c). Proof. destruct sg; every c. Qed.
Lemma alnum_lower sg c : ctype c_isalnum (as_int sg (lower c)) = ctype c_isalnum (as_int sg c). Proof. destruct sg; every c. Qed.
Lemma mark_lower c : existsb (fun n => (code (lower c) =? n)%N) [0x2D; 0x2E; 0x5F; 0x7E]%N = existsb (fun n => (code c =? n)%N) [0x2D; 0x2E; 0x5F; 0x7E]%N. Proof. every c. Qed.
Lemma sub_lower c : is_sub_delim (lower c) = is_sub_delim c. Proof. every c. Qed.
Lemma colon_lower c : Ascii.eqb (lower c) ":" = Ascii.eqb c ":". Proof. every c. Qed.

(* --- the rules --- *)
Section Sim.
Variables (sg : bool) (fuel : nat).
Local Notation rule := (rule action).
Local Notation matcher := (matcher action).
Definition same_accs (a b : acceptors action) : Prop := Forall2 (fun x y => fst x = fst y /\ same_text (snd x) (snd y)) a b.
Definition same_rule (r r' : rule) : Prop := opt_rel same_text (tail r) (tail r') /\ same_accs (accs r) (accs r').
Definition same_result (m m' : matched_result action) : Prop := opt_rel (fun x y => same_text (fst x) (fst y) /\ same_accs (snd x) (snd y)) m m'.
Definition sim (m m' : matcher) : Prop := forall r r', same_rule r r' -> same_answer same_result (m r) (m' r').
Definition tsim (g g' : rule -> outcome rule) : Prop := forall r r', same_rule r r' -> same_answer same_rule (g r) (g' r').

Lemma of_same t t' : same_text t t' -> same_rule (rule_of t) (rule_of t').
Proof. intros H. split; [now constructor|constructor]. Qed.
Lemma answer_bind {A B} (R : A -> A -> Prop) (Q : B -> B -> Prop) x x' g g' : same_answer R x x' -> (forall a b, R a b -> same_answer Q (g a) (g' b)) ->
  same_answer Q (bind x g) (bind x' g').
Proof. intros H K. destruct H; cbn [bind]; [now apply K|constructor|constructor]. Qed.
Lemma matched_sim i i' r r' : same_rule i i' -> same_rule r r' -> same_answer same_result (matched i r) (matched i' r').
Proof.
  intros [I _] [T A]. unfold matched. destruct T as [|t t' T]; [constructor; constructor|]. destruct I as [|i0 i1 I]; [constructor|].
  rewrite <- (text_length _ _ I), <- (text_length _ _ T). destruct (Nat.ltb _ _); constructor; constructor; cbn [fst snd]; split; auto. now apply text_firstn.
Qed.
Lemma join_m_sim r r' s s' a a' : same_rule r r' -> same_text s s' -> same_accs a a' -> same_answer same_rule (join_rule_m r (s, a)) (join_rule_m r' (s', a')).
Proof.
  intros [T A] S AA. unfold join_rule_m. destruct T as [|t t' T]; [constructor|]. cbn [fst snd]. unfold substr_from.
  rewrite <- (text_length _ _ T), <- (text_length _ _ S). destruct (Nat.ltb _ _); cbn [bind]; constructor. split; cbn [tail accs]; [constructor; now apply text_skipn|now apply Forall2_app].
Qed.
Lemma concat_sim m m' acc opt : sim m m' -> tsim (concat_impl m acc opt) (concat_impl m' acc opt).
Proof.
  intros M r r' RR. unfold concat_impl. pose proof RR as [T A]. destruct T as [|t t' T]; [now constructor|].
  eapply answer_bind; [apply M, of_same, T|]. intros x y H. destruct H as [|[s a] [s' a'] [S AA]].
  - destruct opt; constructor; [exact RR|]. split; constructor.
  - cbn [fst snd] in S, AA. destruct acc as [g|]; apply join_m_sim; auto. apply Forall2_app; [exact AA|]. constructor; [|constructor]. split; [reflexivity|exact S].
Qed.
Lemma optional_sim m m' acc : sim m m' -> tsim (optional_impl m acc) (optional_impl m' acc).
Proof.
  intros M r r' RR. unfold optional_impl. pose proof RR as [T A]. destruct T as [|t t' T]; [now constructor|].
  eapply answer_bind; [apply (concat_sim m m' acc true M), of_same, T|]. intros x y XY. pose proof XY as [TX AX]. destruct (tail x) as [u|] eqn:EX, (tail y) as [u'|] eqn:EY; try (exfalso; now inversion TX); constructor; [|exact RR].
  split; unfold join_rule_r; cbn [tail accs]; [exact (proj1 XY)|now apply Forall2_app].
Qed.
Lemma star_loop_sim m m' mx n : sim m m' -> forall s s' len acc acc' count, same_text s s' -> same_accs acc acc' ->
  same_answer (fun x y => fst (fst x) = fst (fst y) /\ same_accs (snd (fst x)) (snd (fst y)) /\ snd x = snd y) (star_loop n m mx s len acc count) (star_loop n m' mx s' len acc' count).
Proof.
  intros M. induction n as [|n IH]; intros s s' len acc acc' count S A; cbn [star_loop]; [constructor|].
  eapply answer_bind; [apply M, of_same, S|]. intros x y H. destruct H as [|[ms a] [ms' a'] [MS AA]].
  - constructor. cbn. auto.
  - cbn [fst snd] in MS, AA. cbv zeta. rewrite <- (text_length _ _ S), <- (text_length _ _ MS). destruct (mx <? uint_incr count)%N; [constructor; cbn; auto|].
    destruct (Nat.ltb _ _); [constructor|]. apply IH; [now apply text_skipn|now apply Forall2_app].
Qed.
Lemma star_sim m m' mn mx : sim m m' -> tsim (star fuel m mn mx) (star fuel m' mn mx).
Proof.
  intros M r r' RR. unfold star. pose proof RR as [T A]. destruct T as [|t t' T]; [now constructor|].
  eapply answer_bind; [apply (star_loop_sim m m' mx fuel M), A; exact T|]. intros [[len acc] count] [[len' acc'] count'] (E1 & AA & E2). cbn [fst snd] in *. subst len' count'.
  destruct (count <? mn)%N; [constructor; split; constructor|]. unfold substr_from. rewrite <- (text_length _ _ T). destruct (Nat.ltb _ _); cbn [bind]; constructor.
  split; cbn [tail accs]; [constructor; now apply text_skipn|exact AA].
Qed.
Lemma alternative_sim ms ms' : Forall2 sim ms ms' -> tsim (alternative ms) (alternative ms').
Proof.
  induction 1 as [|m m' ms ms' M _ IH]; intros r r' RR; cbn [alternative]; [constructor; split; constructor|].
  pose proof RR as [T A]. destruct T as [|t t' T]; [now constructor|]. eapply answer_bind; [apply M, of_same, T|]. intros x y H. destruct H as [|[s a] [s' a'] [S AA]]; [now apply IH|].
  now apply join_m_sim.
Qed.
Lemma char_sim p : (forall c, p (lower c) = p c) -> sim (single_char_p p) (single_char_p p).
Proof.
  intros P r r' [T A]. unfold single_char_p. destruct T as [|t t' T]; [constructor; constructor|]. destruct T as [|c d t t' C T]; [constructor; constructor|].
  rewrite <- (P c), <- (P d). unfold same_letter in C. rewrite <- C. destruct (p (lower c)) as [b| |]; cbn [bind]; [|constructor|constructor]. constructor. destruct b; constructor.
  split; cbn [fst snd]; [|constructor]. constructor; [exact C|constructor].
Qed.
Lemma single_sim x : sim (single_code_point sg x) (single_code_point sg x).
Proof.
  intros r r' H. unfold single_code_point, single_char. destruct (c_tolower (as_int sg (chr x))) as [y| |]; cbn [bind]; [|constructor|constructor].
  apply (char_sim (fun d => do d2 <- c_tolower (as_int sg d); Ok (y =? d2)%Z)); [|exact H]. intros c. now rewrite tolower_lower.
Qed.
Lemma range_sim x y : sim (code_point_range sg x y) (code_point_range sg x y).
Proof.
  intros r r' H. unfold code_point_range, char_range. destruct (c_tolower (as_int sg (chr x))) as [u| |]; cbn [bind]; [|constructor|constructor].
  destruct (c_tolower (as_int sg (chr y))) as [v| |]; cbn [bind]; [|constructor|constructor].
  apply (char_sim (fun c => do cl <- c_tolower (as_int sg c); Ok ((u <=? cl)%Z && (cl <=? v)%Z))); [|exact H]. intros c. now rewrite tolower_lower.
Qed.
Lemma run_sim : (forall g, sim (run sg fuel g) (run sg fuel g)) /\ (forall c, tsim (run_chain sg fuel c) (run_chain sg fuel c)) /\ (forall gs, Forall2 sim (run_all sg fuel gs) (run_all sg fuel gs)).
Proof.
  apply gram_mut; intros; cbn [run run_chain run_all].
  - apply single_sim.
  - apply range_sim.
  - apply char_sim. intros c. apply alpha_lower.
  - apply char_sim. intros c. apply digit_lower.
  - apply char_sim. intros c. apply xdigit_lower.
  - apply char_sim. intros c. now rewrite alnum_lower, mark_lower.
  - apply char_sim. intros c. now rewrite sub_lower.
  - intros r r' [T A]. unfold not_colon. destruct T as [|t t' T]; [constructor; constructor|]. destruct T as [|c d t t' C T]; [constructor; constructor; split; constructor|].
    rewrite <- (colon_lower c), <- (colon_lower d). unfold same_letter in C. rewrite <- C. destruct (Ascii.eqb (lower c) ":"); constructor; constructor. split; constructor.
  - intros r r' RR. eapply answer_bind; [now apply H|]. intros x y XY. now apply matched_sim.
  - intros r r' RR. now constructor.
  - intros r r' RR. eapply answer_bind; [now apply H|]. now apply concat_sim.
  - intros r r' RR. eapply answer_bind; [now apply H|]. now apply optional_sim.
  - intros r r' RR. eapply answer_bind; [now apply H|]. now apply star_sim.
  - intros r r' RR. eapply answer_bind; [now apply H|]. now apply alternative_sim.
  - constructor.
  - now constructor.
Qed.

(* --- the actions --- *)
Lemma segs_app l l' m m' : Forall2 same_text l l' -> Forall2 same_text m m' -> Forall2 same_text (l ++ m) (l' ++ m'). Proof. intros. now apply Forall2_app. Qed.
Lemma segs_removelast l l' : Forall2 same_text l l' -> Forall2 same_text (removelast l) (removelast l').
Proof. induction 1 as [|x y l l' H F IH]; [constructor|]. cbn [removelast]. destruct F; [constructor|]. constructor; auto. Qed.
Lemma action_sim a s s' p p' : same_text s s' -> same_parts p p' -> same_answer same_parts (run_action a s p) (run_action a s' p').
Proof.
  intros S P. pose proof P as (P1 & P2 & P3 & P4 & P5 & P6).
  assert (E : auth_rel (fun _ => same_text) (ensure_authority p) (ensure_authority p')).
  { unfold ensure_authority. destruct P2 as [|x y H]; [|exact H]. repeat split; constructor. }
  destruct E as (E1 & E2 & E3).
  assert (AU : forall x y, auth_rel (fun _ => same_text) x y -> same_parts (set_authority p x) (set_authority p' y)) by (intros x y H; repeat (split; [assumption || (constructor; assumption)|]); assumption).
  assert (PA : forall b l l', Forall2 same_text l l' -> same_parts (set_path p (mkpath b l)) (set_path p' (mkpath b l'))).
  { intros b l l' H. split; [exact P1|]. split; [exact P2|]. split; [reflexivity|]. split; [exact H|]. split; assumption. }
  destruct a; cbn [run_action].
  - constructor. split; [now constructor|]. repeat (split; [assumption|]); assumption.
  - constructor. apply AU. split; [now constructor|split; assumption].
  - constructor. apply AU. split; [assumption|split; assumption].
  - constructor. apply AU. split; [assumption|split; [assumption|now constructor]].
  - constructor. repeat (split; [assumption|]). split; [now constructor|assumption].
  - constructor. repeat (split; [assumption|]). now constructor.
  - constructor. rewrite <- P3. apply PA. apply segs_app; [exact P4|]. constructor; constructor.
  - unfold set_back. destruct P4 as [|x y l l' H F]; cbn [bind]; [constructor|]. constructor. rewrite <- P3. apply PA. apply segs_app; [|now constructor; [|constructor]].
    apply segs_removelast. now constructor.
  - constructor. rewrite <- P3. apply PA. apply segs_app; [exact P4|]. now constructor; [|constructor].
Qed.
Lemma run_accs_sim a a' : same_accs a a' -> forall p p', same_parts p p' -> same_answer same_parts (run_accs run_action a p) (run_accs run_action a' p').
Proof.
  induction 1 as [|[g s] [g' s'] a a' [G S] F IH]; intros p p' P; cbn [run_accs]; [now constructor|]. cbn [fst snd] in *. subst g'.
  eapply answer_bind; [now apply action_sim|]. exact IH.
Qed.
Lemma parts_refl0 p : same_parts p p.
Proof.
  assert (O : forall o : option str, opt_rel same_text o o) by (intros [x|]; constructor; apply text_refl).
  split; [apply O|]. split; [destruct (p_authority p); constructor; split; [apply O|split; [apply text_refl|apply O]]|]. split; [reflexivity|]. split; [|split; apply O].
  induction (segments (p_path p)); constructor; auto. apply text_refl.
Qed.
Lemma opt_sym o o' : opt_rel same_text o o' -> opt_rel same_text o' o. Proof. intros H. destruct H; constructor. now apply text_sym. Qed.
Lemma opt_trans o o' o'' : opt_rel same_text o o' -> opt_rel same_text o' o'' -> opt_rel same_text o o''.
Proof. intros H K. destruct H; inversion K; subst; constructor. eapply text_trans; eassumption. Qed.
Lemma parts_sym p q : same_parts p q -> same_parts q p.
Proof.
  intros (A1 & A2 & A3 & A4 & A5 & A6). split; [now apply opt_sym|]. split; [destruct A2 as [|a b (B1 & B2 & B3)]; constructor; split; [now apply opt_sym|]; split; [now apply text_sym|now apply opt_sym]|].
  split; [auto|]. split; [clear - A4; induction A4; constructor; auto; now apply text_sym|]. split; now apply opt_sym.
Qed.
Lemma parts_trans p q r : same_parts p q -> same_parts q r -> same_parts p r.
Proof.
  intros (A1 & A2 & A3 & A4 & A5 & A6) (B1 & B2 & B3 & B4 & B5 & B6). split; [eapply opt_trans; eassumption|]. split.
  - destruct A2 as [|a b (C1 & C2 & C3)]; inversion B2 as [|? c (D1 & D2 & D3)]; subst; constructor. split; [eapply opt_trans; eassumption|]. split; [eapply text_trans; eassumption|eapply opt_trans; eassumption].
  - split; [congruence|]. split; [|split; eapply opt_trans; eassumption]. clear - A4 B4. revert B4. generalize (segments (p_path r)). induction A4; intros m B; inversion B; subst; constructor; auto. eapply text_trans; eassumption.
Qed.
Lemma done_sim r r' p p' : same_rule r r' -> same_parts p p' -> same_answer (fun x y => fst x = fst y /\ same_parts (snd x) (snd y)) (done run_action r p) (done run_action r' p').
Proof.
  intros [T A] P. unfold done. destruct T as [|t t' T]; [now constructor|]. destruct T as [|c d t t' C T]; [|now constructor].
  eapply answer_bind; [now apply run_accs_sim|]. intros x y H. now constructor.
Qed.
Lemma parse_sim g s s' : same_text s s' -> same_answer (opt_rel same_parts) (parse_done (run sg fuel g) s) (parse_done (run sg fuel g) s').
Proof.
  intros S. unfold parse_done. eapply answer_bind; [apply (concat_sim _ _ None false (proj1 run_sim g)), of_same, S|]. intros r r' RR.
  eapply answer_bind; [apply done_sim; [exact RR|apply parts_refl0]|]. intros [b p] [b' p'] [E P]. cbn [fst snd] in *. subst b'. constructor. destruct b; constructor. exact P.
Qed.
Lemma matches_sim g s s' : same_text s s' -> matches (run sg fuel g) s = matches (run sg fuel g) s'.
Proof.
  intros S. assert (K : same_answer eq (matches (run sg fuel g) s) (matches (run sg fuel g) s')).
  { unfold matches. eapply answer_bind; [apply (concat_sim _ _ None false (proj1 run_sim g)), of_same, S|]. intros r r' RR.
    eapply answer_bind; [apply done_sim; [exact RR|apply parts_refl0]|]. intros [b p] [b' p'] [E P]. cbn [fst snd] in *. subst b'. now constructor. }
  destruct K; congruence.
Qed.
Lemma opt_matches_sim g s s' : opt_rel same_text s s' -> opt_matches (run sg fuel g) s = opt_matches (run sg fuel g) s'.
Proof. intros [|x y H]; [reflexivity|]. now apply matches_sim. Qed.
Lemma segs_valid_sim l l' : Forall2 same_text l l' -> segs_valid sg fuel l = segs_valid sg fuel l'.
Proof.
  induction 1 as [|x y l l' H F IH]; [reflexivity|]. cbn [segs_valid]. rewrite IH. now rewrite (matches_sim ModelParse.Segment x y H : matches (ModelUri.segment sg fuel) x = matches (ModelUri.segment sg fuel) y).
Qed.
End Sim.

Lemma split_sim sg fuel s t : same_text s t -> same_answer (opt_rel same_parts) (split sg fuel s) (split sg fuel t).
Proof. intros H. unfold split. rewrite uri_is. now apply parse_sim. Qed.
Lemma split_reference_sim sg fuel s t : same_text s t -> same_answer (opt_rel same_parts) (split_reference sg fuel s) (split_reference sg fuel t).
Proof. intros H. unfold split_reference. rewrite uri_reference_is. now apply parse_sim. Qed.
Lemma valid_sim sg fuel p q : same_parts p q -> parts_valid sg fuel p = parts_valid sg fuel q.
Proof.
  intros (P1 & P2 & P3 & P4 & P5 & P6). unfold parts_valid, path_valid. rewrite (segs_valid_sim sg fuel _ _ P4).
  rewrite (opt_matches_sim sg fuel ModelParse.Query _ _ P5 : opt_matches (ModelUri.query sg fuel) _ = opt_matches (ModelUri.query sg fuel) _).
  rewrite (opt_matches_sim sg fuel ModelParse.Query _ _ P6 : opt_matches (ModelUri.fragment sg fuel) _ = opt_matches (ModelUri.fragment sg fuel) _).
  f_equal. { destruct P1 as [|x y H]; [reflexivity|]. exact (matches_sim sg fuel ModelParse.Scheme x y H). }
  f_equal. destruct P2 as [|a b (A1 & A2 & A3)]; [reflexivity|]. unfold authority_valid.
  rewrite (opt_matches_sim sg fuel ModelParse.Userinfo _ _ A1 : opt_matches (userinfo_r sg fuel) _ = opt_matches (userinfo_r sg fuel) _).
  rewrite (opt_matches_sim sg fuel ModelParse.Port _ _ A3 : opt_matches (port_r sg fuel) _ = opt_matches (port_r sg fuel) _).
  now rewrite (matches_sim sg fuel ModelParse.Host _ _ A2 : matches (host_r sg fuel) _ = matches (host_r sg fuel) _).
Qed.
