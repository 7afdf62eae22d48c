(* C65, C66: results written over the text that is read. *)
From Verif Require Import Base ModelUri ModelIcu ModelHist ModelOut ModelInPlace SpecIcu SpecOut IcuUtf8 IcuEnc IcuView IcuProps SpecRoute RouteFacts OutFacts IcuRead8 PctFacts PathFacts ModelPct SpecPct SpecInPlace.
From Coq Require Import Lia.
Local Open Scope list_scope.

Lemma upd_split {A} (a : list A) x b c : upd (length a) c (a ++ x :: b) = a ++ c :: b.
Proof. induction a as [|y a IH]; cbn; [reflexivity|]. rewrite IH. reflexivity. Qed.
Lemma skipn_len {A} (a b : list A) n : n = length a -> skipn n (a ++ b) = b.
Proof. intros ->. rewrite skipn_app, skipn_all, Nat.sub_diag. reflexivity. Qed.
Lemma firstn_len {A} (a b : list A) n : n = length a -> firstn n (a ++ b) = a.
Proof. intros ->. rewrite firstn_app, firstn_all, Nat.sub_diag. cbn. apply app_nil_r. Qed.
Lemma escaped_len s b r : escaped_at s b r -> length s = 3 + length r /\ exists h l, s = "%"%char :: h :: l :: r.
Proof. intros (h & l & x & y & -> & _). split; [reflexivity|]. exists h, l. reflexivity. Qed.
Lemma plain_copy c s : (forall b r, ~ escaped_at (c :: s) b r) -> deref (c :: s) = Ok c /\ increment (c :: s) = Ok s.
Proof. intros H. apply step_copy. destruct (esc (c :: s)) eqn:E; [|reflexivity]. apply esc_iff in E. destruct E as (b & r & E). elim (H _ _ E). Qed.

(* done ++ gap ++ rem: what is written, what lies between writer and reader, and what is to be read *)
Lemma shift_gap (gap rem rest : str) x k : rem = k ++ rest -> k <> [] -> exists y gap', gap ++ rem = y :: gap' ++ rest /\ (gap = [] -> y :: gap' = k) /\ (gap <> [] -> gap' <> [])
  /\ forall done, upd (length done) x (done ++ gap ++ rem) = (done ++ [x]) ++ gap' ++ rest.
Proof.
  intros -> N. destruct gap as [|g gap].
  - destruct k as [|y k]; [congruence|]. exists y, k. split; [reflexivity|]. split; [reflexivity|]. split; [congruence|]. intros done. cbn [app]. rewrite upd_split, <- app_assoc. reflexivity.
  - exists g, (gap ++ k). rewrite <- app_assoc. split; [reflexivity|]. split; [discriminate|]. split; [intros _ E; apply app_eq_nil in E; destruct E; congruence|].
    intros done. cbn [app]. rewrite upd_split, <- app_assoc. reflexivity.
Qed.
Lemma at_pos (done gap rem : str) : skipn (length done + length gap) (done ++ gap ++ rem) = rem.
Proof. rewrite app_assoc. apply skipn_len. rewrite app_length. reflexivity. Qed.
Lemma not_end (done gap : str) c rem : Nat.eqb (length done + length gap) (length (done ++ gap ++ c :: rem)) = false.
Proof. apply Nat.eqb_neq. rewrite !app_length. cbn [length]. lia. Qed.
Lemma moved_to (done gap rem : str) : moved (done ++ gap ++ rem) rem = length done + length gap.
Proof. unfold moved. rewrite !app_length. lia. Qed.
Lemma moved_in (done gap rem mem : str) : length mem = length (done ++ gap ++ rem) -> moved mem rem = length done + length gap.
Proof. unfold moved. intros ->. rewrite !app_length. lia. Qed.
Lemma out_in (done gap : str) c rem : Nat.ltb (length done) (length (done ++ gap ++ c :: rem)) = true.
Proof. apply Nat.ltb_lt. rewrite !app_length. cbn [length]. lia. Qed.
Lemma snoc_len (done : str) x : S (length done) = length (done ++ [x]).
Proof. rewrite app_length. cbn. lia. Qed.
Lemma finish (done : str) b t y tl : (done ++ [b]) ++ t ++ skipn (length t) tl = done ++ (b :: t) ++ skipn (length (b :: t)) (y :: tl).
Proof. rewrite <- app_assoc. reflexivity. Qed.
Lemma step_run rem t : decodes rem t -> forall fuel done gap, length rem <= fuel ->
  step_in_place fuel (done ++ gap ++ rem) (length done + length gap) (length done) = Ok (done ++ t ++ skipn (length t) (gap ++ rem), length done + length t).
Proof.
  induction 1 as [|s b rest t E D IH|c s t N D IH]; intros fuel done gap F.
  - rewrite app_nil_r. assert (X : forall f, step_in_place f (done ++ gap) (length done + length gap) (length done) = Ok (done ++ gap, length done)).
    { intros [|f]; cbn [step_in_place]; rewrite <- app_length, Nat.eqb_refl; reflexivity. }
    rewrite X. cbn [app length skipn]. rewrite ?app_nil_r, Nat.add_0_r. reflexivity.
  - destruct (escaped_len _ _ _ E) as [Ln (h & l & Es)]. destruct fuel as [|fuel]; [rewrite Es in F; cbn in F; lia|]. cbn [step_in_place].
    rewrite at_pos. rewrite Es at 1. rewrite not_end. destruct (step_escape _ _ _ E) as [-> ->]. cbn [bind]. rewrite Es at 1. rewrite out_in.
    destruct (shift_gap gap s rest b ["%"%char; h; l] Es) as (y & gap' & G1 & _ & _ & G2); [discriminate|]. rewrite G2.
    rewrite (moved_in (done ++ [b]) gap' rest) by (rewrite G1, <- app_assoc, !app_length; cbn [length app]; rewrite !app_length; lia).
    rewrite snoc_len with (x := b). rewrite IH by lia. rewrite finish with (y := y), <- G1. f_equal. f_equal. rewrite app_length. cbn. lia.
  - destruct fuel as [|fuel]; [cbn in F; lia|]. cbn [step_in_place]. rewrite at_pos, not_end. destruct (plain_copy _ _ N) as [-> ->]. cbn [bind]. rewrite out_in.
    destruct (shift_gap gap (c :: s) s c [c] eq_refl) as (y & gap' & G1 & _ & _ & G2); [discriminate|]. rewrite G2.
    rewrite (moved_in (done ++ [c]) gap' s) by (rewrite G1, <- app_assoc, !app_length; cbn [length app]; rewrite !app_length; lia).
    rewrite snoc_len with (x := c). rewrite IH by (cbn in F; lia). rewrite finish with (y := y), <- G1. f_equal. f_equal. rewrite app_length. cbn. lia.
Qed.
(* std::copy, when the writer lags behind *)
Lemma copy_lag rem t : decodes rem t -> forall fuel done gap, gap <> [] -> length rem <= fuel ->
  copy_in_place fuel (done ++ gap ++ rem) (length done + length gap) (length done) = Ok (done ++ t ++ skipn (length t) (gap ++ rem), length done + length t).
Proof.
  induction 1 as [|s b rest t E D IH|c s t N D IH]; intros fuel done gap NG F.
  - rewrite app_nil_r. assert (X : forall f, copy_in_place f (done ++ gap) (length done + length gap) (length done) = Ok (done ++ gap, length done)).
    { intros [|f]; cbn [copy_in_place]; rewrite <- app_length, Nat.eqb_refl; reflexivity. }
    rewrite X. cbn [app length skipn]. rewrite ?app_nil_r, Nat.add_0_r. reflexivity.
  - destruct (escaped_len _ _ _ E) as [Ln (h & l & Es)]. destruct fuel as [|fuel]; [rewrite Es in F; cbn in F; lia|]. cbn [copy_in_place].
    rewrite at_pos. rewrite Es at 1. rewrite not_end. destruct (step_escape _ _ _ E) as [-> Ei]. cbn [bind]. rewrite Es at 1. rewrite out_in.
    destruct gap as [|g gap]; [congruence|]. cbn [app]. rewrite upd_split. change (done ++ b :: gap ++ s) with (done ++ (b :: gap) ++ s).
    change (length (g :: gap)) with (length (b :: gap)). rewrite at_pos, Ei. cbn [bind].
    destruct (shift_gap (g :: gap) s rest b ["%"%char; h; l] Es) as (y & gap' & G1 & _ & NG' & G2); [discriminate|]. specialize (G2 done). cbn [app] in G2. rewrite upd_split in G2.
    change (done ++ (b :: gap) ++ s) with (done ++ b :: gap ++ s). rewrite G2.
    rewrite (moved_in (done ++ [b]) gap' rest) by reflexivity.
    rewrite snoc_len with (x := b). rewrite IH by (try lia; apply NG'; discriminate). rewrite finish with (y := y), <- G1. f_equal. f_equal. rewrite app_length. cbn. lia.
  - destruct fuel as [|fuel]; [cbn in F; lia|]. cbn [copy_in_place]. rewrite at_pos, not_end. destruct (plain_copy _ _ N) as [-> Ei]. cbn [bind]. rewrite out_in.
    destruct gap as [|g gap]; [congruence|]. cbn [app]. rewrite upd_split. change (done ++ c :: gap ++ c :: s) with (done ++ (c :: gap) ++ c :: s).
    change (length (g :: gap)) with (length (c :: gap)). rewrite at_pos, Ei. cbn [bind].
    destruct (shift_gap (g :: gap) (c :: s) s c [c] eq_refl) as (y & gap' & G1 & _ & NG' & G2); [discriminate|]. specialize (G2 done). cbn [app] in G2. rewrite upd_split in G2.
    change (done ++ (c :: gap) ++ c :: s) with (done ++ c :: gap ++ c :: s). rewrite G2.
    rewrite (moved_in (done ++ [c]) gap' s) by reflexivity.
    rewrite snoc_len with (x := c). rewrite IH by (first [apply NG'; discriminate|cbn in F; lia]). rewrite finish with (y := y), <- G1. f_equal. f_equal. rewrite app_length. cbn. lia.
Qed.
Lemma hex_plain h : hexval h <> None -> h <> "%"%char.
Proof. intros H ->. apply H. reflexivity. Qed.
Lemma no_escape c s : c <> "%"%char -> forall b r, ~ escaped_at (c :: s) b r.
Proof. intros N b r (h & l & x & y & E & _). injection E as -> _. congruence. Qed.
Lemma plain_step fuel done c s : (forall b r, ~ escaped_at (c :: s) b r) ->
  copy_in_place (S fuel) (done ++ c :: s) (length done) (length done) = copy_in_place fuel ((done ++ [c]) ++ s) (length (done ++ [c])) (length (done ++ [c])).
Proof.
  intros N. cbn [copy_in_place]. pose proof (at_pos done [] (c :: s)) as A. cbn [app length] in A. rewrite Nat.add_0_r in A. rewrite A.
  pose proof (not_end done [] c s) as B. cbn [app length] in B. rewrite Nat.add_0_r in B. rewrite B. destruct (plain_copy _ _ N) as [-> Ei]. cbn [bind].
  pose proof (out_in done [] c s) as O. cbn [app] in O. rewrite O, upd_split, A, Ei. cbn [bind].
  rewrite (moved_in (done ++ [c]) [] s) by (rewrite <- app_assoc; reflexivity). rewrite snoc_len with (x := c). cbn [length]. rewrite Nat.add_0_r, <- app_assoc. reflexivity.
Qed.
Lemma copy_run rem g : garbled rem g -> forall fuel done, length rem <= fuel ->
  copy_in_place fuel (done ++ rem) (length done) (length done) = Ok (done ++ g ++ skipn (length g) rem, length done + length g).
Proof.
  induction 1 as [|c s g N _ IH|h l b r g E Nb _ IH|s r t E D]; intros fuel done F.
  - rewrite app_nil_r. assert (X : forall f, copy_in_place f done (length done) (length done) = Ok (done, length done)).
    { intros [|f]; cbn [copy_in_place]; rewrite Nat.eqb_refl; reflexivity. }
    rewrite X. cbn [app length skipn]. rewrite ?app_nil_r, Nat.add_0_r. reflexivity.
  - destruct fuel as [|fuel]; [cbn in F; lia|]. rewrite plain_step by exact N. rewrite IH by (cbn in F; lia). rewrite finish with (y := c). f_equal. f_equal. rewrite app_length. cbn. lia.
  - destruct fuel as [|fuel]; [cbn in F; lia|]. cbn [copy_in_place]. pose proof (at_pos done [] ("%"%char :: h :: l :: r)) as A. cbn [app length] in A. rewrite Nat.add_0_r in A. rewrite A.
    pose proof (not_end done [] "%" (h :: l :: r)) as B. cbn [app length] in B. rewrite Nat.add_0_r in B. rewrite B. destruct (step_escape _ _ _ E) as [-> _]. cbn [bind].
    pose proof (out_in done [] "%" (h :: l :: r)) as O. cbn [app] in O. rewrite O, upd_split.
    pose proof (at_pos done [] (b :: h :: l :: r)) as A2. cbn [app length] in A2. rewrite Nat.add_0_r in A2. rewrite A2.
    destruct (plain_copy b (h :: l :: r) (no_escape _ _ Nb)) as [_ ->]. cbn [bind].
    rewrite (moved_in (done ++ [b]) [] (h :: l :: r)) by (rewrite <- app_assoc; reflexivity). rewrite snoc_len with (x := b). cbn [length]. rewrite Nat.add_0_r.
    replace (done ++ b :: h :: l :: r) with ((done ++ [b]) ++ h :: l :: r) by (rewrite <- app_assoc; reflexivity).
    assert (HX : hexval h <> None /\ hexval l <> None). { destruct E as (h' & l' & x & y & E0 & E1 & E2 & _). injection E0 as -> ->. split; congruence. }
    destruct fuel as [|fuel]; [cbn in F; lia|]. rewrite plain_step by (apply no_escape, hex_plain, HX).
    destruct fuel as [|fuel]; [cbn in F; lia|]. rewrite plain_step by (apply no_escape, hex_plain, HX).
    rewrite IH by (cbn in F; lia). rewrite finish with (y := l), finish with (y := h), finish with (y := "%"%char). f_equal. f_equal. rewrite !app_length. cbn. lia.
  - destruct (escaped_len _ _ _ E) as [Ln (h & l & ->)]. destruct fuel as [|fuel]; [cbn in F; lia|]. cbn [copy_in_place].
    pose proof (at_pos done [] ("%"%char :: h :: l :: r)) as A. cbn [app length] in A. rewrite Nat.add_0_r in A. rewrite A.
    pose proof (not_end done [] "%" (h :: l :: r)) as B. cbn [app length] in B. rewrite Nat.add_0_r in B. rewrite B. destruct (step_escape _ _ _ E) as [-> Ei]. cbn [bind].
    pose proof (out_in done [] "%" (h :: l :: r)) as O. cbn [app] in O. rewrite O, upd_split, A, Ei. cbn [bind].
    rewrite (moved_in (done ++ ["%"%char]) [h; l] r) by (rewrite <- app_assoc; reflexivity). rewrite snoc_len with (x := "%"%char).
    replace (done ++ "%"%char :: h :: l :: r) with ((done ++ ["%"%char]) ++ [h; l] ++ r) by (rewrite <- app_assoc; reflexivity).
    rewrite (copy_lag r t D) by (first [discriminate|cbn in F; lia]). rewrite finish with (y := "%"%char). f_equal. f_equal. rewrite app_length. cbn. lia.
Qed.

Lemma first_esc_fun s b : first_escape s b -> forall b', first_escape s b' -> b = b'.
Proof.
  induction 1 as [s b r E|c s b N F IH]; intros b' F'.
  - inversion F' as [? ? r' E'|? ? ? N' ? E']; subst; [exact (proj1 (escaped_at_fun _ _ _ _ _ E E'))|elim (N' _ _ E)].
  - inversion F' as [? ? r' E'|? ? ? N' ? E']; subst; [elim (N _ _ E')|apply IH; assumption].
Qed.
Lemma garbled_total s : exists g, garbled s g.
Proof.
  remember (length s) as n eqn:L. revert s L. induction n as [n IH] using lt_wf_ind. intros s ->. destruct s as [|c s]; [eexists; constructor|].
  destruct (esc (c :: s)) eqn:E.
  - apply esc_iff in E. destruct E as (b & r & E). destruct (escaped_len _ _ _ E) as [Ln (h & l & Es)]. destruct (Ascii.eqb_spec b "%"%char) as [->|Nb].
    + destruct (pctdecode_ok r) as (t & _ & D). eexists. eapply gb_percent; eassumption.
    + destruct (IH (length r) ltac:(lia) r eq_refl) as (g & G). rewrite Es in E |- *. eexists. apply gb_escape; eassumption.
  - destruct (IH (length s) ltac:(cbn; lia) s eq_refl) as (g & G). eexists. apply gb_copy; [|exact G]. intros x r X. assert (esc (c :: s) = true) by (apply esc_iff; eauto). congruence.
Qed.
Lemma garbled_len s g : garbled s g -> forall t, decodes s t -> length t <= length g <= length s /\ (forall b, first_escape s b -> b <> "%"%char -> length t < length g).
Proof.
  induction 1 as [|c s g N _ IH|h l b r g E Nb _ IH|s r t E D]; intros t' D'.
  - inversion D' as [|? b r t0 E0|]; subst; [|destruct E0 as (h & l & x & y & E0 & _); discriminate]. split; [cbn; lia|]. intros b F. inversion F as [? ? r E|]; subst. destruct E as (h & l & x & y & E & _). discriminate.
  - inversion D' as [|? b r t0 E0|? ? t0 N0 Dz]; subst; [elim (N _ _ E0)|]. destruct (IH _ Dz) as [L1 L2]. split; [cbn; lia|]. intros b F Nb. inversion F as [? ? r E|? ? ? ? F']; subst; [elim (N _ _ E)|]. specialize (L2 _ F' Nb). cbn. lia.
  - inversion D' as [|? b0 r0 t0 E0 Dz|? ? t0 N0 Dz]; subst; [|elim (N0 _ _ E)]. destruct (escaped_at_fun _ _ _ _ _ E E0) as [_ <-]. destruct (IH _ Dz) as [L1 _]. split; [cbn; lia|]. intros. cbn. lia.
  - destruct (escaped_len _ _ _ E) as [Ln _]. inversion D' as [|? b0 r0 t0 E0 Dz|? ? t0 N0 Dz]; subst; [cbn in Ln; lia| |elim (N0 _ _ E)]. destruct (escaped_at_fun _ _ _ _ _ E E0) as [<- <-]. rewrite (decodes_fun _ _ Dz _ D).
    pose proof (decodes_length _ _ D). split; [cbn; lia|]. intros b F Nb. elim Nb. symmetry. eapply first_esc_fun; [eapply fe_here; exact E|exact F].
Qed.
Lemma decoded_garbled s t : decodes s t -> (forall b, first_escape s b -> b = "%"%char) -> garbled s t.
Proof.
  induction 1 as [|s b rest t E D IH|c s t N D IH]; intros F; [constructor| |].
  - pose proof (F b (fe_here _ _ _ E)) as Eb. subst b. eapply gb_percent; eassumption.
  - apply gb_copy; [exact N|]. apply IH. intros b B. apply F. apply fe_later; assumption.
Qed.
Lemma copy_what s : exists g, garbled s g /\ copy_in_place (length s) s 0 0 = Ok (g ++ skipn (length g) s, length g).
Proof. destruct (garbled_total s) as (g & G). exists g. split; [exact G|]. exact (copy_run s g G (length s) [] (le_n _)). Qed.
Lemma step_what s t : decodes s t -> step_in_place (length s) s 0 0 = Ok (t ++ skipn (length t) s, length t).
Proof. intros D. exact (step_run s t D (length s) [] [] (le_n _)). Qed.
Lemma copy_exact s t mem n : decodes s t -> copy_in_place (length s) s 0 0 = Ok (mem, n) -> (firstn n mem = t <-> forall b, first_escape s b -> b = "%"%char).
Proof.
  intros D E. destruct (copy_what s) as (g & G & X). rewrite X in E. injection E as <- <-. rewrite firstn_len by reflexivity. split.
  - intros -> b F. destruct (Ascii.eqb_spec b "%"%char) as [|Nb]; [assumption|]. destruct (garbled_len _ _ G _ D) as [_ L]. specialize (L _ F Nb). lia.
  - intros F. destruct (garbled_total s) as (g' & G'). pose proof (decoded_garbled _ _ D F) as Gt.
    pose proof (copy_run s g G (length s) [] (le_n _)) as X1. pose proof (copy_run s t Gt (length s) [] (le_n _)) as X2. rewrite X1 in X2. injection X2 as X2 X3.
    apply (f_equal (firstn (length g))) in X2. rewrite firstn_len in X2 by reflexivity. rewrite firstn_len in X2 by assumption. exact X2.
Qed.

(* --- transcoding --- *)
Local Open Scope nat_scope.
Lemma nth_behind (w l p s : list N) u : l = p ++ u :: s -> length w <= length p -> nth_error (w ++ skipn (length w) l) (length p) = Some u.
Proof.
  intros -> L. rewrite nth_error_app2 by exact L. revert p L. induction w as [|x w IH]; intros p L.
  - cbn [length skipn]. rewrite Nat.sub_0_r, nth_error_app2, Nat.sub_diag by lia. reflexivity.
  - destruct p as [|y p]; cbn [length] in *; [lia|]. cbn [app skipn]. apply IH. lia.
Qed.
Lemma skipn_more {A} (l : list A) a b : skipn a (skipn b l) = skipn (b + a) l.
Proof. revert l. induction b as [|b IH]; intros l; [reflexivity|]. destruct l; cbn [skipn Nat.add]; [apply skipn_nil|apply IH]. Qed.
Lemma write_more (w w' l : list N) : length (w ++ w') <= length l -> put_units (Points (length w)) (w ++ skipn (length w) l) w' = Ok (Points (length (w ++ w')), (w ++ w') ++ skipn (length (w ++ w')) l).
Proof.
  intros L. rewrite app_length in *. rewrite put_units_at, app_length, skipn_length.
  replace (length w + length w' <=? length w + (length l - length w)) with true by (symmetry; apply Nat.leb_le; lia). cbn [orb]. f_equal. f_equal.
  unfold overwritten. rewrite firstn_len by reflexivity. rewrite <- app_assoc. f_equal. f_equal.
  rewrite skipn_app. rewrite skipn_all2 by lia. cbn [app]. rewrite skipn_more. f_equal. lia.
Qed.
Section Tc.
Variable T : tcdr.
Lemma units_run l : (forall p s t w, l = p ++ s -> feed T (tc_init T) p = Ok (t, w) -> length w <= length p) ->
  forall s p t w t' w', l = p ++ s -> feed T (tc_init T) p = Ok (t, w) -> feed T t s = Ok (t', w') ->
  units_in_place T (length s) t (w ++ skipn (length w) l) (length p) (Points (length w)) = Ok (t', (w ++ w') ++ skipn (length (w ++ w')) l, Points (length (w ++ w'))).
Proof.
  intros K. induction s as [|u s IH]; intros p t w t' w' El Ep Es.
  - cbn in Es. injection Es as <- <-. rewrite app_nil_r. reflexivity.
  - cbn [length units_in_place]. rewrite (nth_behind w l p s u El (K p (u :: s) t w El Ep)). cbn [feed] in Es.
    destruct (tc_op T t u) as [[t1 w1]| |] eqn:Eo; cbn [bind] in *; try discriminate. destruct (feed T t1 s) as [[t2 w2]| |] eqn:Ef; cbn [bind] in *; try discriminate. injection Es as <- <-.
    assert (Ep' : feed T (tc_init T) (p ++ [u]) = Ok (t1, w ++ w1)). { rewrite feed_app, Ep. cbn [bind feed]. rewrite Eo. cbn [bind feed]. rewrite app_nil_r. reflexivity. }
    assert (El' : l = (p ++ [u]) ++ s) by (rewrite <- app_assoc; exact El).
    pose proof (K (p ++ [u]) s t1 (w ++ w1) El' Ep') as Kw.
    rewrite write_more by (rewrite El', (app_length (p ++ [u]) s); lia). cbn [bind].
    replace (S (length p)) with (length (p ++ [u])) by (rewrite app_length; cbn; lia).
    rewrite (IH (p ++ [u]) t1 (w ++ w1) t2 w2 El' Ep' Ef). rewrite (app_assoc w w1 w2). reflexivity.
Qed.
Lemma in_place_behind l out ok : (forall p s t w, l = p ++ s -> feed T (tc_init T) p = Ok (t, w) -> length w <= length p) -> length out <= length l ->
  transcode T l = Ok (out, ok) -> transcode_in_place T l = Ok (out ++ skipn (length out) l, length out, ok).
Proof.
  intros K L E. unfold transcode in E. destruct (feed T (tc_init T) l) as [[t w]| |] eqn:Ef; cbn [bind] in E; try discriminate.
  destruct (tc_end T t) as [[t' w']| |] eqn:Ee; cbn [bind] in E; try discriminate. injection E as <- <-.
  unfold transcode_in_place. pose proof (units_run l K l [] (tc_init T) [] t w eq_refl eq_refl Ef) as R. cbn [app length skipn] in R. rewrite R. cbn [bind]. rewrite Ee. cbn [bind].
  rewrite write_more by exact L. reflexivity.
Qed.
End Tc.
Local Open Scope N_scope.
Lemma behind_most a : most a a = 1%nat -> forall l, units a l -> forall p s t w, l = p ++ s -> feed (tc a a) (tc_init (tc a a)) p = Ok (t, w) -> (length w <= length p)%nat.
Proof.
  intros M l U p s t w -> E. assert (Up : units a p) by (apply Forall_app in U; apply U). destruct (proj1 (conv a a p Up)) as (out & ok & X).
  pose proof (sizes a a p out ok Up X) as [L _]. rewrite M in L. unfold transcode in X. rewrite E in X. cbn [bind] in X.
  destruct (tc_end (tc a a) t) as [[t' w']| |]; cbn [bind] in X; try discriminate. injection X as <- _. rewrite app_length in L. lia.
Qed.
Lemma feed8 l : Forall (fun u => u < 256) l -> forall p s, inv8 p s -> exists s' w p', feed t8_32 s l = Ok (s', w) /\ inv8 p' s' /\
  (s8_wf s' = true -> s8_wf s = true /\ exists x, text utf8_of w x /\ x ++ p' = p ++ l).
Proof.
  induction 1 as [|u l Hu Hl IH]; intros p s I.
  - exists s, [], p. split; [reflexivity|]. split; [exact I|]. intros W. split; [exact W|]. exists []. split; [constructor|]. rewrite app_nil_r. reflexivity.
  - assert (X : (exists c s1, utf8_of c (p ++ [u]) /\ t8_32_call s u = Ok (s1, [c]) /\ inv8 [] s1 /\ s8_wf s1 = s8_wf s)
      \/ (exists s1, inv8 (p ++ [u]) s1 /\ t8_32_call s u = Ok (s1, []) /\ s8_wf s1 = s8_wf s)
      \/ (exists s1, t8_32_call s u = Ok (s1, [fffd]) /\ inv8 [] s1 /\ s8_wf s1 = false)).
    { destruct I as [cp wf|p st cp wf P].
      - destruct (step8_accept cp wf u Hu) as [(c & U & E)|[(st & cp' & P & E)|(_ & cp' & E)]].
        + left. do 2 eexists. split; [exact U|]. split; [exact E|]. split; [constructor|reflexivity].
        + right; left. eexists. split; [apply i8_pending; exact P|]. split; [exact E|reflexivity].
        + right; right. eexists. split; [exact E|]. split; [constructor|reflexivity].
      - destruct (step8_pending p st cp wf u P Hu) as [(c & U & E)|[(st' & cp' & P' & E)|(_ & cp' & E)]].
        + left. do 2 eexists. split; [exact U|]. split; [exact E|]. split; [constructor|reflexivity].
        + right; left. eexists. split; [apply i8_pending; exact P'|]. split; [exact E|reflexivity].
        + right; right. eexists. split; [exact E|]. split; [constructor|reflexivity]. }
    cbn [feed]. cbn [tc_op t8_32] in *. destruct X as [(c & s1 & U & E & I1 & W1)|[(s1 & I1 & E & W1)|(s1 & E & I1 & W1)]]; destruct (IH _ _ I1) as (s' & w & p' & Ef & I' & F).
    + exists s', ([c] ++ w), p'. rewrite E. cbn [bind]. change (feed t8_32 s1 l) with (feed t8_32 s1 l) in *. rewrite Ef. cbn [bind]. split; [reflexivity|]. split; [exact I'|]. intros W. destruct (F W) as (Wx & x & Tx & Ex).
      split; [congruence|]. exists ((p ++ [u]) ++ x). split; [cbn [app]; constructor; assumption|]. rewrite <- app_assoc, Ex, <- app_assoc. reflexivity.
    + exists s', w, p'. rewrite E. cbn [bind]. rewrite Ef. cbn [bind app]. split; [reflexivity|]. split; [exact I'|]. intros W. destruct (F W) as (Wx & x & Tx & Ex).
      split; [congruence|]. exists x. split; [exact Tx|]. rewrite Ex, <- app_assoc. reflexivity.
    + exists s', ([fffd] ++ w), p'. rewrite E. cbn [bind]. rewrite Ef. cbn [bind]. split; [reflexivity|]. split; [exact I'|]. intros W. destruct (F W) as (Wx & _). congruence.
Qed.
Lemma behind8 l cs : text utf8_of cs l -> forall p s t w, l = p ++ s -> feed t8_8 (tc_init t8_8) p = Ok (t, w) -> (length w <= length p)%nat.
Proof.
  intros X p s t w -> E. assert (U : Forall (fun u => u < 256) (p ++ s)) by (exact (text_units8 _ _ X)).
  assert (Up := U). apply Forall_app in Up. destruct Up as [Up Us].
  destruct (tri_feed t8_32 t32_8 1 _ okstate8 utf8_of decoder_8 encoder_8 p Up (tc_init t8_32) (tc_init t32_8) (dec_init _ _ _ _ decoder_8)) as (i & o & v & v' & E1 & _ & E2 & Tv & _).
  change (feed t8_8 (tc_init t8_8) p) with (feed (triangulator 1 t8_32 t32_8) (tc_init t8_32, tc_init t32_8) p) in E. rewrite E2 in E. injection E as _ <-.
  destruct (feed8 p Up [] (tc_init t8_32) (i8_accept _ _)) as (s1 & w1 & p1 & F1 & I1 & H1). rewrite F1 in E1. injection E1 as <- <-.
  destruct (feed8 s Us p1 s1 I1) as (s2 & w2 & p2 & F2 & I2 & H2).
  assert (W : transcode t8_32 (p ++ s) = Ok (cs, true)). { apply transcode_8_32; [exact U|]. apply text8. exact X. }
  unfold transcode in W. rewrite feed_app, F1 in W. cbn [bind] in W. rewrite F2 in W. cbn [bind] in W. cbn [tc_end t8_32] in W. unfold t8_32_end in W.
  assert (W2 : s8_wf s2 = true). { destruct (negb _); cbn [bind tc_wf t8_32 s8_wf] in W; [discriminate|]. injection W as _ W. exact W. }
  destruct (H1 (proj1 (H2 W2))) as (_ & x & Tx & Ex). rewrite (text_fun _ utf8_fun _ _ _ Tv Tx). cbn [app] in Ex. rewrite <- Ex, app_length. lia.
Qed.

(* --- UTF-8 in place: once the writer is ahead of the reader it stays ahead, to the end of the array --- *)
Local Open Scope list_scope.
Definition fb : list N := [0xEF; 0xBF; 0xBD].
Fixpoint fbs (k : nat) : list N := match k with O => [] | S k => fb ++ fbs k end.
Lemma fbs_more k : fbs k ++ fb = fbs (S k).
Proof. induction k as [|k IH]; [reflexivity|]. cbn [fbs] in *. rewrite <- app_assoc, IH. reflexivity. Qed.
Lemma put_fb (a x y : list N) k : k = length (a ++ x) -> put_units (Points k) (a ++ x ++ y) fb =
  if (3 <=? length y)%nat then Ok (Points (k + 3), a ++ (x ++ fb) ++ skipn 3 y) else Fault buffer_overflow.
Proof.
  intros ->. rewrite put_units_at. change (length fb) with 3%nat. unfold overwritten. rewrite (app_assoc a x y). rewrite (app_length (a ++ x) y).
  destruct (Nat.leb_spec 3 (length y)) as [L|L].
  - replace (length (a ++ x) + 3 <=? length (a ++ x) + length y)%nat with true by (symmetry; apply Nat.leb_le; lia). cbn [orb]. f_equal. f_equal.
    rewrite firstn_len by reflexivity. rewrite skipn_app, skipn_all2 by lia. replace (length (a ++ x) + length fb - length (a ++ x))%nat with 3%nat by (change (length fb) with 3%nat; lia). cbn [app]. rewrite <- !app_assoc. reflexivity.
  - replace (length (a ++ x) + 3 <=? length (a ++ x) + length y)%nat with false by (symmetry; apply Nat.leb_gt; lia). reflexivity.
Qed.
Lemma nth_mid (a b : list N) u k : k = length a -> nth_error (a ++ u :: b) k = Some u.
Proof. intros ->. rewrite nth_error_app2, Nat.sub_diag by lia. reflexivity. Qed.
Lemma cont_reject cp wf o u : u = 0xBF \/ u = 0xBD -> exists s, tc_op t8_8 (S8 cp wf 0, o) u = Ok (s, fb) /\ exists cp' wf' o', s = (S8 cp' wf' 0, o').
Proof. intros [-> | ->]; eexists; (split; [reflexivity|]); do 3 eexists; reflexivity. Qed.
Lemma fb_accept cp wf o : exists s1 s2 s3, tc_op t8_8 (S8 cp wf 0, o) 0xEF = Ok (s1, []) /\ tc_op t8_8 s1 0xBF = Ok (s2, []) /\ tc_op t8_8 s2 0xBD = Ok (s3, fb) /\ exists cp' wf' o', s3 = (S8 cp' wf' 0, o').
Proof. do 3 eexists. split; [reflexivity|]. split; [reflexivity|]. split; [reflexivity|]. do 3 eexists. reflexivity. Qed.
Lemma doomed n : forall a sfx k y cp wf o, (length sfx + length (fbs k) + length y = n)%nat -> (sfx = [0xBF; 0xBD] \/ sfx = [0xBD] \/ (sfx = [] /\ k <> 0%nat)) ->
  units_in_place t8_8 n (S8 cp wf 0, o) (a ++ (sfx ++ fbs k) ++ y) (length a) (Points (length (a ++ sfx ++ fbs k))) = Fault buffer_overflow.
Proof.
  induction n as [n IH] using lt_wf_ind. intros a sfx k y cp wf o Ln [-> |[-> |[-> K]]].
  - destruct n as [|n]; [cbn in Ln; lia|]. cbn [units_in_place]. cbn [app]. rewrite nth_mid by reflexivity. destruct (cont_reject cp wf o 0xBF (or_introl eq_refl)) as (s & E & cp' & wf' & o' & ->). rewrite E. cbn [bind].
    rewrite (put_fb a (0xBF :: 0xBD :: fbs k) y) by reflexivity. destruct (Nat.leb_spec 3 (length y)) as [Ly|Ly]; [|reflexivity]. cbn [bind].
    specialize (IH n (Nat.lt_succ_diag_r n) (a ++ [0xBF]) [0xBD] (S k) (skipn 3 y) cp' wf' o').
    rewrite <- fbs_more in IH. rewrite <- IH; [|rewrite skipn_length, app_length; change (length fb) with 3%nat; cbn [length] in *; lia|right; left; reflexivity].
    f_equal; [cbn [app]; rewrite <- !app_assoc; reflexivity|rewrite app_length; cbn; lia|]. f_equal. rewrite !app_length. cbn [length]. rewrite ?app_length. cbn [length]. change (length fb) with 3%nat. cbn. lia.
  - destruct n as [|n]; [cbn in Ln; lia|]. cbn [units_in_place]. cbn [app]. rewrite nth_mid by reflexivity. destruct (cont_reject cp wf o 0xBD (or_intror eq_refl)) as (s & E & cp' & wf' & o' & ->). rewrite E. cbn [bind].
    rewrite (put_fb a (0xBD :: fbs k) y) by reflexivity. destruct (Nat.leb_spec 3 (length y)) as [Ly|Ly]; [|reflexivity]. cbn [bind].
    specialize (IH n (Nat.lt_succ_diag_r n) (a ++ [0xBD]) [] (S k) (skipn 3 y) cp' wf' o').
    rewrite <- fbs_more in IH. rewrite <- IH; [|rewrite skipn_length, app_length; change (length fb) with 3%nat; cbn [length] in *; lia|right; right; split; [reflexivity|discriminate]].
    f_equal; [cbn [app]; rewrite <- !app_assoc; reflexivity|rewrite app_length; cbn; lia|]. f_equal. rewrite !app_length. cbn [length app]. rewrite ?app_length. change (length fb) with 3%nat. cbn. lia.
  - destruct k as [|k]; [congruence|]. destruct (fb_accept cp wf o) as (s1 & s2 & s3 & E1 & E2 & E3 & cp' & wf' & o' & ->).
    assert (L3 : (length (fbs (S k)) = 3 + length (fbs k))%nat) by (cbn [fbs]; rewrite app_length; reflexivity). cbn [length] in Ln.
    destruct n as [|n]; [lia|]. destruct n as [|n]; [lia|]. destruct n as [|n]; [lia|].
    assert (M : a ++ ([] ++ fbs (S k)) ++ y = a ++ 0xEF :: 0xBF :: 0xBD :: fbs k ++ y) by reflexivity.
    cbn [units_in_place]. rewrite M, nth_mid by reflexivity. rewrite E1. cbn [bind put_units]. 
    replace (a ++ 0xEF :: 0xBF :: 0xBD :: fbs k ++ y) with ((a ++ [0xEF]) ++ 0xBF :: 0xBD :: fbs k ++ y) by (rewrite <- app_assoc; reflexivity). rewrite nth_mid by (rewrite app_length; cbn; lia). rewrite E2. cbn [bind put_units].
    replace ((a ++ [0xEF]) ++ 0xBF :: 0xBD :: fbs k ++ y) with ((a ++ [0xEF; 0xBF]) ++ 0xBD :: fbs k ++ y) by (rewrite <- !app_assoc; reflexivity). rewrite nth_mid by (rewrite app_length; cbn; lia). rewrite E3. cbn [bind].
    replace ((a ++ [0xEF; 0xBF]) ++ 0xBD :: fbs k ++ y) with ((a ++ fb) ++ fbs k ++ y) by (unfold fb; rewrite <- !app_assoc; reflexivity).
    rewrite (put_fb (a ++ fb) (fbs k) y) by (cbn [fbs app]; rewrite app_assoc; reflexivity). destruct (Nat.leb_spec 3 (length y)) as [Ly|Ly]; [|reflexivity]. cbn [bind].
    assert (Hn : (n < S (S (S n)))%nat) by lia. specialize (IH n Hn (a ++ fb) [] (S k) (skipn 3 y) cp' wf' o'). rewrite <- fbs_more in IH. cbn [app] in IH. rewrite <- IH; [|rewrite skipn_length, fbs_more; cbn [length]; lia|right; right; split; [reflexivity|discriminate]].
    f_equal; [rewrite app_length; change (length fb) with 3%nat; lia|]. f_equal. rewrite fbs_more, !app_length, L3. cbn [app length]. change (length fb) with 3%nat. lia.
Qed.
Lemma fb_form : utf8_of fffd fb.
Proof. destruct (t32_8_good 0 true fffd fffd_scalar) as (w & E & U). injection E as <-. exact U. Qed.
Lemma step8 p s u : inv8 p s -> u < 256 ->
  (exists c s1, utf8_of c (p ++ [u]) /\ t8_32_call s u = Ok (s1, [c]) /\ inv8 [] s1)
  \/ (exists s1, inv8 (p ++ [u]) s1 /\ t8_32_call s u = Ok (s1, []))
  \/ (exists s1, t8_32_call s u = Ok (s1, [fffd]) /\ exists cp wf, s1 = S8 cp wf 0).
Proof.
  intros I Hu. destruct I as [cp wf|p st cp wf P].
  - destruct (step8_accept cp wf u Hu) as [(c & U & E)|[(st & cp' & P & E)|(_ & cp' & E)]].
    + left. do 2 eexists. split; [exact U|]. split; [exact E|]. constructor.
    + right; left. eexists. split; [apply i8_pending; exact P|]. exact E.
    + right; right. eexists. split; [exact E|]. eauto.
  - destruct (step8_pending p st cp wf u P Hu) as [(c & U & E)|[(st' & cp' & P' & E)|(_ & cp' & E)]].
    + left. do 2 eexists. split; [exact U|]. split; [exact E|]. constructor.
    + right; left. eexists. split; [apply i8_pending; exact P'|]. exact E.
    + right; right. eexists. split; [exact E|]. eauto.
Qed.
Lemma tri8 (i : s8) (o : bool) u (i' : s8) w : t8_32_call i u = Ok (i', w) -> (length w <= 1)%nat -> Forall scalar w -> exists (o' : bool) w', tc_op t8_8 (i, o) u = Ok ((i', o'), w') /\ text utf8_of w w'.
Proof.
  intros E L S. destruct (enc_feed _ _ encoder_8 _ _ _ (reads32_scalars w S) o) as (o' & w' & E' & T & _). exists o', w'. split; [|exact T].
  cbn [tc_op t8_8 triangulator]. unfold tri_op. cbn [fst snd tc_op t8_32]. rewrite E. cbn [bind]. destruct (Nat.ltb_spec 1 (length w)); [lia|]. rewrite E'. reflexivity.
Qed.
Lemma text_one c w : text utf8_of [c] w -> utf8_of c w.
Proof. intros X. inversion X as [|? ? w1 w2 U X']; subst. inversion X'; subst. rewrite app_nil_r. exact U. Qed.
Lemma run8 l : Forall (fun u => u < 256) l -> forall s p (i : s8) (o : bool) w q, l = p ++ s -> feed t8_8 (tc_init t8_8) p = Ok ((i, o), w) -> inv8 q i -> (length w + length q <= length p)%nat ->
  (units_in_place t8_8 (length s) (i, o) (w ++ skipn (length w) l) (length p) (Points (length w)) = Fault buffer_overflow
    /\ exists p' s' t' w', l = p' ++ s' /\ feed t8_8 (tc_init t8_8) p' = Ok (t', w') /\ (length p' < length w')%nat)
  \/ ((forall p' s' t' w', l = p' ++ s' -> (length p <= length p')%nat -> feed t8_8 (tc_init t8_8) p' = Ok (t', w') -> (length w' <= length p')%nat) /\ exists t' w', feed t8_8 (tc_init t8_8) l = Ok (t', w') /\ (length w' <= length l)%nat /\
      units_in_place t8_8 (length s) (i, o) (w ++ skipn (length w) l) (length p) (Points (length w)) = Ok (t', w' ++ skipn (length w') l, Points (length w'))).
Proof.
  intros B. induction s as [|u s IH]; intros p i o w q El Ep I L.
  - assert (l = p) as -> by (rewrite El; apply app_nil_r). right. split.
    { intros p' s' t' w' E' L' E2. assert (length p = length p' + length s')%nat by (rewrite E' at 1; apply app_length). destruct s' as [|]; [|cbn in *; lia]. rewrite app_nil_r in E'. subst p'. rewrite Ep in E2. injection E2 as _ <-. lia. }
    exists (i, o), w. split; [exact Ep|]. split; [lia|]. reflexivity.
  - cbn [length units_in_place]. rewrite (nth_behind w l p s u El) by lia.
    assert (Hu : u < 256). { rewrite El, Forall_app in B. destruct B as [_ B]. inversion B; assumption. }
    assert (El' : l = (p ++ [u]) ++ s) by (rewrite <- app_assoc; exact El).
    assert (Ll : (length l = length p + 1 + length s)%nat) by (rewrite El', !app_length; reflexivity).
    assert (N : forall i1 o1 w1, tc_op t8_8 (i, o) u = Ok ((i1, o1), w1) -> feed t8_8 (tc_init t8_8) (p ++ [u]) = Ok ((i1, o1), w ++ w1)).
    { intros i1 o1 w1 E. rewrite feed_app, Ep. cbn [bind feed]. rewrite E. cbn [bind feed]. rewrite app_nil_r. reflexivity. }
    assert (Lp : S (length p) = length (p ++ [u])) by (rewrite app_length; cbn; lia).
    assert (X : forall i1 w1 q1, t8_32_call i u = Ok (i1, w1) -> (length w1 <= 1)%nat -> Forall scalar w1 -> inv8 q1 i1 -> (forall w1', text utf8_of w1 w1' -> length (w ++ w1') + length q1 <= length (p ++ [u]))%nat ->
      ((do (t', w') <- tc_op t8_8 (i, o) u; do (out', mem') <- put_units (Points (length w)) (w ++ skipn (length w) l) w'; units_in_place t8_8 (length s) t' mem' (S (length p)) out') = Fault buffer_overflow
        /\ exists p' s' t' w', l = p' ++ s' /\ feed t8_8 (tc_init t8_8) p' = Ok (t', w') /\ (length p' < length w')%nat)
      \/ ((forall p' s' t' w', l = p' ++ s' -> (length p <= length p')%nat -> feed t8_8 (tc_init t8_8) p' = Ok (t', w') -> (length w' <= length p')%nat) /\ exists t' w', feed t8_8 (tc_init t8_8) l = Ok (t', w') /\ (length w' <= length l)%nat /\
        (do (t', w') <- tc_op t8_8 (i, o) u; do (out', mem') <- put_units (Points (length w)) (w ++ skipn (length w) l) w'; units_in_place t8_8 (length s) t' mem' (S (length p)) out') = Ok (t', w' ++ skipn (length w') l, Points (length w')))).
    { intros i1 w1 q1 E L1 S1 I1 H. destruct (tri8 i o u i1 w1 E L1 S1) as (o1 & w1' & E1 & T1). specialize (H _ T1). rewrite E1. cbn [bind]. rewrite write_more by (rewrite Ll; rewrite app_length in H; cbn in H; rewrite app_length in *; cbn in *; lia). cbn [bind]. rewrite Lp.
      destruct (IH (p ++ [u]) i1 o1 (w ++ w1') q1 El' (N _ _ _ E1) I1 H) as [F|[Q F]]; [left; exact F|right]. split; [|exact F].
      intros p' s' t' w' E' L' E2. destruct (Nat.eq_dec (length p) (length p')) as [Le|Le].
      - assert (p = p') as <-. { rewrite El in E'. apply (f_equal (firstn (length p))) in E'. rewrite !firstn_len in E' by (try assumption; reflexivity). exact E'. } rewrite Ep in E2. injection E2 as _ <-. lia.
      - apply (Q p' s' t' w' E'); [rewrite <- Lp; lia|exact E2]. }
    destruct (step8 q i u I Hu) as [(c & i1 & U & E & I1)|[(i1 & I1 & E)|(i1 & E & cp & wf & ->)]].
    + apply (X i1 [c] [] E (le_n _)); [apply forall1; eapply utf8_scalar; exact U|exact I1|].
      intros w1' T. apply text_one in T. rewrite (utf8_fun _ _ _ T U), !app_length. cbn. lia.
    + apply (X i1 [] (q ++ [u]) E (le_S _ _ (le_n _))); [constructor|exact I1|]. intros w1' T. inversion T; subst. rewrite !app_length. cbn. lia.
    + destruct (Nat.leb_spec (length w + 3) (length p + 1)) as [G|G].
      * apply (X _ [fffd] [] E (le_n _)); [apply forall1, fffd_scalar|constructor|]. intros w1' T. apply text_one in T. rewrite (utf8_fun _ _ _ T fb_form), !app_length. cbn. lia.
      * left. destruct (tri8 i o u _ [fffd] E (le_n _) ltac:(apply forall1, fffd_scalar)) as (o1 & w1' & E1 & T1). apply text_one in T1. rewrite (utf8_fun _ _ _ T1 fb_form) in E1. clear T1 w1'. split.
        2:{ exists (p ++ [u]), s, (S8 cp wf 0, o1), (w ++ fb). split; [exact El'|]. split; [apply N; exact E1|]. rewrite !app_length. cbn. lia. }
        rewrite E1. cbn [bind].
        destruct (Nat.leb_spec (length w + 3) (length l)) as [F|F].
        -- rewrite write_more by (rewrite app_length; cbn; lia). cbn [bind].
           set (y := skipn (length (w ++ fb)) l). assert (Ly : (length y = length l - (length w + 3))%nat) by (unfold y; rewrite skipn_length, app_length; reflexivity).
           assert (D : (length w = length p \/ length w + 1 = length p)%nat) by lia. destruct D as [D|D].
           ++ pose proof (doomed (length s) (w ++ [0xEF]) [0xBF; 0xBD] 0 y cp wf o1 ltac:(rewrite Ly; cbn; lia) (or_introl eq_refl)) as Z. rewrite <- Z.
              f_equal; [unfold fb; rewrite <- !app_assoc; reflexivity|rewrite app_length; cbn; lia|]. f_equal. rewrite !app_length. cbn. lia.
           ++ pose proof (doomed (length s) (w ++ [0xEF; 0xBF]) [0xBD] 0 y cp wf o1 ltac:(rewrite Ly; cbn; lia) (or_intror (or_introl eq_refl))) as Z. rewrite <- Z.
              f_equal; [unfold fb; rewrite <- !app_assoc; reflexivity|rewrite app_length; cbn; lia|]. f_equal. rewrite !app_length. cbn. lia.
        -- rewrite put_units_at, app_length, skipn_length. change (length fb) with 3%nat. replace (length w + 3 <=? length w + (length l - length w))%nat with false by (symmetry; apply Nat.leb_gt; lia). reflexivity.
Qed.
Lemma in_place8 l out ok : Forall (fun u => u < 256) l -> transcode t8_8 l = Ok (out, ok) ->
  let fits := (forall p s t w, l = p ++ s -> feed t8_8 (tc_init t8_8) p = Ok (t, w) -> (length w <= length p)%nat) /\ (length out <= length l)%nat in
  (fits /\ transcode_in_place t8_8 l = Ok (out ++ skipn (length out) l, length out, ok)) \/ (~ fits /\ transcode_in_place t8_8 l = Fault buffer_overflow).
Proof.
  intros B E fits. assert (D : fits -> transcode_in_place t8_8 l = Ok (out ++ skipn (length out) l, length out, ok)).
  { intros [K L]. exact (in_place_behind t8_8 l out ok K L E). }
  destruct (run8 l B l [] (tc_init t8_32) (tc_init t32_8) [] [] eq_refl eq_refl (i8_accept _ _) (le_n _)) as [[F (p & s & t & w & El & Ep & G)]|[Q (t & w & Ef & L & F)]]; cbn [app length skipn] in F; change (units_in_place t8_8 (length l) (tc_init t8_32, tc_init t32_8) l 0 (Points 0)) with (units_in_place t8_8 (length l) (tc_init t8_8) l 0 (Points 0)) in F.
  - right. split; [intros [K _]; specialize (K p s t w El Ep); lia|]. unfold transcode_in_place. rewrite F. reflexivity.
  - assert (E0 := E). unfold transcode in E. rewrite Ef in E. cbn [bind] in E. destruct (tc_end t8_8 t) as [[t' w']| |] eqn:Ee; cbn [bind] in E; try discriminate. injection E as <- <-.
    destruct (Nat.leb_spec (length (w ++ w')) (length l)) as [Lo|Lo].
    + left. assert (R : transcode_in_place t8_8 l = Ok ((w ++ w') ++ skipn (length (w ++ w')) l, length (w ++ w'), tc_wf t8_8 t')).
      { unfold transcode_in_place. rewrite F. cbn [bind]. rewrite Ee. cbn [bind]. rewrite write_more by exact Lo. reflexivity. }
      split; [|exact R]. split; [|exact Lo]. intros p s t1 w1 El Ep. exact (Q p s t1 w1 El (Nat.le_0_l _) Ep).
    + right. split; [intros [_ K]; lia|]. unfold transcode_in_place. rewrite F. cbn [bind]. rewrite Ee. cbn [bind].
      rewrite put_units_at. rewrite app_length in *. rewrite skipn_length.
      replace (length w + length w' <=? length w + (length l - length w))%nat with false by (symmetry; apply Nat.leb_gt; lia).
      destruct (Nat.eqb_spec (length w') 0); [lia|]. reflexivity.
Qed.
