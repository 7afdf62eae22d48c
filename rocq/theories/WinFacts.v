(* Facts about pathnames on Windows *)
From Verif Require Import Base ModelUri ModelWin SpecStore SpecFs SpecWin FsProps.
From Coq Require Import Lia.
Local Open Scope list_scope.

Definition sep_free (s : str) : Prop := ~ In "/"%char s /\ ~ In backslash s.
Lemma sep_spec c : win_sep c = true <-> c = "/"%char \/ c = backslash.
Proof. unfold win_sep. rewrite orb_true_iff, !Ascii.eqb_eq. reflexivity. Qed.
Lemma sep_in c s : sep_free s -> In c s -> win_sep c = false.
Proof. intros [A B] H. destruct (win_sep c) eqn:E; [|reflexivity]. apply sep_spec in E. destruct E; subst; contradiction. Qed.
Lemma letter_spec c : win_letter c = true <-> (65 <= code c <= 90 \/ 97 <= code c <= 122)%N.
Proof. unfold win_letter. rewrite orb_true_iff, !andb_true_iff, !N.leb_le. lia. Qed.
Lemma letter_sep c : win_letter c = true -> win_sep c = false.
Proof. intros H. destruct (win_sep c) eqn:E; [|reflexivity]. apply sep_spec in E. destruct E; subst; discriminate. Qed.
Definition is_drive (a b : ascii) : bool := (win_letter a && Ascii.eqb b ":")%bool.
Lemma drive_spec a b : is_drive a b = true <-> drive [a; b].
Proof.
  unfold is_drive. rewrite andb_true_iff, letter_spec, Ascii.eqb_eq. split; [intros [L ->]; exists a; auto|intros (c & E & L); injection E as <- <-; auto].
Qed.
Lemma drive_shape d : drive d -> exists a, d = [a; ":"%char] /\ win_letter a = true.
Proof. intros (c & -> & L). exists c. split; [reflexivity|]. now apply letter_spec. Qed.
Lemma begins_dec s : {d | drive d /\ exists r, s = d ++ r} + {~ begins_with_drive s}.
Proof.
  destruct s as [|a [|b r]].
  - right. intros (d & r & D & E). destruct (drive_shape d D) as (x & -> & _). discriminate.
  - right. intros (d & r & D & E). destruct (drive_shape d D) as (x & -> & _). discriminate.
  - destruct (is_drive a b) eqn:X.
    + left. exists [a; b]. split; [now apply drive_spec|]. exists r. reflexivity.
    + right. intros (d & r' & D & E). destruct (drive_shape d D) as (x & -> & L). cbn [app] in E. injection E as <- -> _. unfold is_drive in X. rewrite L in X. discriminate.
Qed.
(* root names *)
Lemma root_drive d r : drive d -> win_root_name (d ++ r) = d.
Proof. intros D. destruct (drive_shape d D) as (x & -> & L). cbn [app win_root_name]. now rewrite L. Qed.
Lemma root_none s : ~ begins_with_drive s -> (forall a b r, s = a :: b :: r -> win_sep a = true -> win_sep b = false) -> win_root_name s = [].
Proof.
  intros N S. destruct s as [|a [|b r]]; try reflexivity. cbn [win_root_name]. fold (is_drive a b). destruct (is_drive a b) eqn:X.
  - exfalso. apply N. exists [a; b], r. split; [now apply drive_spec|reflexivity].
  - destruct (win_sep a) eqn:A; [|reflexivity]. now rewrite (S a b r eq_refl A).
Qed.
Lemma root_seg s : sep_free s -> ~ begins_with_drive s -> win_root_name s = [].
Proof. intros F N. apply root_none; [exact N|]. intros a b r -> A. rewrite (sep_in a _ F) in A by (left; reflexivity). discriminate. Qed.
Lemma seg_dir s : sep_free s -> win_has_root_directory s = false.
Proof.
  intros F. unfold win_has_root_directory, win_after_root_name. destruct (skipn (length (win_root_name s)) s) as [|c t] eqn:E; [reflexivity|].
  apply (sep_in c s F). rewrite <- (firstn_skipn (length (win_root_name s)) s), E. apply in_or_app. right. left. reflexivity.
Qed.
Lemma seg_absolute s : sep_free s -> win_is_absolute s = false.
Proof.
  intros F. unfold win_is_absolute. rewrite (seg_dir s F). destruct (win_has_root_name s) eqn:H; [|reflexivity]. cbn [andb]. unfold win_has_root_name, win_is_server in *.
  destruct (begins_dec s) as [(d & D & r & ->)|N]; [|rewrite (root_seg s F N) in H; discriminate]. rewrite (root_drive d r D).
  destruct (drive_shape d D) as (x & -> & L). now rewrite (letter_sep x L).
Qed.

(* what has been appended so far *)
Definition tailed (names : list str) : str :=
  if match rev names with [] :: _ => negb (match filter nonempty names with [] => true | _ => false end) | _ => false end then [backslash] else [].
Definition body (root : bool) (names : list str) : str := (if root then ["/"%char] else []) ++ backslashed (filter nonempty names) ++ tailed names.
Definition good (d : str) (root : bool) (names : list str) : Prop :=
  no_separators names /\ ((d = [] /\ Forall (fun s => ~ begins_with_drive s) names) \/ (drive d /\ root = false)).

Lemma backslashed_snoc l s : backslashed (l ++ [s]) = match l with [] => s | _ => backslashed l ++ backslash :: s end.
Proof.
  destruct l as [|a l]; [reflexivity|]. cbn [app backslashed]. revert a. induction l as [|b l IH]; intros a; cbn [app joined]; [reflexivity|]. rewrite IH, <- app_assoc. reflexivity.
Qed.
Lemma filter_good_w names : no_separators names -> Forall (fun s => s <> [] /\ sep_free s) (filter nonempty names).
Proof. induction 1 as [|s l H _ IH]; cbn; [constructor|]. destruct s; [exact IH|]. constructor; [split; [discriminate|exact H]|exact IH]. Qed.
Lemma backslashed_last l : l <> [] -> Forall (fun s => s <> [] /\ sep_free s) l -> exists t c, backslashed l = t ++ [c] /\ win_sep c = false.
Proof.
  intros N F. destruct (exists_last N) as (l' & s & ->). apply Forall_app in F as [_ F]. inversion F as [|? ? [NE NS] _]; subst. destruct (exists_last NE) as (s' & c & ->).
  assert (NC : win_sep c = false) by (apply (sep_in c _ NS), in_or_app; right; left; reflexivity).
  rewrite backslashed_snoc. destruct l' as [|a l']; [exists s', c; auto|]. exists (backslashed (a :: l') ++ backslash :: s'), c. split; [|exact NC]. rewrite <- app_assoc. reflexivity.
Qed.
(* the first of the names, at the front *)
Lemma backslashed_first n ns : exists t, backslashed (n :: ns) = n ++ t /\ (t = [] \/ exists t', t = backslash :: t').
Proof. destruct ns as [|m ns]; cbn [backslashed joined]; [exists []; rewrite app_nil_r; auto|]. eexists. split; [reflexivity|]. eauto. Qed.
Lemma names_first (names : list str) n ns : filter nonempty names = n :: ns -> In n names /\ n <> [].
Proof. intros E. assert (I : In n (filter nonempty names)) by (rewrite E; left; reflexivity). apply filter_In in I. destruct I as [I NE]. split; [exact I|]. now destruct n. Qed.
Lemma tailed_nil names : filter nonempty names = [] -> tailed names = [].
Proof. intros E. unfold tailed. rewrite E. destruct (rev names) as [|[|] ?]; reflexivity. Qed.

Lemma root_body d root names : good d root names -> win_root_name (d ++ body root names) = d.
Proof.
  intros [F [[-> G]|[D ->]]]; [|now apply root_drive]. cbn [app]. unfold body.
  destruct (filter nonempty names) as [|n ns] eqn:E.
  - rewrite (tailed_nil _ E). destruct root; reflexivity.
  - destruct (names_first _ _ _ E) as [I NE]. unfold no_separators in F. rewrite Forall_forall in F, G. pose proof (F n I) as Fn. pose proof (G n I) as Gn.
    destruct (backslashed_first n ns) as (t & Et & Ht). rewrite Et. rewrite <- app_assoc. destruct n as [|a n]; [contradiction|]. pose proof (sep_in a _ Fn (or_introl eq_refl)) as Sa.
    destruct root.
    + cbn [app win_root_name]. change (win_letter "/" && (a =? ":")%char)%bool with false. cbv iota. rewrite Sa. reflexivity.
    + cbn [app]. destruct n as [|b n].
      * cbn [app]. destruct Ht as [->|(t' & ->)]; cbn [app].
        -- assert (Z : tailed names = [] \/ exists u, tailed names = backslash :: u) by (unfold tailed; destruct (match rev names with [] :: _ => _ | _ => _ end); eauto).
           destruct Z as [->|(u & ->)]; [reflexivity|]. cbn [win_root_name]. replace (win_letter a && (backslash =? ":")%char)%bool with false by (destruct (win_letter a); reflexivity). now rewrite Sa.
        -- cbn [win_root_name]. replace (win_letter a && (backslash =? ":")%char)%bool with false by (destruct (win_letter a); reflexivity). now rewrite Sa.
      * cbn [app win_root_name]. fold (is_drive a b). destruct (is_drive a b) eqn:X; [|now rewrite Sa]. exfalso. apply Gn. exists [a; b], n. split; [now apply drive_spec|reflexivity].
Qed.
Lemma after_body d root names : good d root names -> win_after_root_name (d ++ body root names) = body root names.
Proof. intros G. unfold win_after_root_name. rewrite (root_body d root names G), skipn_app, skipn_all, Nat.sub_diag. reflexivity. Qed.
Lemma dir_body d root names : good d root names -> win_has_root_directory (d ++ body root names) = root.
Proof.
  intros G. unfold win_has_root_directory. rewrite (after_body _ _ _ G). unfold body. destruct root; [reflexivity|]. cbn [app]. destruct G as [F _].
  destruct (filter nonempty names) as [|n ns] eqn:E; [now rewrite (tailed_nil _ E)|]. destruct (names_first _ _ _ E) as [I NE]. unfold no_separators in F. rewrite Forall_forall in F. pose proof (F n I) as Fn.
  destruct (backslashed_first n ns) as (t & -> & _). destruct n as [|a n]; [contradiction|]. cbn [app]. apply (sep_in a _ Fn). left. reflexivity.
Qed.
Lemma abs_body d root names : good d root names -> win_is_absolute (d ++ body root names) = false.
Proof.
  intros G. unfold win_is_absolute, win_has_root_name, win_is_server. rewrite (root_body _ _ _ G), (dir_body _ _ _ G). destruct G as [_ [[-> _]|[D ->]]]; [reflexivity|].
  destruct (drive_shape d D) as (x & -> & L). now rewrite (letter_sep x L).
Qed.
Lemma filename_snoc t c : match rev (t ++ [c]) with c :: _ => negb (win_sep c) | [] => false end = negb (win_sep c).
Proof. now rewrite rev_app_distr. Qed.
(* appending a name *)
Lemma body_append root names s : no_separators names -> sep_free s ->
  (if match rev (body root names) with c :: _ => negb (win_sep c) | [] => false end then body root names ++ [backslash] else body root names) ++ s = body root (names ++ [s]).
Proof.
  intros F NS. pose proof (filter_good_w names F) as FG. unfold body at 4. rewrite filter_app. cbn [filter].
  assert (T : tailed (names ++ [s]) = match s with [] => match filter nonempty names with [] => [] | _ => [backslash] end | _ => [] end).
  { unfold tailed. rewrite rev_app_distr, filter_app. cbn [rev app filter]. destruct s; cbn [nonempty]; [rewrite app_nil_r; destruct (filter nonempty names); reflexivity|reflexivity]. }
  rewrite T. destruct (filter nonempty names) as [|a l] eqn:Ef.
  - unfold body. rewrite Ef, (tailed_nil _ Ef). cbn [backslashed app]. rewrite app_nil_r.
    replace (match rev (if root then ["/"%char] else []) with c :: _ => negb (win_sep c) | [] => false end) with false by (destruct root; reflexivity).
    destruct s as [|c s]; cbn [nonempty app backslashed joined]; rewrite ?app_nil_r; reflexivity.
  - destruct (backslashed_last (a :: l) ltac:(discriminate) FG) as (t & c & Et & Hc). unfold body. rewrite Ef. unfold tailed. rewrite Ef.
    destruct (match rev names with [] :: _ => true | _ => false end) eqn:Er.
    + assert (X : (match rev names with [] :: _ => negb false | _ => false end) = true) by (destruct (rev names) as [|[|] ?]; try discriminate; reflexivity). rewrite X.
      rewrite app_assoc, filename_snoc. cbn [negb win_sep]. change (win_sep backslash) with true. cbn [negb]. destruct s as [|c0 s]; cbn [nonempty].
      * rewrite !app_nil_r. now rewrite <- app_assoc.
      * rewrite backslashed_snoc. rewrite <- !app_assoc, app_nil_r. reflexivity.
    + assert (X : (match rev names with [] :: _ => negb false | _ => false end) = false) by (destruct (rev names) as [|[|] ?]; try discriminate; reflexivity). rewrite X, app_nil_r.
      assert (FN : match rev ((if root then ["/"%char] else []) ++ backslashed (a :: l)) with c :: _ => negb (win_sep c) | [] => false end = true).
      { rewrite Et, app_assoc, filename_snoc, Hc. reflexivity. }
      rewrite FN. destruct s as [|c0 s]; cbn [nonempty].
      * rewrite !app_nil_r. rewrite <- !app_assoc. reflexivity.
      * rewrite backslashed_snoc, app_nil_r, <- !app_assoc. reflexivity.
Qed.
Lemma win_name_append d root names s r : good d root names -> sep_free s -> (s = r /\ ~ begins_with_drive s \/ d <> [] /\ s = d ++ r) ->
  win_append (d ++ body root names) s = d ++ body root (names ++ [r]).
Proof.
  intros G Fs H. assert (RN : win_root_name s = [] /\ r = s \/ win_root_name s = d /\ s = d ++ r).
  { destruct H as [[<- N]|[ND ->]]; [left; split; [now apply root_seg|reflexivity]|right]. split; [|reflexivity]. destruct G as [_ [[-> _]|[D _]]]; [contradiction|now apply root_drive]. }
  unfold win_append. rewrite (seg_absolute s Fs), (seg_dir s Fs), (root_body _ _ _ G), (abs_body _ _ _ G), (dir_body _ _ _ G), andb_false_r, orb_false_r. cbn [orb].
  assert (C : (win_has_root_name s && negb (str_eqb (win_root_name s) d))%bool = false).
  { unfold win_has_root_name. destruct RN as [[-> _]|[-> _]]; [reflexivity|]. unfold str_eqb. destruct (list_eq_dec ascii_dec d d); [apply andb_false_r|contradiction]. }
  rewrite C. assert (A : win_after_root_name s = r).
  { unfold win_after_root_name. destruct RN as [[-> ->]|[-> ->]]; [reflexivity|]. rewrite skipn_app, skipn_all, Nat.sub_diag. reflexivity. }
  rewrite A. unfold win_has_filename. rewrite (after_body _ _ _ G). destruct G as [F _].
  assert (Fr : sep_free r) by (destruct RN as [[_ ->]|[_ ->]]; [exact Fs|]; destruct Fs as [F1 F2]; split; intros I; [apply F1|apply F2]; apply in_or_app; right; exact I).
  rewrite <- (body_append root names r F Fr). destruct (match rev (body root names) with c :: _ => negb (win_sep c) | [] => false end); now rewrite <- !app_assoc.
Qed.
Lemma win_drive_append p d r : drive d -> win_root_name p <> d -> win_append p (d ++ r) = d ++ r.
Proof.
  intros D N. unfold win_append, win_has_root_name. rewrite (root_drive d r D). destruct (drive_shape d D) as (x & E & L). subst d.
  unfold str_eqb. destruct (list_eq_dec ascii_dec [x; ":"%char] (win_root_name p)) as [Z|_]; [congruence|]. cbn [negb andb]. now rewrite orb_true_r.
Qed.
Lemma sep_free_tail d s : sep_free (d ++ s) -> sep_free s.
Proof. intros [F1 F2]. split; intros I; [apply F1|apply F2]; apply in_or_app; right; exact I. Qed.
Lemma good_snoc d root names s r : good d root names -> sep_free s -> (s = r /\ ~ begins_with_drive s \/ d <> [] /\ s = d ++ r) -> good d root (names ++ [r]).
Proof.
  intros [F G] Fs H. assert (Fr : sep_free r) by (destruct H as [[<- _]|[_ ->]]; [exact Fs|now apply sep_free_tail in Fs]).
  split; [apply Forall_app; split; [exact F|constructor; [exact Fr|constructor]]|]. destruct G as [[-> G]|G]; [left|right; exact G]. split; [reflexivity|].
  apply Forall_app. split; [exact G|]. destruct H as [[<- N]|[N _]]; [constructor; [exact N|constructor]|contradiction].
Qed.
Lemma fold_names d root segs rs : Forall2 (fun s r => s = r /\ ~ begins_with_drive s \/ d <> [] /\ s = d ++ r) segs rs ->
  forall names, no_separators segs -> good d root names -> fold_left win_append segs (d ++ body root names) = d ++ body root (names ++ rs) /\ good d root (names ++ rs).
Proof.
  induction 1 as [|s r segs rs H _ IH]; intros names F G; [rewrite app_nil_r; auto|]. inversion F as [|? ? Fs Fl]; subst. cbn [fold_left].
  rewrite (win_name_append d root names s r G Fs H). destruct (IH (names ++ [r]) Fl (good_snoc _ _ _ _ _ G Fs H)) as [E G']. rewrite <- app_assoc in E, G'. auto.
Qed.
Lemma start_body (b : bool) : (if b then win_append [] (ss "/") else []) = [] ++ body b [].
Proof. destruct b; reflexivity. Qed.
Lemma start_good (b : bool) : good [] b []. Proof. split; [constructor|]. left. split; [reflexivity|constructor]. Qed.
(* every path: a drive or none, a root directory only without a drive, and names *)
Lemma fold_any segs : forall d root names, no_separators segs -> good d root names ->
  exists d' root' names', fold_left win_append segs (d ++ body root names) = d' ++ body root' names' /\ good d' root' names'.
Proof.
  induction segs as [|s segs IH]; intros d root names F G; [exists d, root, names; auto|]. pose proof (Forall_inv F) as Fs. pose proof (Forall_inv_tail F) as Fl. cbv beta in Fs. fold (sep_free s) in Fs. cbn [fold_left].
  destruct (begins_dec s) as [(e & De & r & ->)|N].
  - destruct (list_eq_dec ascii_dec d e) as [<-|NE].
    + rewrite (win_name_append d root names (d ++ r) r G Fs); [apply IH; [exact Fl|]|]; [eapply good_snoc; [exact G|exact Fs|]|]; right; (split; [|reflexivity]); destruct (drive_shape d De) as (x & -> & _); discriminate.
    + rewrite (win_drive_append _ e r De) by now rewrite (root_body _ _ _ G). assert (G' : good e false [r]).
      { split; [constructor; [now apply sep_free_tail in Fs|constructor]|right; auto]. }
      assert (B : e ++ r = e ++ body false [r]). { f_equal. unfold body, tailed. destruct r; cbn; [reflexivity|]. now rewrite app_nil_r. }
      rewrite B. apply IH; [exact Fl|exact G'].
  - rewrite (win_name_append d root names s s G Fs); [apply IH; [exact Fl|eapply good_snoc; [exact G|exact Fs|]]|]; left; auto.
Qed.
Lemma path_any p : no_separators (segments p) -> exists d root names, path_windows p = d ++ body root names /\ good d root names.
Proof. intros F. unfold path_windows. rewrite start_body. apply fold_any; [exact F|apply start_good]. Qed.

(* on which drive one ends *)
Lemma drives_same d e r r' : drive d -> drive e -> d ++ r = e ++ r' -> d = e.
Proof. intros D E H. destruct (drive_shape d D) as (x & -> & _), (drive_shape e E) as (y & -> & _). cbn in H. congruence. Qed.
Lemma drive_ne d : drive d -> d <> []. Proof. intros D. destruct (drive_shape d D) as (x & -> & _). discriminate. Qed.
Lemma on_drive_iff d s r : drive d -> on_drive d s r <-> (s = r /\ ~ begins_with_drive s \/ d <> [] /\ s = d ++ r).
Proof. intros D. pose proof (drive_ne d D). unfold on_drive. tauto. Qed.
Lemma cases (segs : list str) : Forall (fun s => ~ begins_with_drive s) segs
  \/ exists (a : list str) (d r : str) (b rs : list str), segs = a ++ (d ++ r) :: b /\ drive d /\ not_on a d /\ Forall2 (on_drive d) b rs.
Proof.
  induction segs as [|s l IH] using rev_ind; [left; constructor|]. destruct (begins_dec s) as [(e & De & r & ->)|N].
  - right. destruct IH as [IH|(a & d & r0 & b & rs & -> & D & NO & F)].
    + exists l, e, r, [], []. split; [reflexivity|]. split; [exact De|]. split; [|constructor]. intros x r1 y E. exfalso. rewrite Forall_forall in IH. apply (IH (e ++ r1)).
      * rewrite E. apply in_or_app. right. left. reflexivity.
      * exists e, r1. auto.
    + destruct (list_eq_dec ascii_dec d e) as [<-|NE].
      * exists a, d, r0, (b ++ [d ++ r]), (rs ++ [r]). rewrite <- app_assoc. split; [reflexivity|]. split; [exact D|]. split; [exact NO|]. apply Forall2_app; [exact F|]. constructor; [left; reflexivity|constructor].
      * exists (a ++ (d ++ r0) :: b), e, r, [], []. split; [reflexivity|]. split; [exact De|]. split; [|constructor]. intros x r1 y E.
        (* the segment e ++ r1 lies in a: d ++ r0 and those of b are on d *)
        exists d, (d ++ r0). split; [exact D|]. split; [exact NE|]. split; [|eauto].
        assert (X : exists y', y = y' ++ (d ++ r0) :: b).
        { clear NO. revert x E. induction a as [|s a IHa]; intros [|x0 x] E; cbn [app] in E; injection E as E0 E1.
          - exfalso. apply NE. symmetry. eapply drives_same; [exact De|exact D|symmetry; exact E0].
          - exfalso. subst b. apply Forall2_app_inv_l in F. destruct F as (r2 & r3 & _ & F & _). inversion F as [|s' r' ? ? O _]; subst. destruct O as [O|[_ O]].
            + apply NE. symmetry. eapply drives_same; [exact De|exact D|exact O].
            + apply O. exists e, r1. auto.
          - exists a. symmetry. exact E1.
          - exact (IHa x E1). }
        destruct X as (y' & ->). apply in_or_app. right. left. reflexivity.
  - destruct IH as [IH|(a & d & r0 & b & rs & -> & D & NO & F)].
    + left. apply Forall_app. split; [exact IH|constructor; [exact N|constructor]].
    + right. exists a, d, r0, (b ++ [s]), (rs ++ [s]). rewrite <- app_assoc. split; [reflexivity|]. split; [exact D|]. split; [exact NO|]. apply Forall2_app; [exact F|]. constructor; [right; auto|constructor].
Qed.
Lemma body_one r : body false [r] = r.
Proof. unfold body, tailed. destruct r; cbn; [reflexivity|]. now rewrite app_nil_r. Qed.
Lemma no_drive_names segs : Forall (fun s => ~ begins_with_drive s) segs -> Forall2 (fun s r => s = r /\ ~ begins_with_drive s \/ @nil ascii <> [] /\ s = [] ++ r) segs segs.
Proof. induction 1; constructor; auto. Qed.
Lemma windows_plain p : no_separators (segments p) -> Forall (fun s => ~ begins_with_drive s) (segments p) -> path_windows p = body (absolute p) (segments p).
Proof. intros F N. unfold path_windows. rewrite start_body. destruct (fold_names [] (absolute p) _ _ (no_drive_names _ N) [] F (start_good _)) as [E _]. exact E. Qed.
Lemma no_sep_app a b : no_separators (a ++ b) -> no_separators a /\ no_separators b.
Proof. apply Forall_app. Qed.
(* everything before a change of drive is dropped *)
Lemma windows_drive_from (q d r : str) (b rs : list str) : no_separators ((d ++ r) :: b) -> drive d -> win_root_name q <> d -> Forall2 (on_drive d) b rs ->
  fold_left win_append ((d ++ r) :: b) q = d ++ body false (r :: rs).
Proof.
  intros F D N O. pose proof (Forall_inv F) as Fs. pose proof (Forall_inv_tail F) as Fl. cbv beta in Fs. fold (sep_free (d ++ r)) in Fs.
  cbn [fold_left]. rewrite (win_drive_append q d r D N), <- (body_one r) at 1.
  assert (G : good d false [r]) by (split; [constructor; [now apply sep_free_tail in Fs|constructor]|right; auto]).
  assert (O' : Forall2 (fun s r => s = r /\ ~ begins_with_drive s \/ d <> [] /\ s = d ++ r) b rs).
  { clear -O D. induction O; constructor; [now apply on_drive_iff|assumption]. }
  destruct (fold_names d false _ _ O' [r] Fl G) as [E _]. rewrite body_one in E. rewrite body_one. exact E.
Qed.
Lemma windows_drive abs (a : list str) (d r : str) (b rs : list str) : no_separators (a ++ (d ++ r) :: b) -> drive d -> not_on a d -> Forall2 (on_drive d) b rs ->
  path_windows (mkpath abs (a ++ (d ++ r) :: b)) = d ++ body false (r :: rs).
Proof.
  intros F D NO O. apply no_sep_app in F. destruct F as [Fa Fb]. unfold path_windows. cbn [segments absolute]. rewrite fold_left_app.
  apply windows_drive_from; try assumption. rewrite start_body.
  destruct (cases a) as [N|(a1 & e & r1 & b1 & rs1 & -> & De & NOe & Oe)].
  - destruct (fold_names [] abs _ _ (no_drive_names _ N) [] Fa (start_good _)) as [-> G]. rewrite (root_body _ _ _ G). intros <-. now apply drive_ne in D.
  - apply no_sep_app in Fa. destruct Fa as [Fa1 Fa2]. rewrite fold_left_app.
    assert (NE : e <> d).
    { intros ->. destruct (NO a1 r1 b1 eq_refl) as (e & s & De' & NE & I & r' & ->). clear -Oe De' NE I D.
      induction Oe as [|s r l l' H _ IH]; [contradiction|]. destruct I as [->|I]; [|auto]. destruct H as [H|[_ H]].
      - apply NE. eapply drives_same; [exact De'|exact D|exact H].
      - apply H. exists e, r'. auto. }
    destruct (fold_any a1 [] abs [] Fa1 (start_good _)) as (d' & root' & names' & E' & G').
    destruct (list_eq_dec ascii_dec d' e) as [->|NE'].
    + (* cannot happen, but either way one is on e *)
      rewrite E'. assert (H : Forall2 (fun s r => s = r /\ ~ begins_with_drive s \/ e <> [] /\ s = e ++ r) ((e ++ r1) :: b1) (r1 :: rs1)).
      { constructor; [right; split; [now apply drive_ne|reflexivity]|]. clear -Oe De. induction Oe; constructor; [now apply on_drive_iff|assumption]. }
      destruct (fold_names e root' _ _ H names' Fa2 G') as [-> G]. rewrite (root_body _ _ _ G). exact NE.
    + rewrite E', (windows_drive_from _ e r1 b1 rs1 Fa2 De); [|now rewrite (root_body _ _ _ G')|exact Oe].
      assert (G : good e false (r1 :: rs1)).
      { split; [|right; auto]. constructor; [apply (sep_free_tail e), (Forall_inv Fa2)|]. pose proof (Forall_inv_tail Fa2) as F2. clear -F2 Oe. induction Oe as [|s r l l' H _ IH]; [constructor|].
        constructor; [|apply IH; exact (Forall_inv_tail F2)]. pose proof (Forall_inv F2) as Fs. destruct H as [->|[<- _]]; [exact (sep_free_tail _ _ Fs)|exact Fs]. }
      rewrite (root_body _ _ _ G). exact NE.
Qed.
Lemma body_form root names : exists tail, body root names = (if root then ["/"%char] else []) ++ backslashed (filter nonempty names) ++ tail
  /\ (tail = [backslash] /\ filter nonempty names <> [] /\ ends_empty names \/ tail = [] /\ (filter nonempty names = [] \/ ~ ends_empty names)).
Proof.
  exists (tailed names). split; [reflexivity|]. pose proof (ends_iff names) as E. unfold tailed. destruct (filter nonempty names) as [|n ns].
  - right. split; [destruct (rev names) as [|[|] ?]; reflexivity|left; reflexivity].
  - destruct (rev names) as [|[|] m]; cbn [negb].
    + right. split; [reflexivity|]. right. rewrite <- E. discriminate.
    + left. split; [reflexivity|]. split; [discriminate|]. now apply E.
    + right. split; [reflexivity|]. right. rewrite <- E. discriminate.
Qed.
(* more names only add to the end *)
Lemma body_grows root (names : list str) (n : str) (k : list str) : n <> [] -> no_separators (names ++ [n]) -> no_separators k -> exists rest, body root ((names ++ [n]) ++ k) = body root (names ++ [n]) ++ rest /\ (rest = [] \/ exists rest', rest = backslash :: rest').
Proof.
  intros NE F. induction k as [|s k IH] using rev_ind; intros Fk; [exists []; rewrite !app_nil_r; auto|].
  apply no_sep_app in Fk. destruct Fk as [Fk Fs]. destruct (IH Fk) as (rest & E & H).
  assert (F' : no_separators ((names ++ [n]) ++ k)) by (apply Forall_app; auto).
  pose proof (body_append root _ s F' (Forall_inv Fs)) as BA. rewrite app_assoc. rewrite <- BA, E. clear BA.
  destruct H as [->|(rest' & ->)].
  - rewrite app_nil_r in *. 
    assert (FN : match rev (body root (names ++ [n])) with c :: _ => negb (win_sep c) | [] => false end = true).
    { apply no_sep_app in F. destruct F as [_ F]. pose proof (Forall_inv F) as Fn. destruct (exists_last NE) as (n' & c & En).
      assert (Sc : win_sep c = false) by (apply (sep_in c _ Fn); rewrite En; apply in_or_app; right; left; reflexivity).
      assert (T : tailed (names ++ [n]) = []) by (unfold tailed; rewrite rev_app_distr; destruct n; [contradiction|reflexivity]).
      assert (B : backslashed (filter nonempty (names ++ [n])) = (match filter nonempty names with [] => [] | l => backslashed l ++ [backslash] end ++ n') ++ [c]).
      { rewrite filter_app. cbn [filter]. replace (nonempty n) with true by (destruct n; [contradiction|reflexivity]). rewrite backslashed_snoc, En. destruct (filter nonempty names); [reflexivity|]. rewrite <- !app_assoc. reflexivity. }
      unfold body. rewrite T, app_nil_r, B, app_assoc, filename_snoc, Sc. reflexivity. }
    rewrite FN, <- app_assoc. eexists. split; [reflexivity|]. right. eexists. reflexivity.
  - destruct (match rev _ with c :: _ => _ | [] => _ end); rewrite <- !app_assoc; eexists; (split; [reflexivity|]); right; eexists; reflexivity.
Qed.

(* segments with separators in them *)
Lemma separator_b c : separator c <-> win_sep c = true. Proof. symmetry. apply sep_spec. Qed.
Lemma name_cut n r : sep_free n -> separated r -> win_name (n ++ r) = n.
Proof.
  intros F R. induction n as [|c n IH]; cbn [app win_name].
  - destruct R as [->|(c & r' & -> & S)]; [reflexivity|]. apply separator_b in S. cbn. now rewrite S.
  - rewrite (sep_in c _ F) by (left; reflexivity). rewrite IH; [reflexivity|]. destruct F as [A B]. split; intros I; [apply A|apply B]; right; exact I.
Qed.
Lemma root_server u r : server u -> separated r -> win_root_name (u ++ r) = u.
Proof.
  intros (a & b & n & -> & A & B & N & F) R. apply separator_b in A, B. cbn [app win_root_name].
  destruct (win_letter a) eqn:L; [rewrite (letter_sep a L) in A; discriminate|]. cbn [andb]. rewrite A, B. cbn [andb].
  rewrite name_cut; [|exact (Forall_inv F)|exact R]. destruct n; [contradiction|reflexivity].
Qed.
Lemma server_absolute u r : server u -> separated r -> win_is_absolute (u ++ r) = true.
Proof.
  intros S R. unfold win_is_absolute, win_has_root_name, win_is_server. rewrite (root_server u r S R). destruct S as (a & b & n & -> & A & _). apply separator_b in A. cbn. now rewrite A.
Qed.
Lemma server_append p u r : server u -> separated r -> win_append p (u ++ r) = u ++ r.
Proof. intros S R. unfold win_append. now rewrite server_absolute. Qed.
Lemma from_root_append p s : from_root s -> win_append p s = win_root_name p ++ s.
Proof.
  intros (c & r & -> & C & R). assert (RN : win_root_name (c :: r) = []).
  { apply root_none.
    - intros (d & t & D & E). destruct (drive_shape d D) as (x & -> & L). cbn [app] in E. injection E as -> _. apply separator_b in C. rewrite (letter_sep x L) in C. discriminate.
    - intros a b t E _. injection E as <- ->. destruct R as [R|(e & r' & R & N)]; [discriminate|]. injection R as <- <-. destruct (win_sep b) eqn:B; [|reflexivity]. elim N. now apply separator_b. }
  apply separator_b in C. assert (RD : win_has_root_directory (c :: r) = true) by (unfold win_has_root_directory, win_after_root_name; rewrite RN; exact C).
  unfold win_append, win_is_absolute, win_has_root_name. rewrite RD, RN. cbn [andb orb]. f_equal. unfold win_after_root_name. rewrite RN. reflexivity.
Qed.
Lemma path_windows_snoc abs a s : path_windows (mkpath abs (a ++ [s])) = win_append (path_windows (mkpath abs a)) s.
Proof. unfold path_windows. cbn [segments absolute]. rewrite fold_left_app. reflexivity. Qed.
