From Verif Require Import Base ModelUri ModelFs SpecStore SpecFs PartsHost.
Local Open Scope list_scope.

Lemma string_loop segs : forall sep p, path_string_loop sep segs p = p ++ match segs with [] => [] | _ => sep ++ slashed segs end.
Proof.
  induction segs as [|s segs IH]; intros sep p; cbn [path_string_loop]; [now rewrite app_nil_r|].
  rewrite IH. rewrite <- !app_assoc. f_equal. f_equal. destruct segs as [|s' segs]; [apply app_nil_r|reflexivity].
Qed.
Lemma c32_string p : path_string p = (if absolute p then match segments p with [] => [] | _ => ["/"%char] end else []) ++ slashed (segments p).
Proof. unfold path_string. rewrite string_loop. cbn [app]. destruct (segments p), (absolute p); reflexivity. Qed.
Lemma c32_recovers p : segments p <> [] -> slash_free (segments p) -> forall l, labels slash (path_string p) l <-> l = if absolute p then [] :: segments p else segments p.
Proof.
  intros N F l. assert (X : labels slash (path_string p) (if absolute p then [] :: segments p else segments p)).
  { rewrite c32_string. destruct (segments p) as [|s segs]; [contradiction|]. destruct (absolute p).
    - exists [], (s :: segs). split; [reflexivity|]. split; [reflexivity|]. constructor; [intros []|exact F].
    - exists s, segs. auto. }
  split; [intros H; eapply labels_fun; eassumption|intros ->; exact X].
Qed.

(* --- filesystem --- *)
Definition shape (root : bool) (segs : list str) : str :=
  (if root then ["/"%char] else []) ++ slashed (filter nonempty segs)
  ++ (if match rev segs with [] :: _ => negb (match filter nonempty segs with [] => true | _ => false end) | _ => false end then ["/"%char] else []).
Lemma slashed_snoc l s : slashed (l ++ [s]) = match l with [] => s | _ => slashed l ++ slash :: s end.
Proof.
  destruct l as [|a l]; [reflexivity|]. cbn [app slashed]. revert a. induction l as [|b l IH]; intros a; cbn [app joined]; [reflexivity|]. rewrite IH, <- app_assoc. reflexivity.
Qed.
Lemma slashed_last l : l <> [] -> Forall (fun s => s <> [] /\ ~ In slash s) l -> exists t c, slashed l = t ++ [c] /\ c <> slash.
Proof.
  intros N F. destruct (exists_last N) as (l' & s & ->). apply Forall_app in F as [_ F]. inversion F as [|? ? [NE NS] _]; subst. destruct (exists_last NE) as (s' & c & ->).
  assert (NC : c <> slash) by (intros ->; apply NS, in_or_app; right; left; reflexivity).
  rewrite slashed_snoc. destruct l' as [|a l']; [exists s', c; auto|]. exists (slashed (a :: l') ++ slash :: s'), c. split; [|exact NC]. rewrite <- app_assoc. reflexivity.
Qed.
Lemma has_filename_snoc t c : fs_has_filename (t ++ [c]) = negb (Ascii.eqb c "/").
Proof. unfold fs_has_filename. rewrite rev_app_distr. reflexivity. Qed.
Lemma filter_good segs : slash_free segs -> Forall (fun s => s <> [] /\ ~ In slash s) (filter nonempty segs).
Proof. induction 1 as [|s segs H _ IH]; cbn; [constructor|]. destruct s; [exact IH|]. constructor; [split; [discriminate|exact H]|exact IH]. Qed.
Lemma shape_append root segs s : slash_free segs -> ~ In slash s -> fs_append (shape root segs) s = shape root (segs ++ [s]).
Proof.
  intros F NS. pose proof (filter_good segs F) as FG.
  assert (A : fs_is_absolute s = false).
  { destruct s as [|c s]; [reflexivity|]. cbn. apply Ascii.eqb_neq. intros ->. apply NS. left. reflexivity. }
  unfold fs_append. rewrite A. unfold shape. rewrite filter_app, rev_app_distr. cbn [rev app filter].
  destruct (filter nonempty segs) as [|a l] eqn:Ef.
  - assert (X : fs_has_filename ((if root then ["/"%char] else []) ++ [] ++ (if match rev segs with [] :: _ => negb true | _ => false end then ["/"%char] else [])) = false).
    { destruct (rev segs) as [|[|] ?], root; reflexivity. }
    cbn [slashed] in *. rewrite X. assert (Y : (if match rev segs with [] :: _ => negb true | _ => false end then ["/"%char] else []) = []) by (destruct (rev segs) as [|[|] ?]; reflexivity).
    rewrite Y. cbn [app]. rewrite app_nil_r. destruct s as [|c s]; cbn [nonempty app slashed joined negb]; rewrite ?app_nil_r; reflexivity.
  - destruct (slashed_last (a :: l) ltac:(discriminate) FG) as (t & c & Et & Hc).
    assert (Z : filter nonempty [s] = match s with [] => [] | _ => [s] end) by (destruct s; reflexivity). cbn [filter] in Z. rewrite Z. clear Z.
    cbn [negb]. destruct (match rev segs with [] :: _ => true | _ => false end) eqn:Er.
    + rewrite app_assoc, has_filename_snoc. cbn [negb Ascii.eqb Bool.eqb]. destruct s as [|c0 s].
      * rewrite !app_nil_r. rewrite <- app_assoc. reflexivity.
      * rewrite slashed_snoc. cbn [app]. rewrite app_nil_r, <- !app_assoc. reflexivity.
    + rewrite app_nil_r. assert (HF : fs_has_filename ((if root then ["/"%char] else []) ++ slashed (a :: l)) = true).
      { rewrite Et, app_assoc, has_filename_snoc. apply Ascii.eqb_neq in Hc. unfold slash in Hc. now rewrite Hc. }
      rewrite HF.
      destruct s as [|c0 s].
      * rewrite !app_nil_r. rewrite <- app_assoc. reflexivity.
      * rewrite slashed_snoc. cbn [app]. rewrite app_nil_r, <- !app_assoc. reflexivity.
Qed.
Lemma fold_shape root segs : forall done, slash_free done -> slash_free segs -> fold_left fs_append segs (shape root done) = shape root (done ++ segs).
Proof.
  induction segs as [|s segs IH]; intros done D F; cbn [fold_left]; [now rewrite app_nil_r|]. inversion F; subst.
  rewrite shape_append by assumption. rewrite IH; [now rewrite <- app_assoc|apply Forall_app; split; [exact D|constructor; [assumption|constructor]]|assumption].
Qed.
Lemma fs_shape p : slash_free (segments p) -> path_filesystem p = shape (absolute p) (segments p).
Proof.
  intros F. unfold path_filesystem. assert (X : (if absolute p then fs_append [] (ss "/") else []) = shape (absolute p) []) by (destruct (absolute p); reflexivity).
  rewrite X, fold_shape; [reflexivity|constructor|exact F].
Qed.
Lemma ends_iff (l : list str) : match rev l with [] :: _ => true | _ => false end = true <-> ends_empty l.
Proof.
  unfold ends_empty. split.
  - destruct (rev l) as [|[|] m] eqn:E; try discriminate. intros _. exists (rev m). rewrite <- (rev_involutive l), E. reflexivity.
  - intros (l' & ->). rewrite rev_app_distr. reflexivity.
Qed.
Lemma c32_filesystem p : slash_free (segments p) -> let names := filter nonempty (segments p) in
  exists tail, path_filesystem p = (if absolute p then ["/"%char] else []) ++ slashed names ++ tail
  /\ (tail = ["/"%char] /\ names <> [] /\ ends_empty (segments p) \/ tail = [] /\ (names = [] \/ ~ ends_empty (segments p))).
Proof.
  intros F names. rewrite fs_shape by exact F. unfold shape. fold names. eexists. split; [reflexivity|].
  pose proof (ends_iff (segments p)) as E. destruct names as [|n ns].
  - right. split; [destruct (rev (segments p)) as [|[|] ?]; reflexivity|left; reflexivity].
  - destruct (rev (segments p)) as [|[|] m]; cbn [negb].
    + right. split; [reflexivity|]. right. rewrite <- E. discriminate.
    + left. split; [reflexivity|]. split; [discriminate|]. now apply E.
    + right. split; [reflexivity|]. right. rewrite <- E. discriminate.
Qed.
Lemma c32_rooted p : slash_free (segments p) -> (fs_is_absolute (path_filesystem p) = true <-> absolute p = true).
Proof.
  intros F. rewrite fs_shape by exact F. unfold shape. destruct (absolute p); cbn [app fs_is_absolute]; [split; reflexivity|].
  split; [|discriminate]. pose proof (filter_good _ F) as G. destruct (filter nonempty (segments p)) as [|n ns].
  - cbn [slashed app]. destruct (rev (segments p)) as [|[|] ?]; discriminate.
  - inversion G as [|? ? [NE NS] _]; subst. destruct n as [|c n]; [contradiction|]. assert (X : Ascii.eqb c "/" = false) by (apply Ascii.eqb_neq; intros ->; apply NS; left; reflexivity).
    destruct ns; cbn [slashed joined app fs_is_absolute]; rewrite X; discriminate.
Qed.
Lemma c32_replaced abs a s b r : s = slash :: r -> path_filesystem (mkpath abs (a ++ s :: b)) = path_filesystem (mkpath false (s :: b)).
Proof.
  intros ->. unfold path_filesystem. cbn [segments absolute]. rewrite fold_left_app. cbn [fold_left]. f_equal.
Qed.
