From Verif Require Import Base ModelUri ModelStream StreamFacts ModelXStream SpecXStream.
Local Open Scope list_scope.

Section Run.
Context {B : Type} (sputn : B -> str -> B * nat * taken) (lib : library).
Let X := @xstream B -> @xstream B * option exn.
Fixpoint xlist (l : list X) : X := match l with [] => xskip | a :: l => xthen a (xlist l) end.
Lemma xthen_assoc (a b c : X) os : xthen (xthen a b) c os = xthen a (xthen b c) os.
Proof. unfold xthen. destruct (a os) as [o [e|]]; reflexivity. Qed.
Lemma xlist_app a b os : xlist (a ++ b) os = xthen (xlist a) (xlist b) os.
Proof.
  revert os. induction a as [|x a IH]; intros os; cbn [app xlist]; [reflexivity|].
  rewrite xthen_assoc. unfold xthen in *. destruct (x os) as [o [e|]]; [reflexivity|]. rewrite IH. reflexivity.
Qed.
Definition xins (l : list str) : X := xlist (map (xinsert sputn lib) l).
Lemma xthen_ext (a a' b b' : X) os : (forall os, a os = a' os) -> (forall os, b os = b' os) -> xthen a b os = xthen a' b' os.
Proof. intros Ea Eb. unfold xthen. rewrite Ea. destruct (a' os) as [o [e|]]; [reflexivity|apply Eb]. Qed.
Lemma xins_app a b os : xins (a ++ b) os = xthen (xins a) (xins b) os.
Proof. unfold xins. rewrite map_app. apply xlist_app. Qed.
Lemma xins_one s os : xins [s] os = xinsert sputn lib s os.
Proof. cbn. unfold xthen, xskip. destruct (xinsert sputn lib s os) as [o [e|]]; reflexivity. Qed.
Lemma xins_two s t os : xins [s; t] os = xthen (xinsert sputn lib s) (xinsert sputn lib t) os.
Proof. cbn. apply xthen_ext; [reflexivity|]. intros o. apply (xins_one t o). Qed.
Lemma xauth_ins a os : xauthority sputn lib a os = xins (auth_pieces a) os.
Proof.
  unfold xauthority, auth_pieces. rewrite xins_app. apply xthen_ext; [|intros os1; rewrite xins_app; apply xthen_ext].
  - intros o. destruct (userinfo a) as [u|]; [|reflexivity]. symmetry. apply (xins_two u (ss "@")).
  - intros o. destruct (host a); [reflexivity|]. symmetry. apply xins_one.
  - intros o. destruct (port a) as [[|c q]|]; [| |reflexivity]; cbn [opt_pieces].
    + unfold xins. cbn [map xlist]. apply xthen_ext; reflexivity.
    + symmetry. apply xins_two.
Qed.
Definition before (p : parts) : list str :=
  opt_pieces (fun s => [s; ss ":"]) (p_scheme p)
  ++ match p_authority p with
     | Some a => ss "//" :: auth_pieces a ++ if negb (path_is_empty (p_path p)) && negb (absolute (p_path p)) then [ss "/"] else []
     | None => []
     end.
Definition behind (p : parts) : list str :=
  opt_pieces (fun q => [ss "?"; q]) (p_query p) ++ opt_pieces (fun f => [ss "#"; f]) (p_fragment p).
Lemma pieces_split p : pieces p = before p ++ path_string (p_path p) :: behind p.
Proof. unfold pieces, before, behind. rewrite <- app_assoc. reflexivity. Qed.
Lemma xparts_ins m p os :
  xparts sputn lib m p os = xthen (xins (before p)) (xthen (xpath sputn lib m (p_path p)) (xins (behind p))) os.
Proof.
  unfold xparts, before. rewrite <- xthen_assoc. apply xthen_ext.
  - intros o. rewrite xins_app. apply xthen_ext.
    + intros o1. destruct (p_scheme p); [|reflexivity]. symmetry. apply (xins_two s (ss ":")).
    + intros o1. destruct (p_authority p) as [a|]; [|reflexivity]. rewrite xthen_assoc.
      match goal with |- _ = xins (_ :: _ ++ ?r) _ =>
        change (xins (ss "//" :: auth_pieces a ++ r) o1) with (xthen (xinsert sputn lib (ss "//")) (xins (auth_pieces a ++ r)) o1) end.
      apply xthen_ext; [reflexivity|]. intros o2. rewrite xins_app. apply xthen_ext; [apply xauth_ins|].
      intros o3. destruct (_ && _)%bool; [|reflexivity]. symmetry. apply xins_one.
  - intros o. apply xthen_ext; [reflexivity|]. intros o1. unfold behind. rewrite xins_app. apply xthen_ext.
    + intros o2. destruct (p_query p); [|reflexivity]. symmetry. apply (xins_two (ss "?") s).
    + intros o2. destruct (p_fragment p); [|reflexivity]. symmetry. apply (xins_two (ss "#") s).
Qed.

(* what a sequence of insertions does *)
Lemma bits_or_meet a b m : bits_meet (bits_or a b) m = (bits_meet a m || bits_meet b m)%bool.
Proof. destruct a as [[] [] []], b as [[] [] []], m as [[] [] []]; reflexivity. Qed.
Definition fine (os : @xstream B) := isgood os = true.
Lemma good_state (os : xstream B) : isgood os = true -> state os = no_bits.
Proof. unfold isgood. destruct (state os) as [[] [] []]; cbn; intros Q; try discriminate Q; reflexivity. Qed.
Lemma good_with (os : xstream B) st : isgood (with_state st os) = negb (eofbit st || failbit st || badbit st).
Proof. reflexivity. Qed.
Lemma or_no b : bits_or no_bits b = b. Proof. destruct b; reflexivity. Qed.

Lemma not_good_insert s os : isgood os = false ->
  let '(os', e) := xinsert sputn lib s os in
  xout os' = xout os /\ xbuf os' = xbuf os /\ mask os' = mask os /\ isgood os' = false
  /\ (e = None -> bits_meet (state os) (mask os) = false -> bits_meet (state os') (mask os) = false)
  /\ (forall x, e = Some x -> x = failure /\ bits_meet (state os') (mask os) = true).
Proof.
  intros G. unfold xinsert. rewrite G. destruct (sentry_fails lib).
  - unfold setstate. cbn [xout xbuf mask with_state state]. repeat split.
    + unfold isgood in *. cbn [state]. destruct (state os) as [[] [] []]; cbn in *; congruence.
    + destruct (bits_meet _ _) eqn:E; congruence.
    + destruct (bits_meet _ _) eqn:E; congruence.
    + destruct (bits_meet _ _) eqn:E; [reflexivity|discriminate].
  - repeat split; auto; discriminate.
Qed.
Hypothesis H : honest sputn.
Hypothesis R : reports lib.
Lemma good_insert s os : isgood os = true -> xwidth os = 0 ->
  let '(os', e) := xinsert sputn lib s os in
  exists k, xout os' = xout os ++ firstn k s /\ mask os' = mask os
  /\ (isgood os' = true -> e = None /\ k = length s /\ xwidth os' = 0)
  /\ (e = None -> bits_meet (state os') (mask os) = false)
  /\ (forall x, e = Some x -> x <> bad_alloc /\ bits_meet (state os') (mask os) = true).
Proof.
  intros G W. unfold xinsert. rewrite G, W, padded_zero. pose proof (good_state os G) as E0.
  destruct (sputn (xbuf os) s) as [[b n] r] eqn:E. destruct (H _ _ _ _ _ E) as (L & La & Ls).
  destruct r; cbv zeta.
  - exists n. cbn [xout mask isgood state xwidth]. repeat split; auto; try discriminate. intros _. now rewrite E0; destruct (mask os).
  - unfold setstate. cbv zeta. exists n. cbn [xout mask state with_state]. rewrite E0, or_no. split; [reflexivity|]. split; [reflexivity|].
    split; [|split].
    + rewrite good_with. destruct R as [Q|Q]; rewrite Q, ?orb_true_r; discriminate.
    + destruct (bits_meet _ _); congruence.
    + intros x. destruct (bits_meet _ _); [|discriminate]. intros Q. injection Q as <-. now split.
  - exists n. cbn [xout mask state with_state]. rewrite E0, or_no. split; [reflexivity|]. split; [reflexivity|].
    split; [|split].
    + rewrite good_with. discriminate.
    + destruct (mask os) as [? ? []]; cbn; [discriminate|]. intros _. now rewrite ?andb_false_l.
    + intros x. destruct (mask os) as [? ? []]; cbn; [|discriminate]. intros Q. injection Q as <-. split; [discriminate|].
      now rewrite ?andb_false_l.
Qed.
Lemma not_good_ins l : forall os, isgood os = false ->
  let '(os', e) := xins l os in
  xout os' = xout os /\ xbuf os' = xbuf os /\ mask os' = mask os /\ isgood os' = false
  /\ (e = None -> bits_meet (state os) (mask os) = false -> bits_meet (state os') (mask os) = false)
  /\ (forall x, e = Some x -> x = failure /\ bits_meet (state os') (mask os) = true).
Proof.
  induction l as [|s l IH]; intros os G.
  - unfold xins. cbn. repeat split; auto; discriminate.
  - unfold xins in *. cbn [map xlist]. unfold xthen. pose proof (not_good_insert s os G) as I.
    destruct (xinsert sputn lib s os) as [o [e|]].
    + exact I.
    + destruct I as (I1 & I2 & I3 & I4 & I5 & _). specialize (IH o I4).
      destruct (xlist _ o) as [o' e']. destruct IH as (J1 & J2 & J3 & J4 & J5 & J6).
      rewrite I3 in *. repeat split; try congruence.
      * intros Q Q'. apply J5; auto.
      * exact (proj1 (J6 x H0)).
      * exact (proj2 (J6 x H0)).
Qed.
Lemma good_ins l : forall os, isgood os = true -> xwidth os = 0 ->
  let '(os', e) := xins l os in
  exists k, xout os' = xout os ++ firstn k (List.concat l) /\ mask os' = mask os
  /\ (isgood os' = true -> e = None /\ firstn k (List.concat l) = List.concat l /\ xwidth os' = 0)
  /\ (e = None -> bits_meet (state os') (mask os) = false)
  /\ (forall x, e = Some x -> x <> bad_alloc /\ bits_meet (state os') (mask os) = true).
Proof.
  induction l as [|s l IH]; intros os G W.
  - unfold xins. cbn. exists 0. rewrite app_nil_r. repeat split; auto; try discriminate.
    intros _. rewrite (good_state os G). now destruct (mask os).
  - unfold xins in *. cbn [map xlist]. unfold xthen. pose proof (good_insert s os G W) as I.
    destruct (xinsert sputn lib s os) as [o [e|]].
    + destruct I as (k & I1 & I2 & I3 & I4 & I5). exists (Nat.min k (length s)).
      cbn [List.concat]. rewrite firstn_app. replace (Nat.min k (length s) - length s) with 0 by lia.
      rewrite firstn_O, app_nil_r. assert (F : firstn (Nat.min k (length s)) s = firstn k s).
      { destruct (Nat.le_ge_cases k (length s)); [rewrite Nat.min_l by lia; reflexivity|].
        rewrite Nat.min_r, !firstn_all2 by lia. reflexivity. }
      rewrite F. split; [exact I1|]. split; [exact I2|]. split; [|split; [exact I4|exact I5]].
      intros Q. destruct (I3 Q). discriminate.
    + destruct I as (k & I1 & I2 & I3 & I4 & I5). destruct (isgood o) eqn:Go.
      * destruct (I3 eq_refl) as (_ & Ek & Wo). specialize (IH o Go Wo). destruct (xlist _ o) as [o' e'].
        destruct IH as (k' & J1 & J2 & J3 & J4 & J5). exists (length s + k').
        cbn [List.concat]. rewrite firstn_app_2. rewrite I2 in *. subst k. rewrite firstn_all in I1.
        rewrite J1, I1, <- app_assoc. split; [reflexivity|]. split; [exact J2|].
        split; [|split; [exact J4|exact J5]]. intros Q. destruct (J3 Q) as (Q1 & Q2 & Q3). rewrite Q2. auto.
      * pose proof (not_good_ins l o Go) as J. unfold xins in J. destruct (xlist _ o) as [o' e'].
        destruct J as (J1 & J2 & J3 & J4 & J5 & J6). rewrite I2 in *. exists (Nat.min k (length s)).
        cbn [List.concat]. rewrite firstn_app. replace (Nat.min k (length s) - length s) with 0 by lia.
        rewrite firstn_O, app_nil_r. assert (F : firstn (Nat.min k (length s)) s = firstn k s).
        { destruct (Nat.le_ge_cases k (length s)); [rewrite Nat.min_l by lia; reflexivity|].
          rewrite Nat.min_r, !firstn_all2 by lia. reflexivity. }
        rewrite F, J1, I1. split; [reflexivity|]. split; [exact J3|]. split; [congruence|]. split.
        -- intros Q. apply J5; auto.
        -- intros x Q. destruct (J6 x Q) as [-> Q']. split; [discriminate|exact Q'].
Qed.
Lemma watched_insert s os o : watches lib (mask os) -> isgood os = true -> xinsert sputn lib s os = (o, None) -> isgood o = true.
Proof.
  intros [Wb Ws] G. unfold xinsert. rewrite G. destruct (sputn _ _) as [[b n] r]. destruct r; cbv zeta.
  - intros Q. injection Q as <-. exact G.
  - unfold setstate. cbn [mask state with_state]. rewrite bits_or_meet, Ws, orb_true_r. discriminate.
  - cbn [mask]. rewrite Wb. discriminate.
Qed.
Lemma watched_ins l : forall os o, watches lib (mask os) -> isgood os = true -> xwidth os = 0 -> xins l os = (o, None) -> isgood o = true.
Proof.
  induction l as [|s l IH]; intros os o Wa G W; unfold xins in *; cbn [map xlist].
  - intros Q. injection Q as <-. exact G.
  - unfold xthen. pose proof (good_insert s os G W) as I. destruct (xinsert sputn lib s os) as [o1 [e|]] eqn:E; [discriminate|].
    pose proof (watched_insert s os o1 Wa G E) as G1. destruct I as (k & I1 & I2 & I3 & _). destruct (I3 G1) as (_ & _ & W1).
    apply IH; auto. now rewrite I2.
Qed.
End Run.

Section Parts.
Context {B : Type} (sputn : B -> str -> B * nat * taken) (lib : library).
Hypothesis H : honest sputn.
Hypothesis R : reports lib.
Lemma xparts_memory p os : xparts sputn lib true p os = xins sputn lib (pieces p) os.
Proof.
  rewrite xparts_ins, pieces_split, xins_app. apply xthen_ext; [reflexivity|]. intros o. reflexivity.
Qed.
Lemma compose_split p : compose p = List.concat (before p) ++ List.concat (path_string (p_path p) :: behind p).
Proof. rewrite <- pieces_concat, pieces_split. apply concat_app. Qed.
Lemma xparts_good m p os : isgood os = true -> xwidth os = 0 ->
  let '(os', e) := xparts sputn lib m p os in
  exists k, xout os' = xout os ++ firstn k (compose p) /\ mask os' = mask os
  /\ (e = None -> isgood os' = true -> firstn k (compose p) = compose p)
  /\ (e = None -> bits_meet (state os') (mask os) = false)
  /\ (forall x, e = Some x -> (x = bad_alloc /\ m = false) \/ (x <> bad_alloc /\ bits_meet (state os') (mask os) = true))
  /\ (m = false -> e <> None).
Proof.
  intros G W. destruct m.
  - rewrite xparts_memory. pose proof (good_ins sputn lib H R (pieces p) os G W) as I.
    destruct (xins _ _ _ os) as [os' e]. rewrite pieces_concat in I. destruct I as (k & I1 & I2 & I3 & I4 & I5).
    exists k. split; [exact I1|]. split; [exact I2|]. split; [|split; [exact I4|split]].
    + intros _ Q. apply (proj1 (proj2 (I3 Q))).
    + intros x Q. right. now apply I5.
    + discriminate.
  - rewrite xparts_ins. pose proof (good_ins sputn lib H R (before p) os G W) as I. unfold xthen at 1.
    destruct (xins _ _ _ os) as [o e]. destruct I as (k & I1 & I2 & I3 & I4 & I5).
    assert (F : firstn k (List.concat (before p)) = firstn (Nat.min k (length (List.concat (before p)))) (compose p)).
    { rewrite compose_split, firstn_app.
      replace (Nat.min k (length (List.concat (before p))) - length (List.concat (before p))) with 0 by lia.
      rewrite firstn_O, app_nil_r. destruct (Nat.le_ge_cases k (length (List.concat (before p)))); [now rewrite Nat.min_l by lia|].
      rewrite Nat.min_r, !firstn_all2 by lia. reflexivity. }
    rewrite F in I1. destruct e as [x|].
    + eexists. split; [exact I1|]. split; [exact I2|]. split; [discriminate|]. split; [discriminate|]. split; [|discriminate].
      intros y Q. right. now apply I5.
    + cbn. eexists. split; [exact I1|]. split; [exact I2|]. split; [discriminate|]. split; [discriminate|]. split; [|discriminate].
      intros y Q. injection Q as <-. now left.
Qed.
Lemma xparts_watched m p os o : watches lib (mask os) -> isgood os = true -> xwidth os = 0 ->
  xparts sputn lib m p os = (o, None) -> isgood o = true.
Proof.
  intros Wa G W E. pose proof (xparts_good m p os G W) as I. rewrite E in I. destruct I as (_ & _ & _ & _ & _ & _ & I).
  destruct m; [|now destruct (I eq_refl)]. rewrite xparts_memory in E. exact (watched_ins sputn lib H R _ _ _ Wa G W E).
Qed.
Lemma xparts_bad m p os : isgood os = false ->
  let '(os', e) := xparts sputn lib m p os in
  xout os' = xout os /\ xbuf os' = xbuf os /\ isgood os' = false
  /\ (forall x, e = Some x -> (x = bad_alloc /\ m = false) \/ (x = failure /\ bits_meet (state os') (mask os) = true)).
Proof.
  intros G. rewrite xparts_ins. unfold xthen at 1. pose proof (not_good_ins sputn lib (before p) os G) as I.
  destruct (xins _ _ (before p) os) as [o [e|]]; destruct I as (I1 & I2 & I3 & I4 & I5 & I6).
  - repeat split; auto.
  - unfold xthen, xpath. destruct m.
    + pose proof (not_good_insert sputn lib (path_string (p_path p)) o I4) as J.
      destruct (xinsert _ _ _ o) as [o1 [e|]]; destruct J as (J1 & J2 & J3 & J4 & J5 & J6).
      * rewrite I3 in *. repeat split; try congruence. intros x Q. right. now apply J6.
      * pose proof (not_good_ins sputn lib (behind p) o1 J4) as K.
        destruct (xins _ _ (behind p) o1) as [o2 e]; destruct K as (K1 & K2 & K3 & K4 & K5 & K6).
        rewrite J3, I3 in *. repeat split; try congruence. intros x Q. right. now apply K6.
    + repeat split; auto. intros x Q. injection Q as <-. now left.
Qed.
End Parts.

Section Str.
Variable refused : nat -> bool.
Variable grow : nat -> nat.
Variable limit : option nat.
Notation put := (sb_put refused grow limit).
Lemma sb_put_honest s : forall b d, let '(b', n, r) := put s b d in
  d <= n <= d + length s /\ (r = All -> n = d + length s) /\ (r = Short -> n < d + length s).
Proof.
  induction s as [|c s IH]; intros b d; cbn [sb_put length].
  - repeat split; try lia; congruence.
  - destruct (Nat.ltb _ _).
    + specialize (IH (mkmem (S (used b)) (capacity b) (requests b)) (S d)). destruct (put s _ _) as [[b' n] r].
      destruct IH as (I1 & I2 & I3). repeat split; try lia; intros Q; [specialize (I2 Q)|specialize (I3 Q)]; lia.
    + destruct (negb _); [repeat split; try lia; congruence|].
      destruct (refused _); [repeat split; try lia; congruence|].
      specialize (IH (mkmem (S (used b)) (Nat.max (grow (capacity b)) (S (used b))) (S (requests b))) (S d)).
      destruct (put s _ _) as [[b' n] r].
      destruct IH as (I1 & I2 & I3). repeat split; try lia; intros Q; [specialize (I2 Q)|specialize (I3 Q)]; lia.
Qed.
Lemma sb_honest : honest (sb_sputn refused grow limit).
Proof.
  intros b s b' n r E. unfold sb_sputn in E. pose proof (sb_put_honest s b 0) as I. rewrite E in I. cbn in I.
  intuition lia.
Qed.
Lemma sb_all s : (forall k, refused k = false) -> forall b d, (forall m, limit = Some m -> used b + length s <= m) ->
  exists b', put s b d = (b', d + length s, All) /\ used b' = used b + length s.
Proof.
  intros F. induction s as [|c s IH]; intros b d L; cbn [sb_put length] in *.
  - exists b. rewrite !Nat.add_0_r. auto.
  - assert (W : within limit (used b) = true).
    { unfold within. destruct limit as [m|]; [|reflexivity]. apply Nat.ltb_lt. specialize (L m eq_refl). lia. }
    rewrite W, F. cbn [negb]. destruct (Nat.ltb _ _).
    + destruct (IH (mkmem (S (used b)) (capacity b) (requests b)) (S d)) as (b' & E1 & E2).
      { intros m Q. specialize (L m Q). cbn. lia. }
      exists b'. rewrite E1, E2. cbn. split; [repeat f_equal|]; lia.
    + destruct (IH (mkmem (S (used b)) (Nat.max (grow (capacity b)) (S (used b))) (S (requests b))) (S d)) as (b' & E1 & E2).
      { intros m Q. specialize (L m Q). cbn. lia. }
      exists b'. rewrite E1, E2. cbn. split; [repeat f_equal|]; lia.
Qed.
(* the first request for more memory is refused *)
Lemma sb_first s : refused 0 = true -> limit = None -> forall b d, requests b = 0 -> used b <= capacity b ->
  exists b', put s b d = (b', d + Nat.min (length s) (capacity b - used b), if Nat.leb (used b + length s) (capacity b) then All else Threw)
    /\ used b' = Nat.min (used b + length s) (capacity b) /\ capacity b' = capacity b
    /\ (used b + length s <= capacity b -> requests b' = 0).
Proof.
  intros F L. induction s as [|c s IH]; intros b d Q C; cbn [sb_put length].
  - exists b. rewrite (proj2 (Nat.leb_le _ _)) by lia. rewrite !Nat.add_0_r. repeat split; auto. lia.
  - destruct (Nat.ltb_spec (used b) (capacity b)) as [U|U].
    + destruct (IH (mkmem (S (used b)) (capacity b) (requests b)) (S d) Q) as (b' & E1 & E2 & E3 & E4); [cbn; lia|].
      cbn [used capacity] in *. exists b'. rewrite E1. replace (S (used b) + length s) with (used b + S (length s)) in * by lia.
      repeat split; auto. f_equal. f_equal. lia.
    + unfold within. rewrite L, Q, F. cbn [negb]. eexists. split; [|split; [|split]].
      * rewrite (proj2 (Nat.leb_gt _ _)) by lia. replace (Nat.min (S (length s)) (capacity b - used b)) with 0 by lia.
        rewrite Nat.add_0_r. reflexivity.
      * cbn. lia.
      * reflexivity.
      * lia.
Qed.
End Str.
Lemma all_ins refused grow limit lib l : (forall k, refused k = false) -> forall os, isgood os = true -> xwidth os = 0 ->
  (forall m, limit = Some m -> used (xbuf os) + length (List.concat l) <= m) ->
  exists os', xins (sb_sputn refused grow limit) lib l os = (os', None) /\ xout os' = xout os ++ List.concat l.
Proof.
  intros F. induction l as [|s l IH]; intros os G W L; cbn [List.concat] in *.
  - exists os. rewrite app_nil_r. auto.
  - destruct (sb_all refused grow limit s F (xbuf os) 0) as (b & E1 & E2).
    { intros m Q. specialize (L m Q). rewrite app_length in L. lia. }
    unfold xins in *. cbn [map xlist]. unfold xthen at 1, xinsert at 1. rewrite G, W, padded_zero. unfold sb_sputn at 1. rewrite E1.
    cbn [Nat.add]. rewrite firstn_all.
    destruct (IH (mkx (xout os ++ s) b (state os) (mask os) 0 (xfill os) (xleft os)) G eq_refl) as (os' & I1 & I2).
    { intros m Q. specialize (L m Q). rewrite app_length in L. cbn [xbuf]. rewrite E2. lia. }
    exists os'. rewrite I1, I2. cbn [xout]. rewrite app_assoc. auto.
Qed.
Lemma first_ins refused grow lib l : refused 0 = true -> forall os, isgood os = true -> xwidth os = 0 -> mask os = no_bits ->
  requests (xbuf os) = 0 -> used (xbuf os) = length (xout os) -> length (xout os) <= capacity (xbuf os) ->
  exists os', xins (sb_sputn refused grow None) lib l os = (os', None)
    /\ xout os' = firstn (capacity (xbuf os)) (xout os ++ List.concat l).
Proof.
  intros F. induction l as [|s l IH]; intros os G W M Q U C; cbn [List.concat] in *.
  - exists os. rewrite app_nil_r, firstn_all2 by exact C. auto.
  - destruct (sb_first refused grow None s F eq_refl (xbuf os) 0 Q) as (b & E1 & E2 & E3 & E4); [lia|].
    unfold xins in *. cbn [map xlist]. unfold xthen at 1, xinsert at 1. rewrite G, W, padded_zero. unfold sb_sputn at 1. rewrite E1.
    cbn [Nat.add]. destruct (Nat.leb_spec (used (xbuf os) + length s) (capacity (xbuf os))) as [A|A].
    + rewrite Nat.min_l by lia. rewrite firstn_all.
      destruct (IH (mkx (xout os ++ s) b (state os) (mask os) 0 (xfill os) (xleft os)) G eq_refl M) as (os' & I1 & I2).
      * cbn [xbuf]. auto.
      * cbn [xbuf xout]. rewrite E2, app_length, U. lia.
      * cbn [xbuf xout]. rewrite E3, app_length. lia.
      * exists os'. rewrite I1, I2. cbn [xout xbuf]. rewrite E3, app_assoc. auto.
    + cbn [mask]. rewrite M. cbn [badbit no_bits].
      match goal with |- context [xlist _ ?o] => pose proof (not_good_ins (sb_sputn refused grow None) lib l o) as J; unfold xins in J; set (o1 := o) in * end.
      assert (N1 : isgood o1 = false).
      { subst o1. rewrite good_with. cbn [state bits_or failbit badbit eofbit]. now rewrite !orb_true_r. }
      specialize (J N1). destruct (xlist _ o1) as [o2 e]. destruct J as (J1 & J2 & J3 & J4 & J5 & J6).
      destruct e as [x|]. { destruct (J6 x eq_refl) as [_ Z]. subst o1. cbn [mask with_state] in Z.
        revert Z. clear. destruct (state o2) as [[] [] []]; discriminate. }
      exists o2. split; [reflexivity|]. rewrite J1. subst o1. cbn [xout with_state]. rewrite U in *.
      rewrite firstn_app, (firstn_all2 (xout os)) by lia. f_equal.
      rewrite firstn_app. replace (capacity (xbuf os) - length (xout os) - length s) with 0 by lia.
      rewrite firstn_O, app_nil_r. f_equal. lia.
Qed.

(* the streams of ModelStream.v *)
Definition same (os : xstream nat) (o : stream) : Prop :=
  xout os = out o /\ room o = Some (xbuf os) /\ isgood os = good o /\ mask os = no_bits
  /\ xwidth os = width o /\ xfill os = fill o /\ xleft os = left o.
Lemma meet_none b : bits_meet b no_bits = false. Proof. destruct b as [[] [] []]; reflexivity. Qed.
Lemma same_insert lib s os o : reports lib -> same os o ->
  exists os', xinsert fixed lib s os = (os', None) /\ same os' (insert s o).
Proof.
  intros R (S1 & S2 & S3 & S4 & S5 & S6 & S7). unfold xinsert, insert. rewrite <- S3. destruct (isgood os) eqn:G.
  - rewrite S5, S6, S7. set (t := padded _ _ _ s). unfold fixed. rewrite S2. cbn [accepted option_map].
    assert (F : firstn (Nat.min (xbuf os) (length t)) t = firstn (xbuf os) t).
    { destruct (Nat.le_ge_cases (xbuf os) (length t)); [now rewrite Nat.min_l by lia|].
      rewrite Nat.min_r, !firstn_all2 by lia. reflexivity. }
    pose proof (good_state os G) as E0. destruct (Nat.leb (length t) (xbuf os)).
    + eexists. split; [reflexivity|]. unfold same. cbn. rewrite F, S1. repeat split; auto.
    + unfold setstate. cbn [mask state with_state]. rewrite S4, meet_none. eexists. split; [reflexivity|].
      unfold same. cbn [xout xbuf mask with_state out room good width fill left xwidth xfill xleft]. rewrite F, S1. repeat split; auto.
      rewrite good_with, E0, or_no. destruct R as [Q|Q]; rewrite Q, ?orb_true_r; reflexivity.
  - destruct (sentry_fails lib).
    + unfold setstate. cbn [mask state with_state]. rewrite S4, meet_none. eexists. split; [reflexivity|].
      unfold same. cbn [xout xbuf mask with_state xwidth xfill xleft]. repeat split; auto.
      rewrite <- S3, good_with. unfold isgood in G. destruct (state os) as [[] [] []]; cbn in *; congruence.
    + eexists. split; [reflexivity|]. unfold same. repeat split; auto. congruence.
Qed.
Lemma same_ins lib l : reports lib -> forall os o, same os o ->
  let '(os', e) := xins fixed lib l os in same os' (inserts l o) /\ e = None.
Proof.
  intros R. induction l as [|s l IH]; intros os o S; unfold xins in *; cbn [map xlist].
  - cbn. auto.
  - unfold xthen. destruct (same_insert lib s os o R S) as (os1 & E & S1). rewrite E. specialize (IH os1 _ S1).
    rewrite inserts_cons. exact IH.
Qed.
