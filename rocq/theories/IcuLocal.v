(* C50: errors in UTF-8 and UTF-16 stay local and nothing is invented. *)
From Verif Require Import Base ModelIcu SpecIcu SpecPath SpecLocal PathFacts IcuUtf8 IcuRead8 IcuEnc IcuProps.
From Coq Require Import ZifyBool ZifyN.
Local Open Scope N_scope.
Local Open Scope list_scope.

Definition contb (b : N) : Prop := 0x80 <= b /\ b <= 0xBF.
Lemma utf8_shape c w : utf8_of c w -> exists a v, w = a :: v /\ Forall contb v /\ ~ contb a /\ (v <> [] -> 0xC2 <= a).
Proof.
  intros U. apply utf8_row in U. unfold contb, between in *. destruct U; unfold between in *; do 2 eexists;
    (split; [reflexivity|]); (split; [repeat constructor; unfold contb; lia|]); (split; [lia|]); intros; try congruence; lia.
Qed.
Lemma incomplete_shape p : p <> [] -> incomplete8 p -> exists a v, p = a :: v /\ Forall contb v /\ 0xC2 <= a.
Proof.
  intros Hp (c & q & Hq & U). destruct p as [|a v]; [congruence|]. destruct (utf8_shape _ _ U) as (a' & v' & E & F & _ & L).
  cbn in E. inversion E; subst. exists a', v. split; auto. apply Forall_app in F. split; [tauto|]. apply L. destruct v; [exact Hq|discriminate].
Qed.

(* --- restart where no form is under way --------------------------------------------------------------- *)
Lemma no_incomplete_app x y : no_incomplete_end (x ++ y) -> no_incomplete_end y.
Proof. intros H j p -> Hp. apply (H (x ++ j) p); [now rewrite app_assoc|exact Hp]. Qed.
Lemma restart8 l o k : reads8 l o k -> no_incomplete_end l -> forall l2 o2 k2, reads8 l2 o2 k2 -> reads8 (l ++ l2) (o ++ o2) (k && k2).
Proof.
  induction 1 as [|c w us cs ok U R IH|p b us cs ok Hp Hi Hc R IH|p Hp Hi]; intros A l2 o2 k2 R2.
  - exact R2.
  - rewrite <- app_assoc. cbn [app]. apply r8_good; auto. apply IH; auto. eapply no_incomplete_app; exact A.
  - rewrite <- app_assoc. cbn [app]. cbn [andb]. eapply r8_bad; eauto. apply IH; eauto. apply (no_incomplete_app (p ++ [b])). now rewrite <- app_assoc.
  - exfalso. exact (A [] p eq_refl Hp Hi).
Qed.
Lemma ascii_no_incomplete l a : a < 0x80 -> no_incomplete_end (l ++ [a]).
Proof.
  intros Ha j p E Hp Hi. destruct (incomplete_shape _ Hp Hi) as (x & v & Ep & F & Hx). subst p.
  destruct v as [|y v _] using rev_ind.
  - apply app_inj_tail in E. lia.
  - rewrite app_comm_cons, app_assoc in E. apply app_inj_tail in E. destruct E as [_ ->]. apply Forall_app in F. destruct F as [_ F].
    inversion F as [|? ? [Hy _] _]; subst. lia.
Qed.

(* --- nothing is invented ----------------------------------------------------------------------------- *)
Lemma asciis_app a b : asciis (a ++ b) = asciis a ++ asciis b.
Proof. apply filter_app. Qed.
Lemma asciis_none l : Forall (fun u => 0x80 <= u) l -> asciis l = [].
Proof. induction 1 as [|x l Hx _ IH]; cbn; auto. destruct (x <? 0x80) eqn:E; [lia|auto]. Qed.
Lemma utf8_asciis c w : utf8_of c w -> asciis w = asciis [c].
Proof.
  intros [c' H|c' H1 H2|c' H1 H2 H3|c' H1 H2]; [reflexivity|..]; rewrite !asciis_none; auto; repeat constructor; try lia.
Qed.
Lemma invent8 l o k : reads8 l o k -> subseq (asciis o) (asciis l) /\ (k = true -> asciis o = asciis l).
Proof.
  induction 1 as [|c w us cs ok U R [IH1 IH2]|p b us cs ok Hp Hi Hc R [IH1 IH2]|p Hp Hi].
  - split; [constructor|auto].
  - change (c :: cs) with ([c] ++ cs). rewrite !asciis_app, (utf8_asciis c w U). split.
    + apply subseq_app; [apply subseq_refl|exact IH1]. + intros E. now rewrite IH2.
  - split; [|discriminate]. change (fffd :: cs) with ([fffd] ++ cs). change (p ++ b :: us) with (p ++ [b] ++ us). rewrite !asciis_app.
    change (asciis [fffd]) with (@nil N). cbn [app]. rewrite app_assoc. change (asciis cs) with ([] ++ asciis cs). apply subseq_app; [apply subseq_nil|exact IH1].
  - split; [|discriminate]. change (asciis [fffd]) with (@nil N). apply subseq_nil.
Qed.

(* --- errors are local --------------------------------------------------------------------------------- *)
Lemma reads8_conts v us cs : Forall contb v -> text utf8_of cs us ->
  exists ok, reads8 (v ++ us) (map (fun _ => fffd) v ++ cs) ok.
Proof.
  intros F T. induction F as [|b v Hb _ IH].
  - exists true. now apply text_reads8.
  - destruct IH as [ok IH]. exists false. apply (r8_bad [] b (v ++ us) _ ok); auto; unfold contb in Hb.
    + intros H. destruct (incomplete_shape [b] ltac:(discriminate) H) as (a & w & E & _ & Ha). inversion E; subst. lia.
    + intros (c & U). destruct (utf8_shape _ _ U) as (a & w & E & _ & Ha & _). inversion E; subst. apply Ha. exact Hb.
Qed.
Lemma app_cases {T} (x : list T) : forall y j r, x ++ y = j ++ r ->
  (exists j2, j = x ++ j2 /\ y = j2 ++ r) \/ (exists z, z <> [] /\ x = j ++ z /\ z ++ y = r).
Proof.
  induction x as [|a x IH]; intros y j r E.
  - left. exists j. auto.
  - destruct j as [|b j]; [right; exists (a :: x); repeat split; auto; discriminate|]. cbn in E. inversion E; subst.
    destruct (IH _ _ _ H1) as [(j2 & -> & ->)|(z & Hz & -> & E2)]; [left; exists j2; auto|right; exists z; auto].
Qed.
Lemma reads8_unique l o k o' k' : Forall (fun u => u < 256) l -> reads8 l o k -> reads8 l o' k' -> o = o' /\ k = k'.
Proof. intros B R R'. apply transcode_8_32 in R; auto. apply transcode_8_32 in R'; auto. rewrite R in R'. inversion R'; auto. Qed.
(* a byte that is not a continuation byte cannot stand inside a form *)
Lemma not_inside j a z v c q : j <> [] -> ~ contb a -> utf8_of c q -> q = (j ++ a :: z) ++ v -> False.
Proof.
  intros Hj Ha U ->. destruct (utf8_shape _ _ U) as (x & t & E & F & _ & _). destruct j as [|y j]; [congruence|]. cbn in E. inversion E; subst.
  rewrite <- app_assoc in F. apply Forall_app in F. destruct F as [_ F]. inversion F; auto.
Qed.
Section Local.
Variables (c : N) (w cs us : list N).
Hypothesis U : utf8_of c w.
Hypothesis T : text utf8_of cs us.
Lemma us_bytes : Forall (fun u => u < 256) us. Proof. eapply text_bytes8; exact T. Qed.
Lemma w_split : exists a v, w = a :: v /\ ~ contb a /\ Forall contb v /\ Forall (fun u => u < 256) v.
Proof.
  destruct (utf8_shape _ _ U) as (a & v & E & F & Ha & _). exists a, v. repeat split; auto.
  pose proof (utf8_bytes _ _ U) as B. rewrite E in B. inversion B; auto.
Qed.
Lemma good_start o k : reads8 (w ++ us) o k -> o = c :: cs.
Proof.
  intros R. eapply reads8_unique; [|exact R|apply r8_good; [exact U|apply text_reads8; exact T]].
  apply Forall_app. split; [eapply utf8_bytes; exact U|apply us_bytes].
Qed.
Lemma swallowed a v o k : w = a :: v -> reads8 (v ++ us) o k -> o = map (fun _ => fffd) v ++ cs.
Proof.
  intros E R. destruct w_split as (a' & v' & E' & _ & F & B). assert (v' = v) by congruence. subst v'.
  destruct (reads8_conts v us cs F T) as [ok R']. eapply reads8_unique; [|exact R|exact R'].
  apply Forall_app. split; [exact B|apply us_bytes].
Qed.
(* whatever comes before: everything from the second code point on is read as it stands, and the first one is lost
   only if what comes before ends in an incomplete form *)
Lemma local8 l o k : reads8 l o k -> forall junk, l = junk ++ w ++ us ->
  exists x, o = x ++ cs /\ (length x <= length junk + length w)%nat
    /\ ((exists y, x = y ++ [c]) \/ exists j p, junk = j ++ p /\ p <> [] /\ incomplete8 p).
Proof.
  destruct w_split as (a & v & Ew & Ha & Fv & _).
  assert (NE : w <> []) by (rewrite Ew; discriminate).
  assert (LW : (1 <= length w)%nat) by (rewrite Ew; cbn; lia).
  assert (START : forall l o k, reads8 l o k -> forall junk, l = junk ++ w ++ us -> junk = [] ->
     exists x, o = x ++ cs /\ (length x <= length junk + length w)%nat /\ ((exists y, x = y ++ [c]) \/ exists j p, junk = j ++ p /\ p <> [] /\ incomplete8 p)).
  { intros l0 o0 k0 R junk -> ->. cbn in R. apply good_start in R. exists [c]. subst. cbn. repeat split; [lia|left; exists []; reflexivity]. }
  induction 1 as [|c' w' us' cs' ok U' R IH|p b us' cs' ok Hp Hi Hc R IH|p Hp Hi]; intros junk E.
  - destruct junk; [|discriminate]. destruct w; [congruence|discriminate].
  - destruct junk as [|j0 junk]; [eapply START; [apply r8_good; eassumption|exact E|reflexivity]|].
    destruct (app_cases _ _ _ _ E) as [(j2 & Ej & E2)|(z & Hz & E1 & E2)].
    + destruct (IH j2 E2) as (x & -> & L & D). exists (c' :: x). split; [reflexivity|]. pose proof (utf8_nonempty _ _ U') as N'.
      assert (1 <= length w')%nat by (destruct w'; [congruence|cbn; lia]).
      split. { rewrite Ej, app_length. cbn [length]. lia. }
      destruct D as [(y & ->)|(j & q & -> & D)]; [left; exists (c' :: y); reflexivity|right; exists (w' ++ j), q; split; [now rewrite Ej, app_assoc|exact D]].
    + exfalso. destruct z as [|z0 z]; [congruence|]. rewrite Ew in E2. cbn in E2. inversion E2; subst z0.
      eapply (not_inside (j0 :: junk) a z []); [discriminate|exact Ha|exact U'|]. now rewrite app_nil_r.
  - destruct junk as [|j0 junk]; [eapply START; [eapply r8_bad; eassumption|exact E|reflexivity]|].
    assert (E' : (p ++ [b]) ++ us' = (j0 :: junk) ++ w ++ us) by (rewrite <- app_assoc; exact E).
    destruct (app_cases _ _ _ _ E') as [(j2 & Ej & E2)|(z & Hz & E1 & E2)].
    + destruct (IH j2 E2) as (x & -> & L & D). exists (fffd :: x). split; [reflexivity|].
      split. { rewrite Ej, !app_length. cbn [length]. lia. }
      destruct D as [(y & ->)|(j & q & -> & D)]; [left; exists (fffd :: y); reflexivity|right; exists ((p ++ [b]) ++ j), q; split; [now rewrite Ej, app_assoc|exact D]].
    + destruct z as [|z0 z]; [congruence|]. rewrite Ew in E2. cbn in E2. inversion E2 as [[Hz0 E3]]. subst z0.
      destruct z as [|z1 z _] using rev_ind.
      * apply app_inj_tail in E1. destruct E1 as [Ep Eb]. cbn in E3. rewrite E3 in R. apply (swallowed a v _ _ Ew) in R. rewrite R.
        exists (fffd :: map (fun _ => fffd) v). split; [reflexivity|]. split; [cbn [length]; rewrite map_length, Ew; cbn [length]; lia|].
        right. exists [], p. split; [now rewrite Ep|]. assert (p <> []) by (rewrite Ep; discriminate). destruct Hp as [Hp|Hp]; [congruence|auto].
      * exfalso. rewrite app_comm_cons, app_assoc in E1. apply app_inj_tail in E1. destruct E1 as [Ep _].
        destruct Hp as [->|(cq & q & _ & Uq)]; [destruct junk; discriminate|].
        eapply (not_inside (j0 :: junk) a z q); [discriminate|exact Ha|exact Uq|]. rewrite Ep. reflexivity.
  - destruct junk as [|j0 junk]; [eapply START; [apply r8_truncated; eassumption|exact E|reflexivity]|].
    exfalso. destruct Hi as (cq & q & _ & Uq). eapply (not_inside (j0 :: junk) a (v ++ us) q); [discriminate|exact Ha|exact Uq|].
    rewrite E, Ew. reflexivity.
Qed.
End Local.

(* --- UTF-16 ----------------------------------------------------------------------------------------------- *)
Lemma ends_high_app x y : ends_high y -> ends_high (x ++ y).
Proof. intros (l & a & -> & H). exists (x ++ l), a. now rewrite app_assoc. Qed.
Lemma restart16 l o k : reads16 l o k -> forall l2 o2 k2, ~ (ends_high l /\ starts_low l2) -> reads16 l2 o2 k2 -> reads16 (l ++ l2) (o ++ o2) (k && k2).
Proof.
  induction 1 as [|c w us cs ok U R IH|u us cs ok Hu R IH|u us cs ok Hu Hs R IH]; intros l2 o2 k2 A R2.
  - exact R2.
  - rewrite <- app_assoc. cbn [app]. apply r16_good; auto. apply IH; auto. intros [H1 H2]. apply A. split; auto. now apply ends_high_app.
  - cbn [app andb]. eapply r16_low; [exact Hu|]. apply IH; eauto. intros [H1 H2]. apply A. split; auto. now apply (ends_high_app [u]).
  - cbn [app andb]. eapply r16_high; [exact Hu| |apply IH; eauto; intros [H1 H2]; apply A; split; auto; now apply (ends_high_app [u])].
    destruct us as [|y us]; [intros H; apply A; split; auto; exists [], u; auto|].
    intros (z & r & Ez & Hz). apply Hs. cbn in Ez. inversion Ez; subst. exists z, us. auto.
Qed.
Lemma utf16_asciis c w : utf16_of c w -> asciis w = asciis [c].
Proof. intros [c' H|c' H1 H2]; [reflexivity|]. rewrite !asciis_none; auto; repeat constructor; lia. Qed.
Lemma invent16 l o k : reads16 l o k -> asciis o = asciis l.
Proof.
  induction 1 as [|c w us cs ok U R IH|u us cs ok Hu R IH|u us cs ok Hu Hs R IH]; auto.
  - change (c :: cs) with ([c] ++ cs). rewrite !asciis_app, (utf16_asciis c w U). now rewrite IH.
  - change (u :: us) with ([u] ++ us). rewrite asciis_app, (asciis_none [u]); [exact IH|]. unfold low_surrogate in Hu. repeat constructor; lia.
  - change (u :: us) with ([u] ++ us). rewrite asciis_app, (asciis_none [u]); [exact IH|]. unfold high_surrogate in Hu. repeat constructor; lia.
Qed.

Lemma restart32 l o k : reads32 l o k -> forall l2 o2 k2, reads32 l2 o2 k2 -> reads32 (l ++ l2) (o ++ o2) (k && k2).
Proof. induction 1; intros l2 o2 k2 R2; cbn [app andb]; [exact R2|apply r32_good|eapply r32_bad]; eauto. Qed.
Lemma invent32 l o k : reads32 l o k -> asciis o = asciis l.
Proof.
  induction 1 as [|c us cs ok Hc R IH|c us cs ok Hc R IH]; auto.
  - change (c :: us) with ([c] ++ us). change (c :: cs) with ([c] ++ cs). rewrite !asciis_app. now rewrite IH.
  - change (c :: us) with ([c] ++ us). rewrite asciis_app, (asciis_none [c]); [exact IH|]. unfold scalar in Hc. repeat constructor; lia.
Qed.

(* --- all pairs of encodings -------------------------------------------------------------------------- *)
Lemma text_asciis (form : N -> list N -> Prop) : (forall c w, form c w -> asciis w = asciis [c]) -> forall cs us, text form cs us -> asciis us = asciis cs.
Proof. intros H cs us. induction 1 as [|c w cs us F T IH]; auto. change (c :: cs) with ([c] ++ cs). rewrite !asciis_app, IH. f_equal. auto. Qed.
Lemma utf32_asciis c w : utf32_of c w -> asciis w = asciis [c].
Proof. now intros []. Qed.
Definition keeps (form : N -> list N -> Prop) := (forall c w, form c w -> asciis w = asciis [c]).
Lemma conv_concat T reads form bound l1 l2 o1 k1 o2 k2 : converts T reads form bound -> 
  Forall (fun u => u < bound) l1 -> Forall (fun u => u < bound) l2 ->
  (forall r1 r2, reads l1 r1 k1 -> reads l2 r2 k2 -> reads (l1 ++ l2) (r1 ++ r2) (k1 && k2)) ->
  transcode T l1 = Ok (o1, k1) -> transcode T l2 = Ok (o2, k2) -> transcode T (l1 ++ l2) = Ok (o1 ++ o2, k1 && k2).
Proof.
  intros HC B1 B2 HR E1 E2. apply (proj2 (HC l1 B1)) in E1. apply (proj2 (HC l2 B2)) in E2. destruct E1 as (r1 & R1 & T1), E2 as (r2 & R2 & T2).
  apply (proj2 (HC (l1 ++ l2) (proj2 (Forall_app _ _ _) (conj B1 B2)))). exists (r1 ++ r2). split; [auto|now apply text_app].
Qed.
Lemma from8 T : In T [t8_8; t8_16; t8_32] -> exists form, converts T reads8 form (2 ^ 8) /\ keeps form /\ functional form.
Proof.
  intros [<-|[<-|[<-|[]]]]; eexists.
  - split; [apply conv_8_8|split; [exact utf8_asciis|apply utf8_fun]].
  - split; [apply conv_8_16|split; [exact utf16_asciis|apply utf16_fun]].
  - split; [apply conv_8_32|split; [exact utf32_asciis|apply utf32_fun]].
Qed.
Lemma from16 T : In T [t16_8; t16_16; t16_32] -> exists form, converts T reads16 form (2 ^ 16) /\ keeps form /\ functional form.
Proof.
  intros [<-|[<-|[<-|[]]]]; eexists.
  - split; [apply conv_16_8|split; [exact utf8_asciis|apply utf8_fun]].
  - split; [apply conv_16_16|split; [exact utf16_asciis|apply utf16_fun]].
  - split; [apply conv_16_32|split; [exact utf32_asciis|apply utf32_fun]].
Qed.
Lemma from32 T : In T [t32_8; t32_16; t32_32] -> exists form, converts T reads32 form (2 ^ 32) /\ keeps form /\ functional form.
Proof.
  intros [<-|[<-|[<-|[]]]]; eexists.
  - split; [apply conv_32_8|split; [exact utf8_asciis|apply utf8_fun]].
  - split; [apply conv_32_16|split; [exact utf16_asciis|apply utf16_fun]].
  - split; [apply conv_32_32|split; [exact utf32_asciis|apply utf32_fun]].
Qed.
Lemma concat8 T l1 l2 o1 k1 o2 k2 : In T [t8_8; t8_16; t8_32] -> Forall (fun u => u < 2 ^ 8) l1 -> Forall (fun u => u < 2 ^ 8) l2 ->
  no_incomplete_end l1 -> transcode T l1 = Ok (o1, k1) -> transcode T l2 = Ok (o2, k2) -> transcode T (l1 ++ l2) = Ok (o1 ++ o2, k1 && k2).
Proof. intros HT B1 B2 HN. destruct (from8 T HT) as (form & HC & _). apply (conv_concat T _ _ _ _ _ _ _ _ _ HC B1 B2). intros r1 r2 R1 R2. now apply restart8. Qed.
Lemma concat16 T l1 l2 o1 k1 o2 k2 : In T [t16_8; t16_16; t16_32] -> Forall (fun u => u < 2 ^ 16) l1 -> Forall (fun u => u < 2 ^ 16) l2 ->
  ~ (ends_high l1 /\ starts_low l2) -> transcode T l1 = Ok (o1, k1) -> transcode T l2 = Ok (o2, k2) -> transcode T (l1 ++ l2) = Ok (o1 ++ o2, k1 && k2).
Proof. intros HT B1 B2 HN. destruct (from16 T HT) as (form & HC & _). apply (conv_concat T _ _ _ _ _ _ _ _ _ HC B1 B2). intros r1 r2 R1 R2. now apply restart16. Qed.
Lemma concat32 T l1 l2 o1 k1 o2 k2 : In T [t32_8; t32_16; t32_32] -> Forall (fun u => u < 2 ^ 32) l1 -> Forall (fun u => u < 2 ^ 32) l2 ->
  transcode T l1 = Ok (o1, k1) -> transcode T l2 = Ok (o2, k2) -> transcode T (l1 ++ l2) = Ok (o1 ++ o2, k1 && k2).
Proof. intros HT B1 B2. destruct (from32 T HT) as (form & HC & _). apply (conv_concat T _ _ _ _ _ _ _ _ _ HC B1 B2). intros r1 r2 R1 R2. now apply restart32. Qed.
Lemma ascii8 T l out ok : In T [t8_8; t8_16; t8_32] -> Forall (fun u => u < 2 ^ 8) l -> transcode T l = Ok (out, ok) ->
  subseq (asciis out) (asciis l) /\ (ok = true -> asciis out = asciis l).
Proof.
  intros HT B E. destruct (from8 T HT) as (form & HC & HK & _). apply (proj2 (HC l B)) in E. destruct E as (cs & R & X).
  rewrite (text_asciis form HK _ _ X). eapply invent8; exact R.
Qed.
Lemma ascii16 T l out ok : In T [t16_8; t16_16; t16_32] -> Forall (fun u => u < 2 ^ 16) l -> transcode T l = Ok (out, ok) -> asciis out = asciis l.
Proof.
  intros HT B E. destruct (from16 T HT) as (form & HC & HK & _). apply (proj2 (HC l B)) in E. destruct E as (cs & R & X).
  rewrite (text_asciis form HK _ _ X). eapply invent16; exact R.
Qed.
Lemma ascii32 T l out ok : In T [t32_8; t32_16; t32_32] -> Forall (fun u => u < 2 ^ 32) l -> transcode T l = Ok (out, ok) -> asciis out = asciis l.
Proof.
  intros HT B E. destruct (from32 T HT) as (form & HC & HK & _). apply (proj2 (HC l B)) in E. destruct E as (cs & R & X).
  rewrite (text_asciis form HK _ _ X). eapply invent32; exact R.
Qed.
Lemma text_split (form : N -> list N -> Prop) a b x : text form (a ++ b) x -> exists y z, x = y ++ z /\ text form a y /\ text form b z.
Proof.
  revert x. induction a as [|c a IH]; intros x H; [exists [], x; repeat split; auto; constructor|].
  cbn in H. inversion H as [|c' w cs us F T E1 E2]; subst. destruct (IH us T) as (y & z & -> & Ty & Tz).
  exists (w ++ y), z. split; [now rewrite app_assoc|]. split; [now constructor|exact Tz].
Qed.
Lemma junk8 T junk c w cs us y out ok : In T [t8_8; t8_16; t8_32] -> Forall (fun u => u < 2 ^ 8) junk ->
  utf8_of c w -> text utf8_of cs us -> transcode T us = Ok (y, true) -> transcode T (junk ++ w ++ us) = Ok (out, ok) ->
  exists x, out = x ++ y.
Proof.
  intros HT B U X Ey Eo. destruct (from8 T HT) as (form & HC & _ & HF).
  assert (Bu : Forall (fun u => u < 2 ^ 8) us) by (eapply text_bytes8; exact X).
  assert (Bw : Forall (fun u => u < 2 ^ 8) w) by (eapply utf8_bytes; exact U).
  apply (proj2 (HC us Bu)) in Ey. destruct Ey as (cs' & R & Y). apply reads8_true in R.
  assert (cs' = cs). { apply text_reads8 in R. apply text_reads8 in X. eapply reads8_unique; [exact Bu|exact R|exact X]. } subst cs'.
  apply (proj2 (HC (junk ++ w ++ us) ltac:(rewrite !Forall_app; auto))) in Eo. destruct Eo as (r & R2 & Y2).
  destruct (local8 c w cs us U X _ _ _ R2 junk eq_refl) as (x & -> & _). destruct (text_split _ _ _ _ Y2) as (o1 & o2 & -> & _ & To2).
  exists o1. f_equal. exact (text_fun form HF _ _ _ To2 Y).
Qed.
