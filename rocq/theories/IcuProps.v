(* What each of icubaby's transcoders computes, in the words of SpecIcu. *)
From Verif Require Import Base ModelIcu SpecIcu IcuUtf8 IcuRead8 IcuEnc IcuView IcuViewAll IcuByte.
Local Open Scope N_scope.
Local Open Scope list_scope.

Definition converts (T : tcdr) (reads : list N -> list N -> bool -> Prop) (form : N -> list N -> Prop) (bound : N) : Prop :=
  forall l, Forall (fun u => u < bound) l ->
    (exists out ok, transcode T l = Ok (out, ok))
    /\ (forall out ok, transcode T l = Ok (out, ok) <-> exists cs, reads l cs ok /\ text form cs out).

Lemma text32 cs out : text utf32_of cs out <-> cs = out /\ Forall scalar cs.
Proof.
  split.
  - induction 1 as [|c w cs us F T [-> S]]; [auto|]. inversion F; subst. split; [reflexivity|]. apply Forall_cons; assumption.
  - intros [<- H]. induction H as [|c cs S _ IH]; [constructor|]. change (c :: cs) with ([c] ++ cs) at 2. constructor; [constructor; exact S|exact IH].
Qed.
Lemma via32 (reads : list N -> list N -> bool -> Prop) l out ok : (forall l cs ok, reads l cs ok -> Forall scalar cs) ->
  (reads l out ok <-> exists cs, reads l cs ok /\ text utf32_of cs out).
Proof.
  intros S. split.
  - intros R. exists out. split; [exact R|]. apply text32. split; [reflexivity|]. eapply S; exact R.
  - intros (cs & R & T). apply text32 in T. destruct T as [-> _]. exact R.
Qed.
Lemma conv_8_32 : converts t8_32 reads8 utf32_of (2 ^ 8).
Proof.
  intros l B. split; [apply transcode_8_32_total; exact B|]. intros out ok. rewrite (transcode_8_32 l out ok B). apply via32. apply reads8_scalar.
Qed.
Lemma conv_16_32 : converts t16_32 reads16 utf32_of (2 ^ 16).
Proof.
  intros l B. split; [destruct (transcode_16_32_total l B) as (out & ok & E & _); eauto|]. intros out ok. rewrite (transcode_16_32 l out ok B). apply via32. apply reads16_scalar.
Qed.
Lemma conv_32 O form : encoder O form -> functional form -> converts O reads32 form (2 ^ 32).
Proof.
  intros HO HF l _. split; [destruct (enc_transcode O form HO l) as (cs & ok & w & _ & E & _); eauto|]. intros out ok. apply transcode_32; assumption.
Qed.
Lemma conv_32_8 : converts t32_8 reads32 utf8_of (2 ^ 32). Proof. apply conv_32; [apply encoder_8|apply utf8_fun]. Qed.
Lemma conv_32_16 : converts t32_16 reads32 utf16_of (2 ^ 32). Proof. apply conv_32; [apply encoder_16|apply utf16_fun]. Qed.
Lemma conv_32_32 : converts t32_32 reads32 utf32_of (2 ^ 32). Proof. apply conv_32; [apply encoder_32|apply utf32_fun]. Qed.
Lemma conv_tri I O cap bound Inv (reads : list N -> list N -> bool -> Prop) form :
  decoder I cap (fun u => u < bound) Inv -> encoder O form -> functional form ->
  (forall l out ok, Forall (fun u => u < bound) l -> (transcode I l = Ok (out, ok) <-> reads l out ok)) ->
  converts (triangulator cap I O) reads form bound.
Proof.
  intros HI HO HF HR l B. split.
  - destruct (tri_transcode I O cap _ Inv form HI HO l B) as (cs & ok & w & _ & E & _). eauto.
  - intros out ok. rewrite (transcode_tri I O cap _ Inv form HI HO HF l out ok B). split; intros (cs & E & T); exists cs; (split; [apply HR; assumption|exact T]).
Qed.
Lemma conv_8_16 : converts t8_16 reads8 utf16_of (2 ^ 8). Proof. eapply conv_tri; [apply decoder_8|apply encoder_16|apply utf16_fun|apply transcode_8_32]. Qed.
Lemma conv_8_8 : converts t8_8 reads8 utf8_of (2 ^ 8). Proof. eapply conv_tri; [apply decoder_8|apply encoder_8|apply utf8_fun|apply transcode_8_32]. Qed.
Lemma conv_16_8 : converts t16_8 reads16 utf8_of (2 ^ 16). Proof. eapply conv_tri; [apply decoder_16|apply encoder_8|apply utf8_fun|apply transcode_16_32]. Qed.
Lemma conv_16_16 : converts t16_16 reads16 utf16_of (2 ^ 16). Proof. eapply conv_tri; [apply decoder_16|apply encoder_16|apply utf16_fun|apply transcode_16_32]. Qed.

(* --- round trips --- *)
Lemma text_units16 cs us : text utf16_of cs us -> Forall (fun u => u < 2 ^ 16) us.
Proof.
  change (2 ^ 16) with 65536. induction 1 as [|c w cs us F T IH]; [constructor|]. apply Forall_app. split; [|exact IH].
  destruct (utf16_shape _ _ F) as [(-> & H & _)|(u & v & -> & Hu & Hv & _)]; unfold high_surrogate, low_surrogate in *.
  - apply forall1. exact H.
  - apply Forall_cons; [lia|apply forall1; lia].
Qed.
Lemma text_units8 cs us : text utf8_of cs us -> Forall (fun u => u < 2 ^ 8) us.
Proof. apply text_bytes8. Qed.
Lemma text_units32 cs us : text utf32_of cs us -> Forall (fun u => u < 2 ^ 32) us.
Proof. intros T. apply text32 in T. destruct T as [<- S]. eapply Forall_impl; [|exact S]. intros c. unfold scalar. change (2 ^ 32) with 4294967296. lia. Qed.
(* reading is the inverse of writing *)
Lemma back T T' (reads reads' : list N -> list N -> bool -> Prop) form form' bound bound' :
  converts T reads form bound -> converts T' reads' form' bound' ->
  (forall l cs, reads l cs true <-> text form' cs l) -> (forall l cs, text form cs l -> reads' l cs true) ->
  (forall cs us, text form cs us -> Forall (fun u => u < bound') us) ->
  forall l out, Forall (fun u => u < bound) l -> transcode T l = Ok (out, true) -> transcode T' out = Ok (l, true).
Proof.
  intros C C' R R' U l out B E. apply (C l B) in E. destruct E as (cs & Rl & To). apply C'; [eapply U; exact To|]. exists cs. split; [apply R'; exact To|].
  apply R. exact Rl.
Qed.

(* --- the byte transcoders --- *)
Lemma text8 l cs : reads8 l cs true <-> text utf8_of cs l. Proof. apply reads8_true. Qed.
Section Bytes.
Variables T8 T16 T32 : tcdr.
Variable form : N -> list N -> Prop.
Hypothesis C8 : converts T8 reads8 form (2 ^ 8).
Hypothesis C16 : converts T16 reads16 form (2 ^ 16).
Hypothesis C32 : converts T32 reads32 form (2 ^ 32).
Hypothesis W8 : tc_wf T8 (tc_init T8) = true.
Notation B := (byte_transcoder T8 T16 T32).
Lemma units16_bound (unit : N -> N -> N) l : (forall a b, a < 256 -> b < 256 -> unit a b < 2 ^ 16) -> Forall (fun u => u < 256) l ->
  Forall (fun u => u < 2 ^ 16) (units16 unit l).
Proof.
  intros H. induction l as [|a|a b l IH] using list2_ind; intros F; cbn [units16]; try constructor.
  - inversion F as [|? ? Ha F1]; subst. inversion F1; subst. auto.
  - apply IH. inversion F as [|? ? Ha F1]; subst. inversion F1; subst. auto.
Qed.
Lemma units32_bound (unit : N -> N -> N -> N -> N) l : (forall a b c d, a < 256 -> b < 256 -> c < 256 -> d < 256 -> unit a b c d < 2 ^ 32) -> Forall (fun u => u < 256) l ->
  Forall (fun u => u < 2 ^ 32) (units32 unit l).
Proof.
  intros H. induction l as [|a|a b|a b c|a b c d l IH] using list4_ind; intros F; cbn [units32]; try constructor.
  - inversion F as [|? ? Ha F1]; subst. inversion F1 as [|? ? Hb F2]; subst. inversion F2 as [|? ? Hc F3]; subst. inversion F3; subst. auto.
  - apply IH. inversion F as [|? ? Ha F1]; subst. inversion F1 as [|? ? Hb F2]; subst. inversion F2 as [|? ? Hc F3]; subst. inversion F3; subst. auto.
Qed.
Lemma be16_bound a b : a < 256 -> b < 256 -> be16 a b < 2 ^ 16. Proof. unfold be16. change (2 ^ 8) with 256. change (2 ^ 16) with 65536. lia. Qed.
Lemma le16_bound a b : a < 256 -> b < 256 -> le16 a b < 2 ^ 16. Proof. unfold le16. change (2 ^ 8) with 256. change (2 ^ 16) with 65536. lia. Qed.
Lemma be32_bound a b c d : a < 256 -> b < 256 -> c < 256 -> d < 256 -> be32 a b c d < 2 ^ 32.
Proof. unfold be32. change (2 ^ 8) with 256. change (2 ^ 16) with 65536. change (2 ^ 24) with 16777216. change (2 ^ 32) with 4294967296. lia. Qed.
Lemma le32_bound a b c d : a < 256 -> b < 256 -> c < 256 -> d < 256 -> le32 a b c d < 2 ^ 32.
Proof. unfold le32. change (2 ^ 8) with 256. change (2 ^ 16) with 65536. change (2 ^ 24) with 16777216. change (2 ^ 32) with 4294967296. lia. Qed.
Lemma units32_small l : Forall (fun u => u < 256) l -> (forall u, In u (units32 le32 l) -> u < 2 ^ 24) -> units32 le24 l = units32 le32 l.
Proof.
  induction l as [|a|a b|a b c|a b c d l IH] using list4_ind; intros F H; cbn [units32]; try reflexivity.
  inversion F as [|? ? Ha F1]; subst. inversion F1 as [|? ? Hb F2]; subst. inversion F2 as [|? ? Hc F3]; subst. inversion F3; subst.
  rewrite IH; [|assumption|intros u Hu; apply H; cbn [units32]; right; exact Hu]. f_equal.
  specialize (H (le32 a b c d) (or_introl eq_refl)). unfold le24, le32 in *. change (2 ^ 24) with 16777216 in *. change (2 ^ 16) with 65536 in *. change (2 ^ 8) with 256 in *. nia.
Qed.
Lemma bom_tail m r : Forall (fun u => u < 256) (m ++ r) -> Forall (fun u => u < 256) r.
Proof. intros H. apply Forall_app in H. apply H. Qed.

Lemma in_cons_tail (P : N -> Prop) a l : Forall P (a :: l) -> Forall P l. Proof. now inversion 1. Qed.
Lemma unfinished_ends p : unfinished p <-> ends_in_bom p.
Proof.
  unfold unfinished, ends_in_bom. split.
  - cbn [In]. intros H. repeat (destruct H as [<-|H]); [..|destruct H]; (split; [discriminate|]).
    + exists bom8, [0xBB; 0xBF]. cbn; repeat split; [auto|discriminate].
    + exists bom8, [0xBF]. cbn; repeat split; [auto|discriminate].
    + exists bom16be, [0xFF]. cbn; repeat split; [auto|discriminate].
    + exists bom16le, [0xFE]. cbn; repeat split; [auto|discriminate].
    + exists bom32le, [0; 0]. cbn; repeat split; [tauto|discriminate].
    + exists bom32le, [0]. cbn; repeat split; [tauto|discriminate].
    + exists bom32be, [0; 0xFE; 0xFF]. cbn; repeat split; [tauto|discriminate].
    + exists bom32be, [0xFE; 0xFF]. cbn; repeat split; [tauto|discriminate].
    + exists bom32be, [0xFF]. cbn; repeat split; [tauto|discriminate].
  - intros (NE & m & c & Hm & Hc & E). cbn [In all_boms] in Hm.
    repeat (destruct Hm as [<-|Hm]); [..|destruct Hm]; unfold bom8, bom16be, bom16le, bom32be, bom32le in E;
      (destruct p as [|? [|? [|? [|? [|]]]]]; cbn in E; try discriminate; try (now elim NE); injection E; intros; subst; cbn; try tauto;
       try (now elim Hc)).
Qed.

(* reads_bytes, case by case *)
Ltac rb_inv H := let l := fresh "l" in let E := fresh "E" in
  match type of H with reads_bytes ?x _ _ => remember x as l eqn:E end;
  destruct H as [r0 ? ? H|r0 ? ? H|r0 ? ? NP H|r0 ? ? H|r0 ? ? H|l0 ? ? NP H];
  unfold bom8, bom16be, bom16le, bom32be, bom32le in E; cbn [app] in E; try discriminate E.
Lemma rb_is_8 r cs ok : reads_bytes (bom8 ++ r) cs ok <-> reads8 r cs ok.
Proof.
  split; [intros H|apply rb_8]. rb_inv H.
  - injection E as <-. exact H.
  - elim (NP bom8); [cbn; tauto|]. exists r. exact E.
Qed.
Lemma rb_is_16be r cs ok : reads_bytes (bom16be ++ r) cs ok <-> reads16 (units16 be16 r) cs ok.
Proof.
  split; [intros H|apply rb_16be]. rb_inv H.
  - injection E as <-. exact H.
  - elim (NP bom16be); [cbn; tauto|]. exists r. exact E.
Qed.
Lemma rb_is_32be r cs ok : reads_bytes (bom32be ++ r) cs ok <-> reads32 (units32 be32 r) cs ok.
Proof.
  split; [intros H|apply rb_32be]. rb_inv H.
  - injection E as <-. exact H.
  - elim (NP bom32be); [cbn; tauto|]. exists r. exact E.
Qed.
Lemma rb_is_32le r cs ok : reads_bytes (bom32le ++ r) cs ok <-> reads32 (units32 le32 r) cs ok.
Proof.
  split; [intros H|apply rb_32le]. rb_inv H.
  - elim NP. injection E as ->. exists r. reflexivity.
  - injection E as <-. exact H.
  - elim (NP bom32le); [cbn; tauto|]. exists r. exact E.
Qed.
Lemma rb_is_16le b r cs ok : b <> 0 -> reads_bytes (bom16le ++ b :: r) cs ok <-> reads16 (units16 le16 (b :: r)) cs ok.
Proof.
  intros Hb. split; [intros H|apply rb_16le; intros [c E]; injection E; intros; congruence]. rb_inv H.
  - injection E as ->. exact H.
  - injection E; intros; congruence.
  - elim (NP bom16le); [cbn; tauto|]. exists (b :: r). exact E.
Qed.
Lemma rb_is_plain l cs ok : (forall m, In m all_boms -> ~ prefix_of m l) -> reads_bytes l cs ok <-> reads8 l cs ok.
Proof.
  intros N. split; [intros H|apply rb_plain; exact N].
  destruct H as [r ? ? H|r ? ? H|r ? ? NP H|r ? ? H|r ? ? H|l ? ? NP H];
    [elim (N bom8); [cbn; tauto|exists r; reflexivity]|elim (N bom16be); [cbn; tauto|exists r; reflexivity]|elim (N bom16le); [cbn; tauto|exists r; reflexivity]
    |elim (N bom32be); [cbn; tauto|exists r; reflexivity]|elim (N bom32le); [cbn; tauto|exists r; reflexivity]|exact H].
Qed.
Lemma ex_iff (P Q : list N -> Prop) (R : list N -> Prop) : (forall cs, P cs <-> Q cs) -> (exists cs, P cs /\ R cs) <-> (exists cs, Q cs /\ R cs).
Proof. intros H. split; intros (cs & A & C); exists cs; (split; [apply H; exact A|exact C]). Qed.

Lemma byte_regular l out ok : Forall (fun u => u < 256) l -> ~ ends_in_bom l -> ~ le16_then_zero l -> ~ le32_large l ->
  (transcode B l = Ok (out, ok) <-> exists cs, reads_bytes l cs ok /\ text form cs out).
Proof.
  intros F NU NZ NL. destruct (byte_cover l) as [->|[U|[(m & r & Hm & ->)|[(b & r & Hb & [->| ->])|N]]]].
  - rewrite byte_empty, W8. rewrite (ex_iff _ (fun cs => reads8 [] cs ok)).
    + destruct (C8 [] F) as [_ C]. rewrite <- C. assert (E : transcode T8 [] = Ok ([], true)) by (apply C; exists []; split; constructor).
      rewrite E. reflexivity.
    + intros cs. apply rb_is_plain. intros m Hm [c E]. symmetry in E. apply app_eq_nil in E. destruct E as [-> _]. cbn in Hm. repeat (destruct Hm as [Hm|Hm]; try discriminate).
      exact Hm.
  - elim NU. apply unfinished_ends. exact U.
  - assert (Fr := bom_tail m r F). cbn [In] in Hm. destruct Hm as [<-|[<-|[<-|[<-|[]]]]].
    + rewrite byte_bom8, (ex_iff _ (fun cs => reads8 r cs ok)) by (intros cs; apply rb_is_8). apply C8. exact Fr.
    + rewrite byte_bom16be, (ex_iff _ (fun cs => reads16 (units16 be16 r) cs ok)) by (exact Fr || (intros cs; apply rb_is_16be)).
      apply C16. apply units16_bound; [apply be16_bound|exact Fr].
    + rewrite byte_bom32be, (ex_iff _ (fun cs => reads32 (units32 be32 r) cs ok)) by (exact Fr || (intros cs; apply rb_is_32be)).
      apply C32. apply units32_bound; [apply be32_bound|exact Fr].
    + rewrite byte_bom32le, (ex_iff _ (fun cs => reads32 (units32 le32 r) cs ok)) by (exact Fr || (intros cs; apply rb_is_32le)).
      rewrite units32_small; [|exact Fr|].
      * apply C32. apply units32_bound; [apply le32_bound|exact Fr].
      * intros u Hu. destruct (N.lt_ge_cases u (2 ^ 24)) as [L|L]; [exact L|]. elim NL. exists r, u. auto.
  - assert (Fr := bom_tail _ _ F). rewrite byte_bom16le, (ex_iff _ (fun cs => reads16 (units16 le16 (b :: r)) cs ok)) by (assumption || (intros cs; apply rb_is_16le; exact Hb)).
    apply C16. apply units16_bound; [apply le16_bound|exact Fr].
  - elim NZ. exists b, r. auto.
  - rewrite (no_bom T8 T16 T32 l N), (ex_iff _ (fun cs => reads8 l cs ok)) by (intros cs; apply rb_is_plain; intros m Hm; apply (N m Hm)). apply C8. exact F.
Qed.
(* the other cases *)
Lemma byte_zero16 l out ok : Forall (fun u => u < 256) l -> le16_then_zero l ->
  (transcode B l = Ok (out, ok) <-> exists cs, reads8 l cs ok /\ text form cs out).
Proof. intros F (b & r & Hb & ->). rewrite byte_bom16le_zero by exact Hb. apply C8. exact F. Qed.
Lemma byte_large32 r out ok : Forall (fun u => u < 256) r ->
  (transcode B (bom32le ++ r) = Ok (out, ok) <-> exists cs, reads32 (units32 (fun a b c d => le32 a b c 0) r) cs ok /\ text form cs out).
Proof.
  intros F. rewrite byte_bom32le by exact F. apply (C32 (units32 le24 r)). apply units32_bound; [|exact F].
  intros a b c d Ha Hb Hc Hd. apply le32_bound; auto. reflexivity.
Qed.
Hypothesis NF : forall p, unfinished p -> exists out ok, transcode B p = Ok (out, ok).
Lemma byte_total l : Forall (fun u => u < 256) l -> exists out ok, transcode B l = Ok (out, ok).
Proof.
  intros F. destruct (byte_cover l) as [->|[U|[(m & r & Hm & ->)|[(b & r & Hb & [->| ->])|N]]]].
  - rewrite byte_empty. eauto.
  - apply NF; exact U.
  - assert (Fr := bom_tail m r F). cbn [In] in Hm. destruct Hm as [<-|[<-|[<-|[<-|[]]]]].
    + rewrite byte_bom8. apply C8. exact Fr.
    + rewrite byte_bom16be by exact Fr. apply C16. apply units16_bound; [apply be16_bound|exact Fr].
    + rewrite byte_bom32be by exact Fr. apply C32. apply units32_bound; [apply be32_bound|exact Fr].
    + rewrite byte_bom32le by exact Fr. apply C32. apply units32_bound; [|exact Fr]. intros x y z w Hx Hy Hz Hw. apply le32_bound; auto. reflexivity.
  - assert (Fr := bom_tail _ _ F). rewrite byte_bom16le by assumption. apply C16. apply units16_bound; [apply le16_bound|exact Fr].
  - rewrite byte_bom16le_zero by exact Hb. apply C8. exact F.
  - rewrite (no_bom T8 T16 T32 l N). apply C8. exact F.
Qed.
End Bytes.

Inductive byte_to : tcdr -> (N -> list N -> Prop) -> Prop :=
| to8 : byte_to tx_8 utf8_of | to16 : byte_to tx_16 utf16_of | to32 : byte_to tx_32 utf32_of.
Lemma nf8 p : unfinished p -> exists out ok, transcode tx_8 p = Ok (out, ok).
Proof. unfold unfinished. cbn [In]. intros H. repeat (destruct H as [<-|H]); [..|destruct H]; eexists; eexists; vm_compute; reflexivity. Qed.
Lemma nf16 p : unfinished p -> exists out ok, transcode tx_16 p = Ok (out, ok).
Proof. unfold unfinished. cbn [In]. intros H. repeat (destruct H as [<-|H]); [..|destruct H]; eexists; eexists; vm_compute; reflexivity. Qed.
Lemma nf32 p : unfinished p -> exists out ok, transcode tx_32 p = Ok (out, ok).
Proof. unfold unfinished. cbn [In]. intros H. repeat (destruct H as [<-|H]); [..|destruct H]; eexists; eexists; vm_compute; reflexivity. Qed.
Lemma bytes_total T form l : byte_to T form -> Forall (fun u => u < 256) l -> exists out ok, transcode T l = Ok (out, ok).
Proof.
  intros []; [eapply (byte_total t8_8 t16_8 t32_8 utf8_of)|eapply (byte_total t8_16 t16_16 t32_16 utf16_of)|eapply (byte_total t8_32 t16_32 t32_32 utf32_of)];
    auto using conv_8_8, conv_16_8, conv_32_8, conv_8_16, conv_16_16, conv_32_16, conv_8_32, conv_16_32, conv_32_32, nf8, nf16, nf32.
Qed.
Lemma bytes_regular T form l out ok : byte_to T form -> Forall (fun u => u < 256) l -> ~ ends_in_bom l -> ~ le16_then_zero l -> ~ le32_large l ->
  (transcode T l = Ok (out, ok) <-> exists cs, reads_bytes l cs ok /\ text form cs out).
Proof.
  intros []; [eapply (byte_regular t8_8 t16_8 t32_8 utf8_of)|eapply (byte_regular t8_16 t16_16 t32_16 utf16_of)|eapply (byte_regular t8_32 t16_32 t32_32 utf32_of)];
    auto using conv_8_8, conv_16_8, conv_32_8, conv_8_16, conv_16_16, conv_32_16, conv_8_32, conv_16_32, conv_32_32.
Qed.
Lemma bytes_zero16 T form l out ok : byte_to T form -> Forall (fun u => u < 256) l -> le16_then_zero l ->
  (transcode T l = Ok (out, ok) <-> exists cs, reads8 l cs ok /\ text form cs out).
Proof.
  intros []; [eapply (byte_zero16 t8_8 t16_8 t32_8 utf8_of)|eapply (byte_zero16 t8_16 t16_16 t32_16 utf16_of)|eapply (byte_zero16 t8_32 t16_32 t32_32 utf32_of)];
    auto using conv_8_8, conv_8_16, conv_8_32.
Qed.
Lemma bytes_large32 T form r out ok : byte_to T form -> Forall (fun u => u < 256) r ->
  (transcode T (bom32le ++ r) = Ok (out, ok) <-> exists cs, reads32 (units32 (fun a b c d => le32 a b c 0) r) cs ok /\ text form cs out).
Proof.
  intros []; [eapply (byte_large32 t8_8 t16_8 t32_8 utf8_of)|eapply (byte_large32 t8_16 t16_16 t32_16 utf16_of)|eapply (byte_large32 t8_32 t16_32 t32_32 utf32_of)];
    auto using conv_32_8, conv_32_16, conv_32_32.
Qed.
(* the end of the input within a mark: what there is of it, then a NUL, read as UTF-8 *)
Lemma bytes_unfinished T form p : byte_to T form -> ends_in_bom p -> exists cs out ok, transcode T p = Ok (out, ok)
  /\ reads8 (p ++ [0]) cs ok /\ text form cs out.
Proof.
  intros V U. apply unfinished_ends in U.
  assert (F : Forall (fun u => u < 2 ^ 8) (p ++ [0])).
  { unfold unfinished in U. cbn [In] in U. repeat (destruct U as [<-|U]); [..|destruct U]; cbn [app]; repeat first [apply Forall_cons|apply Forall_nil]; reflexivity. }
  destruct V.
  - assert (E : transcode tx_8 p = transcode t8_8 (p ++ [0])).
    { unfold unfinished in U. cbn [In] in U. repeat (destruct U as [<-|U]); [..|destruct U]; vm_compute; reflexivity. }
    destruct (conv_8_8 _ F) as [(out & ok & X) C]. rewrite E, X. apply C in X. destruct X as (cs & R & T). eauto 6.
  - assert (E : transcode tx_16 p = transcode t8_16 (p ++ [0])).
    { unfold unfinished in U. cbn [In] in U. repeat (destruct U as [<-|U]); [..|destruct U]; vm_compute; reflexivity. }
    destruct (conv_8_16 _ F) as [(out & ok & X) C]. rewrite E, X. apply C in X. destruct X as (cs & R & T). eauto 6.
  - assert (E : transcode tx_32 p = transcode t8_32 (p ++ [0])).
    { unfold unfinished in U. cbn [In] in U. repeat (destruct U as [<-|U]); [..|destruct U]; vm_compute; reflexivity. }
    destruct (conv_8_32 _ F) as [(out & ok & X) C]. rewrite E, X. apply C in X. destruct X as (cs & R & T). eauto 6.
Qed.

(* --- views --- *)
Inductive view_of : tcdr -> nat -> N -> Prop :=
| view_8_8 : view_of t8_8 max_output_8 (2 ^ 8) | view_8_16 : view_of t8_16 max_output_16 (2 ^ 8) | view_8_32 : view_of t8_32 max_output_32 (2 ^ 8)
| view_16_8 : view_of t16_8 max_output_16_8 (2 ^ 16) | view_16_16 : view_of t16_16 max_output_16 (2 ^ 16) | view_16_32 : view_of t16_32 max_output_16_32 (2 ^ 16)
| view_32_8 : view_of t32_8 max_output_8 (2 ^ 32) | view_32_16 : view_of t32_16 max_output_16 (2 ^ 32) | view_32_32 : view_of t32_32 max_output_32 (2 ^ 32).
Lemma conv_total T reads form bound l : converts T reads form bound -> Forall (fun u => u < bound) l -> exists out ok, transcode T l = Ok (out, ok).
Proof. intros C F. apply (C l F). Qed.
Lemma views T cap bound l : view_of T cap bound -> Forall (fun u => u < bound) l ->
  exists out ok, transcode T l = Ok (out, ok) /\ forall fuel, (length out < fuel)%nat -> view_iterate T cap l fuel = Ok (out, ok).
Proof.
  intros V F.
  assert (X : exists out ok, transcode T l = Ok (out, ok)).
  { destruct V; [apply (conv_total _ _ _ _ l conv_8_8 F)|apply (conv_total _ _ _ _ l conv_8_16 F)|apply (conv_total _ _ _ _ l conv_8_32 F)
    |apply (conv_total _ _ _ _ l conv_16_8 F)|apply (conv_total _ _ _ _ l conv_16_16 F)|apply (conv_total _ _ _ _ l conv_16_32 F)
    |apply (conv_total _ _ _ _ l conv_32_8 F)|apply (conv_total _ _ _ _ l conv_32_16 F)|apply (conv_total _ _ _ _ l conv_32_32 F)]. }
  destruct X as (out & ok & E). exists out, ok. split; [exact E|]. intros fuel L.
  assert (A : Forall okany l) by (apply Forall_forall; intros; exact I).
  destruct V; (eapply view_all; [|unfold max_output_8, max_output_16, max_output_32, max_output_16_8, max_output_16_32, longest_sequence_8, longest_sequence_16, longest_sequence_32; lia|reflexivity| |exact E|exact L]);
   first [apply viewable_8_8|apply viewable_8_16|apply viewable_8_32|apply viewable_16_8|apply viewable_16_16|apply viewable_16_32|apply viewable_32_8|apply viewable_32_16|apply viewable_32_32|exact F|exact A].
Qed.

(* --- partial() --- *)
Definition end_partial (T : tcdr) : Prop := forall s,
  if tc_partial T s then forall s' w, tc_end T s = Ok (s', w) -> w <> [] else exists s', tc_end T s = Ok (s', []).
Lemma partial_conv T reads form bound l s w : converts T reads form bound -> end_partial T -> Forall (fun u => u < bound) l ->
  feed T (tc_init T) l = Ok (s, w) -> (tc_partial T s = false <-> exists cs ok, reads l cs ok /\ text form cs w).
Proof.
  intros C P F E. destruct (C l F) as [(out & ok & X) CC]. specialize (P s). split.
  - intros N. rewrite N in P. destruct P as (s' & E'). assert (Y : transcode T l = Ok (w, tc_wf T s')).
    { unfold transcode. rewrite E. cbn [bind]. rewrite E'. cbn [bind]. now rewrite app_nil_r. }
    apply CC in Y. destruct Y as (cs & R & T'). eauto.
  - intros (cs & ok' & R & T'). destruct (tc_partial T s); [|reflexivity]. exfalso.
    assert (Y : transcode T l = Ok (w, ok')) by (apply CC; eauto). unfold transcode in Y. rewrite E in Y. cbn [bind] in Y.
    destruct (tc_end T s) as [[s' w']| |]; cbn [bind] in Y; try discriminate. injection Y as Y _.
    apply (P s' w' eq_refl). rewrite <- (app_nil_r w) in Y at 2. now apply app_inv_head in Y.
Qed.
Lemma ep_8 : end_partial t8_32.
Proof.
  intros s. cbn [tc_partial tc_end t8_32]. unfold t8_32_end. destruct (negb (s8_state s =? accept)); [|eauto]. intros s' w H. injection H as _ <-. discriminate.
Qed.
Lemma ep_16 : end_partial t16_32.
Proof.
  intros s. cbn [tc_partial tc_end t16_32]. unfold t16_32_end. destruct (s16_has s); [|eauto]. intros s' w H. injection H as _ <-. discriminate.
Qed.
Lemma ep_32_8 : end_partial t32_8. Proof. intros s. cbn. eauto. Qed.
Lemma ep_32_16 : end_partial t32_16. Proof. intros s. cbn. eauto. Qed.
Lemma ep_32_32 : end_partial t32_32. Proof. intros s. cbn. eauto. Qed.
Lemma ep_tri cap I O form : (1 <= cap)%nat -> encoder O form -> nonempty form -> end_partial I ->
  (forall s s' w, tc_end I s = Ok (s', w) -> w = [] \/ w = [fffd]) -> end_partial (triangulator cap I O).
Proof.
  intros HC HO HN P W s. specialize (P (fst s)). cbn [tc_partial tc_end triangulator]. unfold tri_end. destruct (tc_partial I (fst s)).
  - intros s' w E. destruct (tc_end I (fst s)) as [[i x]| |] eqn:EI; cbn [bind] in E; try discriminate.
    specialize (P _ _ eq_refl). destruct (W _ _ _ EI) as [->| ->]; [now elim P|]. destruct (Nat.ltb_spec cap (length [fffd])); [cbn in *; lia|].
    cbn [feed] in E. destruct (enc_good _ _ HO (snd s) fffd fffd_scalar) as (o & y & EO & Fm & _). rewrite EO in E. cbn [bind] in E.
    destruct (tc_end O o) as [[o' z]| |]; cbn [bind] in E; try discriminate. injection E as _ <-. intros Z. rewrite app_nil_r in Z. apply app_eq_nil in Z.
    eapply HN; [exact Fm|apply Z].
  - destruct P as (i & E). rewrite E. cbn [bind length feed]. rewrite (enc_end _ _ HO). cbn [bind app]. destruct (Nat.ltb_spec cap 0); [lia|eauto].
Qed.
Lemma end8_w s s' w : tc_end t8_32 s = Ok (s', w) -> w = [] \/ w = [fffd].
Proof. cbn [tc_end t8_32]. unfold t8_32_end. destruct (negb (s8_state s =? accept)); intros H; injection H as _ <-; auto. Qed.
Lemma end16_w s s' w : tc_end t16_32 s = Ok (s', w) -> w = [] \/ w = [fffd].
Proof. cbn [tc_end t16_32]. unfold t16_32_end. destruct (s16_has s); intros H; injection H as _ <-; auto. Qed.
Inductive reader : tcdr -> (list N -> list N -> bool -> Prop) -> (N -> list N -> Prop) -> N -> Prop :=
| rd_8_8 : reader t8_8 reads8 utf8_of (2 ^ 8) | rd_8_16 : reader t8_16 reads8 utf16_of (2 ^ 8) | rd_8_32 : reader t8_32 reads8 utf32_of (2 ^ 8)
| rd_16_8 : reader t16_8 reads16 utf8_of (2 ^ 16) | rd_16_16 : reader t16_16 reads16 utf16_of (2 ^ 16) | rd_16_32 : reader t16_32 reads16 utf32_of (2 ^ 16)
| rd_32_8 : reader t32_8 reads32 utf8_of (2 ^ 32) | rd_32_16 : reader t32_16 reads32 utf16_of (2 ^ 32) | rd_32_32 : reader t32_32 reads32 utf32_of (2 ^ 32).
Lemma ep_8_8 : end_partial t8_8. Proof. apply (ep_tri 1 t8_32 t32_8 utf8_of); [lia|apply encoder_8|apply nonempty_8|apply ep_8|apply end8_w]. Qed.
Lemma ep_8_16 : end_partial t8_16. Proof. apply (ep_tri 1 t8_32 t32_16 utf16_of); [lia|apply encoder_16|apply nonempty_16|apply ep_8|apply end8_w]. Qed.
Lemma ep_16_8 : end_partial t16_8. Proof. apply (ep_tri 2 t16_32 t32_8 utf8_of); [lia|apply encoder_8|apply nonempty_8|apply ep_16|apply end16_w]. Qed.
Lemma ep_16_16 : end_partial t16_16. Proof. apply (ep_tri 2 t16_32 t32_16 utf16_of); [lia|apply encoder_16|apply nonempty_16|apply ep_16|apply end16_w]. Qed.
Lemma partial_all T reads form bound l s w : reader T reads form bound -> Forall (fun u => u < bound) l ->
  feed T (tc_init T) l = Ok (s, w) -> (tc_partial T s = false <-> exists cs ok, reads l cs ok /\ text form cs w).
Proof.
  intros R. destruct R.
  - apply partial_conv; [apply conv_8_8|apply ep_8_8].
  - apply partial_conv; [apply conv_8_16|apply ep_8_16].
  - apply partial_conv; [apply conv_8_32|apply ep_8].
  - apply partial_conv; [apply conv_16_8|apply ep_16_8].
  - apply partial_conv; [apply conv_16_16|apply ep_16_16].
  - apply partial_conv; [apply conv_16_32|apply ep_16].
  - apply partial_conv; [apply conv_32_8|apply ep_32_8].
  - apply partial_conv; [apply conv_32_16|apply ep_32_16].
  - apply partial_conv; [apply conv_32_32|apply ep_32_32].
Qed.
