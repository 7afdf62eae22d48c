(* base () and == of a transcode view's iterators, for every view *)
From Verif Require Import Base ModelIcu SpecIcu IcuUtf8 IcuRead8 IcuEnc IcuView IcuViewAll IcuProps ModelHist SpecHist HistFacts HistView SpecBase BaseFacts BaseText.
From Coq Require Import Lia.
Local Open Scope list_scope.

Ltac caps := unfold max_output_8, max_output_16, max_output_32, max_output_16_8, max_output_16_32, longest_sequence_8, longest_sequence_16, longest_sequence_32; lia.
Lemma recodes_view T cap bound fin fout l : recodes T cap bound fin fout -> Forall (fun u => (u < bound)%N) l ->
  exists valid Inv, viewable T cap valid Inv /\ (cap < 16)%nat /\ Forall valid l /\ transcode T [] = Ok ([], true).
Proof.
  intros V F. assert (A : Forall okany l) by (apply Forall_forall; intros; exact I).
  destruct V; do 2 eexists; (split; [|split; [caps|split; [|reflexivity]]]);
   first [apply viewable_8_8|apply viewable_8_16|apply viewable_8_32|apply viewable_16_8|apply viewable_16_16|apply viewable_16_32|apply viewable_32_8|apply viewable_32_16|apply viewable_32_32|exact F|exact A].
Qed.
Lemma utf8_units c w : utf8_of c w -> Forall (fun u => (u < 256)%N) w. Proof. apply utf8_bytes. Qed.
Lemma utf16_units c w : utf16_of c w -> Forall (fun u => (u < 2 ^ 16)%N) w.
Proof. intros U. rewrite <- (app_nil_r w). apply (text_units16 [c]). constructor; [exact U|constructor]. Qed.
Lemma recodes_exact T cap bound fin fout : recodes T cap bound fin fout -> exists idle, exact_tc T fin fout idle.
Proof.
  intros []; eexists; first [exact exact_8_32|exact exact_16_32|exact (exact_enc _ _ encoder_8)|exact (exact_enc _ _ encoder_16)|exact (exact_enc _ _ encoder_32)
   |exact (exact_tri _ _ _ _ _ _ _ _ decoder_8 encoder_8 exact_8_32 utf8_units)|exact (exact_tri _ _ _ _ _ _ _ _ decoder_8 encoder_16 exact_8_32 utf8_units)
   |exact (exact_tri _ _ _ _ _ _ _ _ decoder_16 encoder_8 exact_16_32 utf16_units)|exact (exact_tri _ _ _ _ _ _ _ _ decoder_16 encoder_16 exact_16_32 utf16_units)].
Qed.
Lemma recodes_out T cap bound fin fout : recodes T cap bound fin fout -> functional fout /\ nonempty fout.
Proof. intros []; split; first [exact utf8_fun|exact utf16_fun|exact utf32_fun|exact nonempty_8|exact nonempty_16|exact nonempty_32]. Qed.
Lemma recodes_in T cap bound fin fout : recodes T cap bound fin fout -> functional fin /\ nonempty fin.
Proof. intros []; split; first [exact utf8_fun|exact utf16_fun|exact utf32_fun|exact nonempty_8|exact nonempty_16|exact nonempty_32]. Qed.
Lemma recodes_units T cap bound fin fout cs l : recodes T cap bound fin fout -> text fin cs l -> Forall (fun u => (u < bound)%N) l.
Proof. intros []; first [apply text_units8|apply text_units16|apply text_units32]. Qed.
Lemma recodes_total T cap bound fin fout l : recodes T cap bound fin fout -> Forall (fun u => (u < bound)%N) l -> exists out ok, transcode T l = Ok (out, ok).
Proof.
  intros [] F; [apply (conv_total _ _ _ _ l conv_8_8 F)|apply (conv_total _ _ _ _ l conv_8_16 F)|apply (conv_total _ _ _ _ l conv_8_32 F)
    |apply (conv_total _ _ _ _ l conv_16_8 F)|apply (conv_total _ _ _ _ l conv_16_16 F)|apply (conv_total _ _ _ _ l conv_16_32 F)
    |apply (conv_total _ _ _ _ l conv_32_8 F)|apply (conv_total _ _ _ _ l conv_32_16 F)|apply (conv_total _ _ _ _ l conv_32_32 F)].
Qed.
Lemma recodes_text T cap bound fin fout cs l out : recodes T cap bound fin fout -> text fin cs l -> text fout cs out -> transcode T l = Ok (out, true).
Proof.
  intros V A B. pose proof (recodes_units _ _ _ _ _ _ _ V A) as F.
  assert (R8 : text utf8_of cs l -> reads8 l cs true) by apply reads8_true. assert (R16 : text utf16_of cs l -> reads16 l cs true) by apply reads16_true.
  assert (R32 : text utf32_of cs l -> reads32 l cs true) by (intros X; apply text32 in X as [-> S]; apply reads32_true; auto).
  destruct V; [apply (conv_8_8 l F)|apply (conv_8_16 l F)|apply (conv_8_32 l F)|apply (conv_16_8 l F)|apply (conv_16_16 l F)|apply (conv_16_32 l F)
    |apply (conv_32_8 l F)|apply (conv_32_16 l F)|apply (conv_32_32 l F)]; eauto.
Qed.

Lemma base_stands T cap bound fin fout l out ok i : recodes T cap bound fin fout -> Forall (fun u => (u < bound)%N) l -> transcode T l = Ok (out, ok) -> (i <= length out)%nat ->
  exists it, view_at T cap l i = Ok it /\ stands T l out i (vit_base T it).
Proof.
  intros V F E L. destruct (recodes_view _ _ _ _ _ l V F) as (valid & Inv & HT & Hc & Hb & Hn).
  assert (X : exists it, nth_it T cap l i = Ok it /\ Rep T cap Inv l out ok it i).
  { destruct (Nat.lt_ge_cases i (length out)) as [Li|Gi].
    - destruct (at_stand T cap valid Inv HT Hc l Hb Hn out ok E i Li) as (it & N & R & _). eauto.
    - assert (i = length out) as -> by lia. destruct (length out) as [|n] eqn:En.
      + destruct (begin_rep T cap valid Inv HT Hc l Hb Hn out ok E true false) as (it & fl & Ev & R & _); [split; auto; discriminate|]. exists it. cbn [nth_it]. rewrite Ev. auto.
      + destruct (at_stand T cap valid Inv HT Hc l Hb Hn out ok E n ltac:(lia)) as (it & N & R & _).
        destruct (next_rep T cap valid Inv HT Hc l Hb out ok E it n true false R ltac:(lia)) as (it' & fl & Ev & R' & _); [split; auto; discriminate|].
        exists it'. cbn [nth_it]. rewrite N. cbn [bind]. rewrite Ev. auto. }
  destruct X as (it & N & R). exists it. rewrite view_at_is. split; [exact N|]. exact (rep_stands T cap valid Inv HT Hc l Hb Hn out ok E it i R).
Qed.
Lemma equal_run T cap bound fin fout l out ok equal ops x : recodes T cap bound fin fout -> Forall (fun u => (u < bound)%N) l -> transcode T l = Ok (out, ok) ->
  (forall i j, (i <= length out)%nat -> (j <= length out)%nat -> (equal i j = true <-> exists p, stands T l out i p /\ stands T l out j p)) ->
  cursor_run_as out ok equal ops = Some x -> run (view_class T cap l) ops = Ok x.
Proof.
  intros V F E H R. destruct (recodes_view _ _ _ _ _ l V F) as (valid & Inv & HT & Hc & Hb & Hn). exact (run_as T cap valid Inv HT Hc l Hb Hn out ok E equal ops x H R).
Qed.

Lemma text_split form cs us m : text form cs us -> exists a b, us = a ++ b /\ text form (firstn m cs) a /\ text form (skipn m cs) b.
Proof.
  intros H. revert m. induction H as [|c w cs us F H IH]; intros m.
  - exists [], []. destruct m; repeat split; constructor.
  - destruct m as [|m]; [exists [], (w ++ us); cbn; repeat split; [constructor|now constructor]|].
    destruct (IH m) as (a & b & -> & A & B). exists (w ++ a), b. cbn [firstn skipn]. rewrite app_assoc. repeat split; [now constructor|exact B].
Qed.
Section W.
Variables (T : tcdr) (cap : nat) (bound : N) (fin fout : N -> list N -> Prop).
Hypothesis HR : recodes T cap bound fin fout.
Variables (cs l out : list N).
Hypothesis Hl : text fin cs l.
Hypothesis Ho : text fout cs out.

(* how many units the first m code points take *)
Lemma fin_len m x x' : text fin (firstn m cs) x -> text fin (firstn m cs) x' -> x = x'.
Proof. apply text_fun. exact (proj1 (recodes_in _ _ _ _ _ HR)). Qed.
Lemma fout_len m x x' : text fout (firstn m cs) x -> text fout (firstn m cs) x' -> x = x'.
Proof. apply text_fun. exact (proj1 (recodes_out _ _ _ _ _ HR)). Qed.
Lemma longer form c (m m' : nat) x x' : functional form -> nonempty form -> (m < m')%nat -> nth_error cs m = Some c -> text form (firstn m cs) x -> text form (firstn m' cs) x' -> (length x < length x')%nat.
Proof.
  intros Fu Ne L Hc A B. destruct (text_split form _ _ m B) as (a & b & -> & A' & B'). rewrite firstn_firstn, Nat.min_l in A' by lia. rewrite (text_fun _ Fu _ _ _ A A'), app_length.
  assert (Z : skipn m (firstn m' cs) <> []). { intros Z. apply (f_equal (@length N)) in Z. rewrite skipn_length, firstn_length in Z. cbn in Z. assert (m < length cs)%nat by (apply nth_error_Some; congruence). lia. }
  pose proof (text_nonempty form _ _ Ne B' Z) as Q. destruct b; [contradiction|cbn; lia].
Qed.
Lemma within_stands i m : within fout cs i m -> exists x, text fin (firstn m cs) x /\ stands T l out i (length x).
Proof.
  intros [(y1 & c & yc & A & Hc & Fy & L)|(-> & y & Y & ->)].
  - destruct (text_split fin _ _ m Hl) as (x1 & r & El & X1 & Xr). exists x1. split; [exact X1|]. left.
    assert (Ec : skipn m cs = c :: skipn (S m) cs). { clear - Hc. revert m Hc. induction cs as [|d ds IH]; intros [|m] Hc; cbn in *; try discriminate; [congruence|]. rewrite (IH _ Hc). reflexivity. }
    rewrite Ec in Xr. inversion Xr as [|c0 xc cs0 x2 Fc Tx]; subst.
    destruct (recodes_exact _ _ _ _ _ HR) as (idle & X). destruct (recodes_out _ _ _ _ _ HR) as [Fu Ne]. split.
    + destruct (text_split fout _ _ m Ho) as (a & b & Eo & A' & B'). rewrite (fout_len _ _ _ A A') in *. rewrite Ec in B'. inversion B' as [|c1 yc' cs1 y2 Fy' Ty]; subst.
      rewrite (Fu _ _ _ Fy Fy') in *. rewrite !app_length. lia.
    + exact (exact_belongs T fin fout idle X Fu Ne _ _ _ _ _ _ _ _ X1 A Fc (proj2 (recodes_in _ _ _ _ _ HR) _ _ Fc) Fy L).
  - exists l. rewrite firstn_all. split; [exact Hl|]. right. split; [|reflexivity]. now rewrite (text_fun _ (proj1 (recodes_out _ _ _ _ _ HR)) _ _ _ Y Ho).
Qed.
Lemma within_total i : (i <= length out)%nat -> exists m, within fout cs i m.
Proof.
  clear Hl. revert i. induction Ho as [|c w cs' us F H IH]; intros i L.
  - exists 0%nat. right. split; [reflexivity|]. exists []. split; [constructor|]. cbn in *. lia.
  - rewrite app_length in L. destruct (Nat.lt_ge_cases i (length w)) as [Li|Gi].
    + exists 0%nat. left. exists [], c, w. repeat split; [constructor|exact F|cbn; lia|cbn; lia].
    + destruct (IH H (i - length w)%nat ltac:(lia)) as (m & [(y1 & d & yc & A & Hd & Fy & Lm)|(-> & y & Y & E)]).
      * exists (S m). left. exists (w ++ y1), d, yc. cbn [firstn nth_error]. rewrite app_length. repeat split; [now constructor|exact Hd|exact Fy|lia|lia].
      * exists (length (c :: cs')). right. split; [reflexivity|]. exists (w ++ y). rewrite app_length. split; [now constructor|lia].
Qed.
Lemma within_le i m : within fout cs i m -> (m <= length cs)%nat.
Proof. intros [(y1 & c & yc & _ & Hc & _)|(-> & _)]; [|auto]. apply Nat.lt_le_incl, nth_error_Some. congruence. Qed.
Lemma prefix_inj m m' x x' : (m <= length cs)%nat -> (m' <= length cs)%nat -> text fin (firstn m cs) x -> text fin (firstn m' cs) x' -> length x = length x' -> m = m'.
Proof.
  intros L L' A B E. destruct (recodes_in _ _ _ _ _ HR) as [Fu Ne]. destruct (Nat.lt_trichotomy m m') as [H|[H|H]]; [exfalso|exact H|exfalso].
  - destruct (nth_error cs m) as [c|] eqn:Hc; [|apply nth_error_None in Hc; lia]. pose proof (longer fin c _ _ _ _ Fu Ne H Hc A B). lia.
  - destruct (nth_error cs m') as [c|] eqn:Hc; [|apply nth_error_None in Hc; lia]. pose proof (longer fin c _ _ _ _ Fu Ne H Hc B A). lia.
Qed.
Lemma within_same i j : (i <= length out)%nat -> (j <= length out)%nat -> ((exists m, within fout cs i m /\ within fout cs j m) <-> exists p, stands T l out i p /\ stands T l out j p).
Proof.
  intros Li Lj. split.
  - intros (m & A & B). destruct (within_stands _ _ A) as (x & X & S). destruct (within_stands _ _ B) as (x' & X' & S'). rewrite (fin_len _ _ _ X' X) in S'. eauto.
  - intros (p & A & B). destruct (within_total i Li) as (m & Wi). destruct (within_total j Lj) as (m' & Wj).
    destruct (within_stands _ _ Wi) as (x & X & S). destruct (within_stands _ _ Wj) as (x' & X' & S').
    pose proof (stands_unique T l out i _ _ A S) as E1. pose proof (stands_unique T l out j _ _ B S') as E2.
    assert (m = m') as <- by (apply (prefix_inj m m' x x'); [exact (within_le _ _ Wi)|exact (within_le _ _ Wj)|exact X|exact X'|congruence]). eauto.
Qed.
End W.
