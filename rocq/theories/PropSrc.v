(* C79: reading a text from a source that throws *)
From Verif Require Import Base ModelPct ModelIcu ModelHist ModelSrcThrow SpecPct SpecSrc IcuProps SrcThrowFacts SrcThrowExact SrcThrowPct.
Local Open Scope list_scope.
Local Open Scope N_scope.

(* A loop over a transcoding view has the whole text if the source does not throw while it is read: each unit is read
   once, and moved past once. *)
Theorem C79_complete T cap bound l fails out ok fuel : view_of T cap bound -> Forall (fun u => u < bound) l ->
  transcode T l = Ok (out, ok) -> (length out < fuel)%nat -> (forall j, (j < 2 * length l)%nat -> fails j = false) ->
  view_range_for fails T cap l fuel = Ok (true, out, ok).
Proof.
  intros V B E L Hf. destruct (views T cap bound l V B) as (out' & ok' & E' & It). rewrite E in E'. injection E' as <- <-.
  specialize (It fuel L). assert (Hc : (cap < 16)%nat) by (destruct V; vm_compute; repeat constructor).
  destruct l as [|u l].
  { unfold view_range_for, vbegin_x. cbn [length Nat.eqb bind]. unfold view_iterate, vbegin in It. cbn [length Nat.eqb bind] in It.
    destruct fuel as [|fuel]; [lia|]. cbn [vcollect range_for] in *. unfold vdone in *. cbn [v_current length Nat.eqb] in *. congruence. }
  destruct (view_first fails T cap (u :: l) Hc (2 * length (u :: l)) Hf (or_intror (le_n _)) fuel out ok It ltac:(discriminate)) as [[_ Q]|[X _]]; [exact Q|lia].
Qed.
Print Assumptions C79_complete.
(* If it throws, the loop has seen exactly what the transcoder writes for the units before the one whose reading, or
   moving past, threw (nothing is held back, and nothing is made up), and the view does not call a well formed text
   ill formed. *)
Theorem C79_cut_off T cap bound l fails m out ok fuel : view_of T cap bound -> Forall (fun u => u < bound) l ->
  transcode T l = Ok (out, ok) -> (length out < fuel)%nat -> first_failure fails m -> (m < 2 * length l)%nat ->
  exists s seen wf, feed T (tc_init T) (firstn (m / 2) l) = Ok (s, seen)
  /\ view_range_for fails T cap l fuel = Ok (false, seen, wf) /\ (ok = true -> wf = true).
Proof.
  intros V B E L [Hm Hb] Lm. destruct (views T cap bound l V B) as (out' & ok' & E' & It). rewrite E in E'. injection E' as <- <-.
  specialize (It fuel L). assert (Hc : (cap < 16)%nat) by (destruct V; vm_compute; repeat constructor).
  assert (NE : l <> []) by (intros ->; cbn in Lm; lia).
  destruct (view_first fails T cap l Hc m Hb (or_introl Hm) fuel out ok It NE) as [[X _]|(_ & w & wf & s & Q & R & W)]; [lia|].
  exists s, w, wf. auto.
Qed.
Print Assumptions C79_cut_off.
(* A program that keeps a copy of the iterator, goes back to it when ++ throws, and calls begin() again when that throws,
   gets the whole text and the right well_formed() once the source has recovered, *)
Theorem C79_from_copy T cap bound l fails K out ok tries fuel : view_of T cap bound -> Forall (fun u => u < bound) l ->
  transcode T l = Ok (out, ok) -> recovers fails K -> (K < tries)%nat -> (length out < fuel)%nat ->
  view_patient_for fails T cap l tries fuel = Ok (out, ok).
Proof.
  intros V B E HK HT L. destruct (views T cap bound l V B) as (out' & ok' & E' & It). rewrite E in E'. injection E' as <- <-.
  exact (view_patient fails T cap l K HK tries fuel _ HT (It fuel L)).
Qed.
Print Assumptions C79_from_copy.
(* and if it gives up it has done nothing undefined on the way: whatever the source does, it ends with the right text or does not
   end *)
Theorem C79_never_wrong T cap bound l fails out ok tries fuel : view_of T cap bound -> Forall (fun u => u < bound) l ->
  transcode T l = Ok (out, ok) -> (length out < fuel)%nat ->
  view_patient_for fails T cap l tries fuel = Ok (out, ok) \/ view_patient_for fails T cap l tries fuel = Diverge.
Proof.
  intros V B E L. destruct (views T cap bound l V B) as (out' & ok' & E' & It). rewrite E in E'. injection E' as <- <-.
  destruct (view_patient_any fails T cap l tries fuel _ (It fuel L)); auto.
Qed.
Print Assumptions C79_never_wrong.
(* Without a copy there is no going on.  Whatever iterator it was, after an exception from ++ it compares as before (so not
   equal to the end, if it was not), and neither * nor ++ may be applied to it again; well_formed() is as it was. *)
Theorem C79_stuck fails T cap l k it wf k' it' wf' : vnext_x fails T cap l k it wf = Ok (Threw k' (it', wf')) ->
  wf' = wf /\ vdone T l it' = vdone T l it /\ vderef T it' = Fault assert_failed
  /\ forall j b, vnext_x fails T cap l j it' b = Fault assert_failed.
Proof.
  intros H. destruct (stuck fails T cap l k it wf k' it' wf' H) as (A & B & C & D). split; [exact A|]. split; [unfold vdone; now rewrite B|auto].
Qed.
Print Assumptions C79_stuck.
(* so "try ++ again" is not a program over these views, though it is one over an iterator that keeps its value on an
   exception *)
Theorem C79_again_refuted : exists it wf it' wf', let fails k := Nat.eqb k 3 in
  vbegin_x fails t8_32 max_output_32 [0x41; 0x42; 0x43] 0 true = Ok (Done 2 (it, wf)) /\ vdone t8_32 [0x41; 0x42; 0x43] it = false /\ vderef t8_32 it = Ok 0x41
  /\ vnext_x fails t8_32 max_output_32 [0x41; 0x42; 0x43] 2 it wf = Ok (Threw 4 (it', wf'))
  /\ vdone t8_32 [0x41; 0x42; 0x43] it' = false /\ vderef t8_32 it' = Fault assert_failed
  /\ vnext_x fails t8_32 max_output_32 [0x41; 0x42; 0x43] 4 it' wf' = Fault assert_failed.
Proof. do 4 eexists. cbn zeta. split; [vm_compute; reflexivity|]. repeat split; vm_compute; reflexivity. Qed.
Print Assumptions C79_again_refuted.

(* The percent decoding iterators are such iterators: an exception from * or ++ leaves them as they were, *)
Theorem C79_pct_kept fails s k it k' it' : pderef_x fails s k it = Ok (Threw k' it') \/ pnext_x fails s k it = Ok (Threw k' it') -> it' = it.
Proof. intros [H|H]; [exact (kept_deref fails s k it k' it' H)|exact (kept_next fails s k it k' it' H)]. Qed.
Print Assumptions C79_pct_kept.
(* one may simply try again, *)
Theorem C79_pct_again s t fails K tries fuel : decodes s t -> recovers fails K -> (K < tries)%nat -> (length t <= fuel)%nat ->
  pct_patient_for fails s tries fuel = Ok t.
Proof. intros D HK HT L. exact (decode_retry fails s K HK tries HT fuel 0 (Pit 0 (chr 0)) t (Nat.le_0_l _) D L). Qed.
Print Assumptions C79_pct_again.
(* and a loop that is cut off has seen the beginning of the decoded text. *)
Theorem C79_pct_cut_off s t fails fuel : decodes s t -> (length t <= fuel)%nat ->
  exists whole seen, pct_range_for fails s fuel = Ok (whole, seen) /\ (whole = true -> seen = t) /\ (exists rest, t = seen ++ rest)
  /\ ((forall k, fails k = false) -> whole = true).
Proof.
  intros D L. destruct (pct_for_prefix fails s fuel 0 (Pit 0 (chr 0)) t (Nat.le_0_l _) D L) as (d & w & E & A & B & C).
  exists d, w. split; [exact E|]. split; [exact A|]. split; [exact B|]. intros H. destruct d; [reflexivity|]. destruct (C eq_refl) as (j & _ & F). rewrite H in F. discriminate.
Qed.
Print Assumptions C79_pct_cut_off.
(* pctencode, too, never leaves half an escape behind: what it has written is the encoding of the characters read so far. *)
Theorem C79_encode_cut_off s es fails m out : es < 256 -> first_failure fails m -> (m < 2 * length s)%nat ->
  exists e, pctencode (firstn ((m + 1) / 2) s) es = Ok e /\ pctencode_x fails s es 0 out = Ok (false, out ++ e).
Proof.
  intros He [Hm Hb] L. destruct (encode_first fails m es He Hb s 0 out (Nat.le_0_l _) (or_introl Hm)) as [[X _]|[_ Q]]; [cbn in X; lia|].
  rewrite Nat.sub_0_r in Q. exists (PctFacts.enc es (firstn ((m + 1) / 2) s)). split; [apply PctFacts.pctencode_enc; exact He|exact Q].
Qed.
Print Assumptions C79_encode_cut_off.
Theorem C79_encode_complete s es fails e : pctencode s es = Ok e -> es < 256 -> (forall j, (j < 2 * length s)%nat -> fails j = false) ->
  pctencode_x fails s es 0 [] = Ok (true, e).
Proof.
  intros E He Hb. rewrite PctFacts.pctencode_enc in E by exact He. injection E as <-.
  destruct (encode_first fails (2 * length s) es He Hb s 0 [] (Nat.le_0_l _) (or_intror (le_n _))) as [[_ Q]|[X _]]; [exact Q|cbn in X; lia].
Qed.
Print Assumptions C79_encode_complete.

Example C79_ex : let l := [0x41; 0xE2; 0x82; 0xAC; 0x42; 0xFF; 0x43] in let fails k := Nat.eqb k 5 || Nat.eqb k 11 || Nat.eqb k 12 in
  transcode t8_16 l = Ok ([0x41; 0x20AC; 0x42; 0xFFFD; 0x43], false) /\ first_failure fails 5 /\ recovers fails 13
  /\ (exists s, feed t8_16 (tc_init t8_16) (firstn (5 / 2) l) = Ok (s, [0x41])) /\ view_range_for fails t8_16 max_output_16 l 6 = Ok (false, [0x41], true)
  /\ view_patient_for fails t8_16 max_output_16 l 4 6 = Ok ([0x41; 0x20AC; 0x42; 0xFFFD; 0x43], false)
  /\ view_patient_for (fun k => Nat.leb 3 k) t8_16 max_output_16 l 100 6 = Diverge
  /\ pct_patient_for fails (ss "a%2Fb%zz") 3 9 = Ok (ss "a/b%zz") /\ pct_range_for fails (ss "a%2Fb%zz") 9 = Ok (false, ss "a/")
  /\ pctencode_x fails (ss "a b/c d") es_component 0 [] = Ok (false, ss "a%20b").
Proof.
  cbn zeta. split; [vm_compute; reflexivity|]. split. { split; [reflexivity|]. intros j H. do 5 (destruct j as [|j]; [reflexivity|]). lia. }
  split. { intros n H. do 13 (destruct n as [|n]; [lia|]). reflexivity. }
  split; [eexists; vm_compute; reflexivity|]. repeat split; vm_compute; reflexivity.
Qed.
