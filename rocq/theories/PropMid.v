(* PROPERTY THEOREMS: what partial() and well_formed() tell in the middle of the input, without end_cp having
   been called (C70).  Vocabulary: SpecIcu.v, SpecMid.v.  feed T (tc_init T) l is giving the units l to a fresh
   transcoder T one by one; the answer is its state and what was written. *)
From Verif Require Import Base ModelIcu SpecIcu SpecMid IcuUtf8 IcuRead8 IcuEnc IcuView IcuByte IcuProps IcuMid.
Local Open Scope N_scope.
Local Open Scope list_scope.

(* the nine transcoders: well_formed() stays true exactly as long as well-formed text can still come of it *)
Theorem C70_well_formed T fin bound l s w : well_reader T fin bound -> Forall (fun u => u < bound) l -> feed T (tc_init T) l = Ok (s, w) ->
  (tc_wf T s = true <-> begins fin l).
Proof. exact (wf_all T fin bound l s w). Qed.
Print Assumptions C70_well_formed.

(* the byte transcoder, the same two answers *)
Theorem C70_bytes_partial T form l s w : byte_to T form -> Forall (fun u => u < 2 ^ 8) l -> feed T (tc_init T) l = Ok (s, w) ->
  ~ ends_in_bom l -> ~ le16_then_zero l -> ~ le32_large l ->
  (tc_partial T s = false <-> exists cs ok, reads_bytes l cs ok /\ text form cs w).
Proof.
  intros V F E NU NZ NL.
  destruct V; [eapply (bytes_mid_partial t8_8 t16_8 t32_8 utf8_of)|eapply (bytes_mid_partial t8_16 t16_16 t32_16 utf16_of)|eapply (bytes_mid_partial t8_32 t16_32 t32_32 utf32_of)];
  first [eassumption
        |intros ? ? ? ? ?; eapply partial_all; [|eassumption|eassumption]; constructor
        |intros ? ? ? ? ? ? ?; eapply not_mono; [|eassumption|assumption|assumption]; eapply bytes_total; [|eassumption]; constructor].
Qed.
Print Assumptions C70_bytes_partial.
Theorem C70_bytes_well_formed T form l s w : byte_to T form -> Forall (fun u => u < 2 ^ 8) l -> feed T (tc_init T) l = Ok (s, w) ->
  ~ ends_in_bom l -> ~ le16_then_zero l -> ~ le32_large l -> (tc_wf T s = true <-> begins_bytes l).
Proof.
  intros V F E NU NZ NL.
  destruct V; [eapply (bytes_mid_wf t8_8 t16_8 t32_8)|eapply (bytes_mid_wf t8_16 t16_16 t32_16)|eapply (bytes_mid_wf t8_32 t16_32 t32_32)];
  first [eassumption
        |intros ? ? ? ? ?; eapply wf_all; [|eassumption|eassumption]; constructor
        |intros ? ? ? ? ? ? ?; eapply not_mono; [|eassumption|assumption|assumption]; eapply bytes_total; [|eassumption]; constructor].
Qed.
Print Assumptions C70_bytes_well_formed.
(* within a byte order mark nothing has been written, the transcoder says it is in the middle of something, and nothing is wrong yet *)
Theorem C70_bytes_mark T form l s w : byte_to T form -> feed T (tc_init T) l = Ok (s, w) -> ends_in_bom l ->
  w = [] /\ tc_partial T s = true /\ tc_wf T s = true.
Proof. intros V E U. destruct V;
  [apply (bytes_mid_mark t8_8 t16_8 t32_8 l)|apply (bytes_mid_mark t8_16 t16_16 t32_16 l)|apply (bytes_mid_mark t8_32 t16_32 t32_32 l)]; assumption. Qed.
Print Assumptions C70_bytes_mark.
Theorem C70_bytes_empty T form : byte_to T form -> tc_partial T (tc_init T) = false /\ tc_wf T (tc_init T) = true.
Proof. intros []; split; reflexivity. Qed.
Print Assumptions C70_bytes_empty.
(* the two departures C30 found, seen from the middle *)
Theorem C70_bytes_le16_then_zero T form l s w : byte_to T form -> Forall (fun u => u < 2 ^ 8) l -> feed T (tc_init T) l = Ok (s, w) -> le16_then_zero l ->
  (tc_partial T s = false <-> exists cs ok, reads8 l cs ok /\ text form cs w) /\ (tc_wf T s = true <-> begins utf8_of l).
Proof.
  intros V F E Z.
  destruct V; [eapply (bytes_mid_zero16 t8_8 t16_8 t32_8 utf8_of)|eapply (bytes_mid_zero16 t8_16 t16_16 t32_16 utf16_of)|eapply (bytes_mid_zero16 t8_32 t16_32 t32_32 utf32_of)];
  first [eassumption
        |intros ? ? ? ? ?; eapply partial_all; [|eassumption|eassumption]; constructor
        |intros ? ? ? ? ?; eapply wf_all; [|eassumption|eassumption]; constructor
        |intros ? ? ? ? ? ? ?; eapply not_mono; [|eassumption|assumption|assumption]; eapply bytes_total; [|eassumption]; constructor].
Qed.
Print Assumptions C70_bytes_le16_then_zero.
Theorem C70_bytes_le32 T form r s w : byte_to T form -> Forall (fun u => u < 2 ^ 8) r -> feed T (tc_init T) (bom32le ++ r) = Ok (s, w) ->
  let units := units32 (fun a b c d => le32 a b c 0) r in
  (tc_partial T s = false <-> exists cs ok, reads32 units cs ok /\ text form cs w) /\ (tc_wf T s = true <-> begins utf32_of units).
Proof.
  intros V F E.
  destruct V; [eapply (bytes_mid_large32 t8_8 t16_8 t32_8 utf8_of)|eapply (bytes_mid_large32 t8_16 t16_16 t32_16 utf16_of)|eapply (bytes_mid_large32 t8_32 t16_32 t32_32 utf32_of)];
  first [eassumption
        |intros ? ? ? ? ?; eapply partial_all; [|eassumption|eassumption]; constructor
        |intros ? ? ? ? ?; eapply wf_all; [|eassumption|eassumption]; constructor
        |intros ? ? ? ? ? ? ?; eapply not_mono; [|eassumption|assumption|assumption]; eapply bytes_total; [|eassumption]; constructor].
Qed.
Print Assumptions C70_bytes_le32.

(* half a code unit is invisible: the answer is "fine so far" although nothing that could follow would be well-formed *)
Lemma no_pair x r cs : x < 0x100 -> ~ text utf16_of cs (0xD800 :: x :: r).
Proof.
  intros X H. inversion H as [|c w cs' l' U T E1 E2]; subst. destruct U as [c L S|c L1 L2]; cbn [app] in E2.
  - injection E2 as -> E2. unfold scalar in S. lia.
  - assert (E3 : nth 1 [0xD800 + (c - 0x10000) / 2 ^ 10; 0xDC00 + (c - 0x10000) mod 2 ^ 10] 0 = x) by (apply (f_equal (fun v => nth 1 v 0)) in E2; exact E2).
    cbn [nth] in E3. rewrite <- E3 in X. clear - X. revert X. generalize ((c - 0x10000) mod 2 ^ 10). intros n X. lia.
Qed.
Theorem C70_half_unit_refuted :
  (exists s, feed tx_32 (tc_init tx_32) (bom16be ++ [0xD8; 0x00; 0x00]) = Ok (s, []) /\ tc_wf tx_32 s = true)
  /\ forall more cs, Forall (fun u => u < 2 ^ 8) more -> ~ reads_bytes (bom16be ++ [0xD8; 0x00; 0x00] ++ more) cs true.
Proof.
  split; [eexists; split; reflexivity|]. intros more cs F H. apply rb_is_16be in H. apply reads16_true in H.
  destruct F as [|b more Hb F].
  - change (text utf16_of cs [0xD800]) in H. inversion H as [|c w cs' l' U T E1 E2]; subst. destruct U as [c L S|c L1 L2]; cbn [app] in E2; [|discriminate].
    injection E2 as -> E2. unfold scalar in S. lia.
  - change (text utf16_of cs (0xD800 :: b :: units16 be16 more)) in H. exact (no_pair b _ _ Hb H).
Qed.
Print Assumptions C70_half_unit_refuted.
(* E2 82 (two of the three bytes of the euro sign), E2 82 41, a surrogate first half, a mark half read, and a unit half read *)
Example C70_ex :
  let ask (T : tcdr) l := do (s, w) <- feed T (tc_init T) l; Ok (w, tc_partial T s, tc_wf T s) in
  ask t8_32 [0x41; 0xE2; 0x82] = Ok ([0x41], true, true) /\ ask t8_32 [0xE2; 0x82; 0x41] = Ok ([fffd], false, false)
  /\ ask t16_8 [0x41; 0xD83D] = Ok ([0x41], true, true) /\ ask t16_8 [0x41; 0xDE00] = Ok ([0x41; 0xEF; 0xBF; 0xBD], false, false)
  /\ ask tx_32 [0xEF; 0xBB] = Ok ([], true, true) /\ ask tx_32 (bom8 ++ [0x41; 0xC3]) = Ok ([0x41], true, true)
  /\ ask tx_32 (bom8 ++ [0x41; 0xC3; 0xA9]) = Ok ([0x41; 0xE9], false, true)
  /\ ask tx_32 (bom16be ++ [0xD8; 0x3D]) = Ok ([], true, true) /\ ask tx_32 (bom16le ++ [0x3D; 0xD8; 0x00; 0xDE]) = Ok ([0x1F600], false, true)
  /\ ask tx_32 [0x80] = Ok ([fffd], false, false).
Proof. vm_compute. repeat split. Qed.
Example C70_begins_ex : begins utf8_of [0x41; 0xE2; 0x82] /\ ~ begins utf8_of [0xE2; 0x82; 0x41].
Proof.
  split.
  - exists [0xAC], [0x41; 0x20AC]. apply reads8_true. apply (transcode_8_32 [0x41; 0xE2; 0x82; 0xAC]); [|vm_compute; reflexivity].
    repeat first [apply Forall_cons|apply Forall_nil]; reflexivity.
  - intros H. eapply (C70_well_formed t8_32 utf8_of) in H; [|constructor| |vm_compute; reflexivity]; [discriminate H|].
    repeat first [apply Forall_cons|apply Forall_nil]; reflexivity.
Qed.
