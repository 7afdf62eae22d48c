(* PROPERTY THEOREMS: icubaby's transcoders, byte order marks and transcode views (C22, C23, C29-C31,
   C36-C38).  Vocabulary: SpecIcu.v.  transcode T l is feeding l to the transcoder T unit by unit,
   calling end_cp and asking well_formed(). *)
From Verif Require Import Base ModelIcu SpecIcu IcuUtf8 IcuRead8 IcuEnc IcuView IcuViewAll IcuByte IcuCount IcuProps.
Local Open Scope N_scope.
Local Open Scope list_scope.

(* --- C22: UTF-8 to UTF-32 --------------------------------------------------------------------------- *)
Theorem C22_decode l out ok : Forall (fun u => u < 2 ^ 8) l -> (transcode t8_32 l = Ok (out, ok) <-> reads8 l out ok).
Proof. exact (transcode_8_32 l out ok). Qed.
Print Assumptions C22_decode.
Theorem C22_total l : Forall (fun u => u < 2 ^ 8) l -> exists out ok, transcode t8_32 l = Ok (out, ok) /\ Forall scalar out /\ (ok = false -> In fffd out).
Proof.
  intros B. destruct (transcode_8_32_total l B) as (out & ok & E). exists out, ok. split; [exact E|]. apply (transcode_8_32 l out ok B) in E.
  split; [eapply reads8_scalar; exact E|]. intros ->. eapply reads8_flag; [exact E|reflexivity].
Qed.
Print Assumptions C22_total.
Theorem C22_well_formed l out : Forall (fun u => u < 2 ^ 8) l -> (transcode t8_32 l = Ok (out, true) <-> text utf8_of out l).
Proof. intros B. rewrite (transcode_8_32 l out true B). apply reads8_true. Qed.
Print Assumptions C22_well_formed.
Theorem C22_table w : (exists c, utf8_of c w) <-> table_3_7 w.
Proof. split; [intros (c & U); eapply utf8_row; exact U|apply row_utf8]. Qed.
Print Assumptions C22_table.
(* an ill-formed sequence swallows the byte that breaks it, against the practice the standard recommends *)
Theorem C22_maximal_refuted : exists l out, reads8_maximal l out /\ Forall (fun u => u < 2 ^ 8) l /\ transcode t8_32 l = Ok ([fffd], false) /\ out = [fffd; 0x41].
Proof.
  exists [0xC3; 0x41], [fffd; 0x41]. split; [|split; [repeat first [apply Forall_cons|apply Forall_nil]; reflexivity|split; [vm_compute; reflexivity|reflexivity]]].
  change [0xC3; 0x41] with ([0xC3] ++ [0x41]). apply m8_subpart.
  - discriminate.
  - exists 0xC0, [0x80]. split; [discriminate|]. exact (utf8_2 0xC0 ltac:(discriminate) ltac:(reflexivity)).
  - intros b r E. injection E as <- _. split.
    + intros (c & v & _ & U). apply utf8_row in U. inversion U; unfold between in *; lia.
    + intros (c & U). apply utf8_row in U. inversion U; unfold between in *; lia.
  - change [0x41] with ([0x41] ++ []) at 1. apply m8_good; [apply utf8_1; reflexivity|constructor].
Qed.
Print Assumptions C22_maximal_refuted.
Example C22_ex : transcode t8_32 [0x24; 0xC2; 0xA2; 0xE2; 0x82; 0xAC; 0xF0; 0x90; 0x8D; 0x88] = Ok ([0x24; 0xA2; 0x20AC; 0x10348], true)
  /\ transcode t8_32 [0x41; 0xC0; 0x80; 0xED; 0xA0; 0x80; 0xF0; 0x90] = Ok ([0x41; fffd; fffd; fffd; fffd; fffd], false).
Proof. vm_compute. split; reflexivity. Qed.

(* --- C23: UTF-32 to UTF-8 --------------------------------------------------------------------------- *)
Theorem C23_encode l out ok : transcode t32_8 l = Ok (out, ok) <-> exists cs, reads32 l cs ok /\ text utf8_of cs out.
Proof. apply transcode_32; [apply encoder_8|apply utf8_fun]. Qed.
Print Assumptions C23_encode.
Theorem C23_total l : exists out cs ok, transcode t32_8 l = Ok (out, ok) /\ reads32 l cs ok /\ transcode t8_32 out = Ok (cs, true).
Proof.
  destruct (enc_transcode _ _ encoder_8 l) as (cs & ok & w & R & E & T). exists w, cs, ok. split; [exact E|]. split; [exact R|].
  apply transcode_8_32; [eapply text_bytes8; exact T|apply reads8_true; exact T].
Qed.
Print Assumptions C23_total.
Theorem C23_round_trip l : Forall scalar l -> exists e, transcode t32_8 l = Ok (e, true) /\ transcode t8_32 e = Ok (l, true).
Proof.
  intros S. destruct (C23_total l) as (e & cs & ok & E & R & D). assert (X : reads32 l l true) by (apply reads32_true; auto).
  destruct (reads32_fun _ _ _ R _ _ X) as [-> ->]. exists e. auto.
Qed.
Print Assumptions C23_round_trip.
Theorem C23_round_trip_back e l : Forall (fun u => u < 2 ^ 8) e -> transcode t8_32 e = Ok (l, true) -> transcode t32_8 l = Ok (e, true).
Proof.
  intros B D. apply C23_encode. apply (transcode_8_32 e l true B) in D. exists l. split; [|apply reads8_true; exact D].
  apply reads32_true. split; [reflexivity|]. eapply reads8_scalar; exact D.
Qed.
Print Assumptions C23_round_trip_back.
Example C23_ex : transcode t32_8 [0x7F; 0x80; 0x7FF; 0x800; 0xFFFF; 0x10000; 0x10FFFF]
    = Ok ([0x7F; 0xC2; 0x80; 0xDF; 0xBF; 0xE0; 0xA0; 0x80; 0xEF; 0xBF; 0xBF; 0xF0; 0x90; 0x80; 0x80; 0xF4; 0x8F; 0xBF; 0xBF], true)
  /\ transcode t32_8 [0xD800; 0x110000; 0x41] = Ok ([0xEF; 0xBF; 0xBD; 0xEF; 0xBF; 0xBD; 0x41], false).
Proof. vm_compute. split; reflexivity. Qed.

(* --- C29: UTF-16 ------------------------------------------------------------------------------------- *)
Theorem C29_decode l out ok : Forall (fun u => u < 2 ^ 16) l -> (transcode t16_32 l = Ok (out, ok) <-> reads16 l out ok).
Proof. exact (transcode_16_32 l out ok). Qed.
Print Assumptions C29_decode.
Theorem C29_total l : Forall (fun u => u < 2 ^ 16) l -> exists out ok, transcode t16_32 l = Ok (out, ok) /\ Forall scalar out /\ (ok = false -> In fffd out).
Proof.
  intros B. destruct (transcode_16_32_total l B) as (out & ok & E & R). exists out, ok. split; [exact E|].
  split; [eapply reads16_scalar; exact R|]. intros ->. eapply reads16_flag; [exact R|reflexivity].
Qed.
Print Assumptions C29_total.
Theorem C29_well_formed l out : Forall (fun u => u < 2 ^ 16) l -> (transcode t16_32 l = Ok (out, true) <-> text utf16_of out l).
Proof. intros B. rewrite (transcode_16_32 l out true B). apply reads16_true. Qed.
Print Assumptions C29_well_formed.
Theorem C29_encode l out ok : transcode t32_16 l = Ok (out, ok) <-> exists cs, reads32 l cs ok /\ text utf16_of cs out.
Proof. apply transcode_32; [apply encoder_16|apply utf16_fun]. Qed.
Print Assumptions C29_encode.
Theorem C29_encode_total l : exists out cs ok, transcode t32_16 l = Ok (out, ok) /\ reads32 l cs ok /\ transcode t16_32 out = Ok (cs, true).
Proof.
  destruct (enc_transcode _ _ encoder_16 l) as (cs & ok & w & R & E & T). exists w, cs, ok. split; [exact E|]. split; [exact R|].
  apply transcode_16_32; [eapply text_units16; exact T|apply reads16_true; exact T].
Qed.
Print Assumptions C29_encode_total.
Theorem C29_round_trip l : Forall scalar l -> exists e, transcode t32_16 l = Ok (e, true) /\ transcode t16_32 e = Ok (l, true).
Proof.
  intros S. destruct (C29_encode_total l) as (e & cs & ok & E & R & D). assert (X : reads32 l l true) by (apply reads32_true; auto).
  destruct (reads32_fun _ _ _ R _ _ X) as [-> ->]. exists e. auto.
Qed.
Print Assumptions C29_round_trip.
Theorem C29_round_trip_back e l : Forall (fun u => u < 2 ^ 16) e -> transcode t16_32 e = Ok (l, true) -> transcode t32_16 l = Ok (e, true).
Proof.
  intros B D. apply C29_encode. apply (transcode_16_32 e l true B) in D. exists l. split; [|apply reads16_true; exact D].
  apply reads32_true. split; [reflexivity|]. eapply reads16_scalar; exact D.
Qed.
Print Assumptions C29_round_trip_back.
Example C29_ex : transcode t16_32 [0x41; 0xD801; 0xDC37; 0xFFFF] = Ok ([0x41; 0x10437; 0xFFFF], true)
  /\ transcode t16_32 [0xDC00; 0xD800; 0xD801; 0xDC37; 0xD800; 0x41; 0xDBFF] = Ok ([fffd; fffd; 0x10437; fffd; 0x41; fffd], false)
  /\ transcode t32_16 [0xFFFF; 0x10000; 0x10FFFF; 0xDFFF] = Ok ([0xFFFF; 0xD800; 0xDC00; 0xDBFF; 0xDFFF; 0xFFFD], false).
Proof. vm_compute. repeat split. Qed.

(* --- C36: the remaining pairs of encodings ------------------------------------------------------------- *)
Theorem C36_8_16 l : Forall (fun u => u < 2 ^ 8) l -> (exists out ok, transcode t8_16 l = Ok (out, ok))
  /\ forall out ok, transcode t8_16 l = Ok (out, ok) <-> exists cs, reads8 l cs ok /\ text utf16_of cs out.
Proof. apply conv_8_16. Qed.
Print Assumptions C36_8_16.
Theorem C36_16_8 l : Forall (fun u => u < 2 ^ 16) l -> (exists out ok, transcode t16_8 l = Ok (out, ok))
  /\ forall out ok, transcode t16_8 l = Ok (out, ok) <-> exists cs, reads16 l cs ok /\ text utf8_of cs out.
Proof. apply conv_16_8. Qed.
Print Assumptions C36_16_8.
Theorem C36_8_8 l : Forall (fun u => u < 2 ^ 8) l -> (exists out ok, transcode t8_8 l = Ok (out, ok))
  /\ forall out ok, transcode t8_8 l = Ok (out, ok) <-> exists cs, reads8 l cs ok /\ text utf8_of cs out.
Proof. apply conv_8_8. Qed.
Print Assumptions C36_8_8.
Theorem C36_16_16 l : Forall (fun u => u < 2 ^ 16) l -> (exists out ok, transcode t16_16 l = Ok (out, ok))
  /\ forall out ok, transcode t16_16 l = Ok (out, ok) <-> exists cs, reads16 l cs ok /\ text utf16_of cs out.
Proof. apply conv_16_16. Qed.
Print Assumptions C36_16_16.
Theorem C36_32_32 l out ok : transcode t32_32 l = Ok (out, ok) <-> reads32 l out ok.
Proof. rewrite (transcode_32 _ _ encoder_32 l out ok utf32_fun). symmetry. apply (via32 reads32). apply reads32_scalar. Qed.
Print Assumptions C36_32_32.
(* UTF-8 to UTF-16 and back, and the other way round *)
Theorem C36_round_trip_8 l out : Forall (fun u => u < 2 ^ 8) l -> transcode t8_16 l = Ok (out, true) -> transcode t16_8 out = Ok (l, true).
Proof.
  apply (back t8_16 t16_8 reads8 reads16 utf16_of utf8_of (2 ^ 8) (2 ^ 16) conv_8_16 conv_16_8 reads8_true); [intros; apply reads16_true; assumption|apply text_units16].
Qed.
Print Assumptions C36_round_trip_8.
Theorem C36_round_trip_16 l out : Forall (fun u => u < 2 ^ 16) l -> transcode t16_8 l = Ok (out, true) -> transcode t8_16 out = Ok (l, true).
Proof.
  apply (back t16_8 t8_16 reads16 reads8 utf8_of utf16_of (2 ^ 16) (2 ^ 8) conv_16_8 conv_8_16 reads16_true); [intros; apply reads8_true; assumption|apply text_units8].
Qed.
Print Assumptions C36_round_trip_16.
(* whatever the input, what comes out is well-formed: transcoding it again changes nothing *)
Theorem C36_repair_8 l out ok : Forall (fun u => u < 2 ^ 8) l -> transcode t8_8 l = Ok (out, ok) -> transcode t8_8 out = Ok (out, true) /\ (ok = true -> out = l).
Proof.
  intros B E. apply (conv_8_8 l B) in E. destruct E as (cs & R & T). split.
  - apply conv_8_8; [apply (text_units8 cs out T)|]. exists cs. split; [apply reads8_true; exact T|exact T].
  - intros ->. apply reads8_true in R. eapply text_fun; [apply utf8_fun|exact T|exact R].
Qed.
Print Assumptions C36_repair_8.
Example C36_ex : transcode t16_8 [0xD83D; 0xDE00; 0xD800; 0x41] = Ok ([0xF0; 0x9F; 0x98; 0x80; 0xEF; 0xBF; 0xBD; 0x41], false)
  /\ transcode t8_16 [0xF0; 0x9F; 0x98; 0x80; 0x41] = Ok ([0xD83D; 0xDE00; 0x41], true)
  /\ transcode t8_8 [0x41; 0xFF; 0x42] = Ok ([0x41; 0xEF; 0xBF; 0xBD; 0x42], false)
  /\ transcode t16_16 [0xDC00; 0x41] = Ok ([0xFFFD; 0x41], false) /\ transcode t32_32 [0xD800; 0x41] = Ok ([fffd; 0x41], false).
Proof. vm_compute. repeat split. Qed.

(* --- C30: bytes with or without a byte order mark -------------------------------------------------------- *)
Theorem C30_total T form l : byte_to T form -> Forall (fun u => u < 2 ^ 8) l -> exists out ok, transcode T l = Ok (out, ok).
Proof. exact (bytes_total T form l). Qed.
Print Assumptions C30_total.
Theorem C30_decode T form l out ok : byte_to T form -> Forall (fun u => u < 2 ^ 8) l ->
  ~ ends_in_bom l -> ~ le16_then_zero l -> ~ le32_large l ->
  (transcode T l = Ok (out, ok) <-> exists cs, reads_bytes l cs ok /\ text form cs out).
Proof. exact (bytes_regular T form l out ok). Qed.
Print Assumptions C30_decode.
(* the three exceptions are departures: with what happens instead *)
Theorem C30_ends_in_bom T form p : byte_to T form -> ends_in_bom p ->
  exists cs out ok, transcode T p = Ok (out, ok) /\ reads8 (p ++ [0]) cs ok /\ text form cs out.
Proof. exact (bytes_unfinished T form p). Qed.
Print Assumptions C30_ends_in_bom.
Theorem C30_le16_then_zero T form l out ok : byte_to T form -> Forall (fun u => u < 2 ^ 8) l -> le16_then_zero l ->
  (transcode T l = Ok (out, ok) <-> exists cs, reads8 l cs ok /\ text form cs out).
Proof. exact (bytes_zero16 T form l out ok). Qed.
Print Assumptions C30_le16_then_zero.
Theorem C30_le32_large T form r out ok : byte_to T form -> Forall (fun u => u < 2 ^ 8) r ->
  (transcode T (bom32le ++ r) = Ok (out, ok) <-> exists cs, reads32 (units32 (fun a b c d => le32 a b c 0) r) cs ok /\ text form cs out).
Proof. exact (bytes_large32 T form r out ok). Qed.
Print Assumptions C30_le32_large.
Theorem C30_ends_in_bom_refuted : reads_bytes [0] [0] true /\ transcode tx_32 [0] = Ok ([0; 0], true)
  /\ reads_bytes bom16le [] true /\ transcode tx_32 bom16le = Ok ([fffd; fffd; 0], false).
Proof.
  split; [|split; [vm_compute; reflexivity|split; [|vm_compute; reflexivity]]].
  - apply rb_is_plain; [|apply (r8_good 0 [0] [] [] true); [apply utf8_1; reflexivity|constructor]].
    intros m Hm [c E]. cbn in Hm. repeat (destruct Hm as [<-|Hm]; [discriminate E|]). exact Hm.
  - change bom16le with (bom16le ++ []). apply rb_16le; [intros [c E]; discriminate E|constructor].
Qed.
Print Assumptions C30_ends_in_bom_refuted.
Theorem C30_le16_then_zero_refuted : reads_bytes (bom16le ++ [0x00; 0x4E]) [0x4E00] true
  /\ transcode tx_32 (bom16le ++ [0x00; 0x4E]) = Ok ([fffd; fffd; 0; 0x4E], false).
Proof.
  split; [|vm_compute; reflexivity]. apply rb_16le; [intros [c E]; discriminate E|].
  apply (r16_good 0x4E00 [0x4E00] [] [] true); [|constructor]. apply utf16_1; [reflexivity|left; reflexivity].
Qed.
Print Assumptions C30_le16_then_zero_refuted.
Theorem C30_le32_large_refuted : reads_bytes (bom32le ++ [0x41; 0; 0; 1]) [fffd] false
  /\ transcode tx_32 (bom32le ++ [0x41; 0; 0; 1]) = Ok ([0x41], true).
Proof.
  split; [|vm_compute; reflexivity]. apply rb_32le. apply (r32_bad 0x1000041 [] [] true); [|constructor]. unfold scalar. lia.
Qed.
Print Assumptions C30_le32_large_refuted.
(* half a code unit at the end is dropped, and neither partial() nor well_formed() tells *)
Theorem C30_half_unit_refuted :
  (exists s, feed tx_32 (tc_init tx_32) (bom16be ++ [0x00; 0x41; 0x00]) = Ok (s, [0x41]) /\ tc_partial tx_32 s = false)
  /\ transcode tx_32 (bom16be ++ [0x00; 0x41; 0x00]) = Ok ([0x41], true).
Proof.
  split; [|vm_compute; reflexivity].
  exists (Txs st_run_16be_byte1 [0x00; 0xFF; 0; 0] (@V16 t8_32 t16_32 t32_32 (tc_init t16_32))). split; reflexivity.
Qed.
Print Assumptions C30_half_unit_refuted.
(* selected_encoding() *)
Theorem C30_selected T8 T16 T32 l s w : feed (byte_transcoder T8 T16 T32) (tx_init T8 T16 T32) l = Ok (s, w) ->
  let selected e := selected_encoding T8 T16 T32 s = Ok e in
  (l = [] \/ ends_in_bom l -> selected enc_unknown)
  /\ (prefix_of bom8 l -> selected enc_utf8)
  /\ (prefix_of bom16be l -> selected enc_utf16be)
  /\ (prefix_of bom32be l -> selected enc_utf32be)
  /\ (prefix_of bom32le l -> selected enc_utf32le)
  /\ (forall b r, l = bom16le ++ b :: r -> b <> 0 -> selected enc_utf16le)
  /\ (le16_then_zero l -> selected enc_utf8)
  /\ ((forall m, In m all_boms -> ~ prefix_of m l /\ ~ prefix_of l m) -> selected enc_utf8).
Proof.
  intros E. cbv zeta. split; [|split; [|split; [|split; [|split; [|split; [|split]]]]]].
  - intros H. destruct (selected_unfinished T8 T16 T32 l) as (s' & E' & S).
    { destruct H as [->|H]; [left; reflexivity|right]. apply unfinished_ends. exact H. }
    rewrite E in E'. injection E' as -> _. exact S.
  - intros [r ->]. eapply selected_bom8; exact E.
  - intros [r ->]. eapply selected_bom16be; exact E.
  - intros [r ->]. eapply selected_bom32be; exact E.
  - intros [r ->]. eapply selected_bom32le; exact E.
  - intros b r -> Hb. eapply selected_bom16le; [exact Hb|exact E].
  - intros (b & r & Hb & ->). eapply selected_16le_zero; [exact Hb|exact E].
  - intros H. eapply selected_no_bom; [exact H|exact E].
Qed.
Print Assumptions C30_selected.
Example C30_ex : transcode tx_32 (bom16le ++ [0x41; 0; 0x3D; 0xD8; 0; 0xDE]) = Ok ([0x41; 0x1F600], true)
  /\ transcode tx_8 (bom32be ++ [0; 1; 0xF6; 0]) = Ok ([0xF0; 0x9F; 0x98; 0x80], true)
  /\ transcode tx_16 [0x41; 0xC3; 0xA9] = Ok ([0x41; 0xE9], true)
  /\ ~ ends_in_bom (bom16le ++ [0x41]) /\ ~ le16_then_zero (bom16le ++ [0x41]) /\ ~ le32_large (bom16le ++ [0x41]).
Proof.
  split; [vm_compute; reflexivity|]. split; [vm_compute; reflexivity|]. split; [vm_compute; reflexivity|]. split; [|split].
  - intros H. apply unfinished_ends in H. unfold unfinished in H. cbn in H. repeat (destruct H as [H|H]; [discriminate H|]). exact H.
  - intros (b & r & Hb & E). discriminate E.
  - intros (r & u & E & _). discriminate E.
Qed.

(* --- C31: the transcode view --------------------------------------------------------------------------- *)
(* for each pair of encodings: no fault (so no write past the buffer), and a range-for over the view sees
   what the transcoder writes, after which well_formed() tells the same *)
Theorem C31_view T cap bound l : view_of T cap bound -> Forall (fun u => u < bound) l ->
  exists out ok, transcode T l = Ok (out, ok) /\ forall fuel, (length out < fuel)%nat -> view_iterate T cap l fuel = Ok (out, ok).
Proof. exact (views T cap bound l). Qed.
Print Assumptions C31_view.
(* views over bytes: the buffer of one code point is overrun, and a mark with nothing behind it is
   dereferenced *)
Theorem C31_byte_view_refuted : view_iterate tx_32 max_output_32 [0x00; 0x41] 10 = Fault buffer_overflow
  /\ (forall fuel, view_iterate tx_8 max_output_8 bom8 (S fuel) = Fault assert_failed)
  /\ (forall fuel, view_iterate tx_32 max_output_32 bom16be (S fuel) = Fault assert_failed).
Proof. split; [vm_compute; reflexivity|]. split; intros fuel; reflexivity. Qed.
Print Assumptions C31_byte_view_refuted.
Example C31_ex : view_iterate t16_8 max_output_16_8 [0xD83D; 0xDE00; 0xD800; 0x20AC; 0xDBFF] 20
    = Ok ([0xF0; 0x9F; 0x98; 0x80; 0xEF; 0xBF; 0xBD; 0xE2; 0x82; 0xAC; 0xEF; 0xBF; 0xBD], false)
  /\ view_iterate t8_32 max_output_32 [0x41; 0xC3; 0xA9; 0xE2; 0x82] 4 = Ok ([0x41; 0xE9; fffd], false)
  /\ view_iterate t32_8 max_output_8 [] 1 = Ok ([], true).
Proof. vm_compute. repeat split. Qed.

(* --- C37: length and index ------------------------------------------------------------------------------ *)
Theorem C37_length_8 cs us : text utf8_of cs us -> icu_length is_start_8 us = length cs.
Proof. apply length_text. apply marks_8. Qed.
Print Assumptions C37_length_8.
Theorem C37_length_16 cs us : text utf16_of cs us -> icu_length is_start_16 us = length cs.
Proof. apply length_text. apply marks_16. Qed.
Print Assumptions C37_length_16.
Theorem C37_length_32 cs us : text utf32_of cs us -> icu_length is_start_32 us = length cs.
Proof. apply length_text. apply marks_32. Qed.
Print Assumptions C37_length_32.
Theorem C37_index_8 a b x y : text utf8_of a x -> text utf8_of b y -> icu_index is_start_8 (x ++ y) (length a) = length x
  /\ forall pos, (length a <= pos)%nat -> icu_index is_start_8 x pos = length x.
Proof. intros A B. split; [eapply index_text; [apply marks_8|exact A|exact B]|]. intros pos. eapply index_end; [apply marks_8|exact A]. Qed.
Print Assumptions C37_index_8.
Theorem C37_index_16 a b x y : text utf16_of a x -> text utf16_of b y -> icu_index is_start_16 (x ++ y) (length a) = length x
  /\ forall pos, (length a <= pos)%nat -> icu_index is_start_16 x pos = length x.
Proof. intros A B. split; [eapply index_text; [apply marks_16|exact A|exact B]|]. intros pos. eapply index_end; [apply marks_16|exact A]. Qed.
Print Assumptions C37_index_16.
Theorem C37_index_32 a b x y : text utf32_of a x -> text utf32_of b y -> icu_index is_start_32 (x ++ y) (length a) = length x
  /\ forall pos, (length a <= pos)%nat -> icu_index is_start_32 x pos = length x.
Proof. intros A B. split; [eapply index_text; [apply marks_32|exact A|exact B]|]. intros pos. eapply index_end; [apply marks_32|exact A]. Qed.
Print Assumptions C37_index_32.
Example C37_ex : icu_length is_start_8 [0x24; 0xC2; 0xA2; 0xE2; 0x82; 0xAC] = 3%nat /\ icu_index is_start_8 [0x24; 0xC2; 0xA2; 0xE2; 0x82; 0xAC] 2 = 3%nat
  /\ icu_index is_start_16 [0xD83D; 0xDE00; 0x41] 1 = 2%nat.
Proof. vm_compute. repeat split. Qed.

(* --- C38: partial() --------------------------------------------------------------------------------------- *)
(* partial() is false exactly when what has been written is all there is to what has been fed *)
Theorem C38_under_way T reads form bound l s w : reader T reads form bound -> Forall (fun u => u < bound) l ->
  feed T (tc_init T) l = Ok (s, w) -> (tc_partial T s = false <-> exists cs ok, reads l cs ok /\ text form cs w).
Proof. exact (partial_all T reads form bound l s w). Qed.
Print Assumptions C38_under_way.
Example C38_ex : (match feed t8_16 (tc_init t8_16) [0x41; 0xE2; 0x82] with Ok (s, w) => Some (tc_partial t8_16 s, w) | _ => None end) = Some (true, [0x41])
  /\ (match feed t8_16 (tc_init t8_16) [0x41; 0xE2; 0x82; 0xAC] with Ok (s, w) => Some (tc_partial t8_16 s, w) | _ => None end) = Some (false, [0x41; 0x20AC]).
Proof. vm_compute. split; reflexivity. Qed.
