(* PROPERTY THEOREMS: errors in a text stay where they are and nothing is invented (C50).
   Vocabulary: SpecIcu.v, SpecLocal.v; subseq is from SpecPath.v.  tA_B is the transcoder from UTF-A to UTF-B. *)
From Verif Require Import Base ModelIcu SpecIcu IcuLocal SpecPath SpecLocal.
Local Open Scope N_scope.
Local Open Scope list_scope.

(* --- C50: a text may be cut where no code point is under way and its pieces transcoded one by one ----------- *)
Theorem C50_pieces_8 T l1 l2 o1 k1 o2 k2 : In T [t8_8; t8_16; t8_32] ->
  Forall (fun u => u < 2 ^ 8) l1 -> Forall (fun u => u < 2 ^ 8) l2 -> no_incomplete_end l1 ->
  transcode T l1 = Ok (o1, k1) -> transcode T l2 = Ok (o2, k2) -> transcode T (l1 ++ l2) = Ok (o1 ++ o2, k1 && k2).
Proof. exact (concat8 T l1 l2 o1 k1 o2 k2). Qed.
Print Assumptions C50_pieces_8.
(* ... in particular after any ASCII character, such as the end of a line, whatever comes before it *)
Theorem C50_lines_8 T l a l2 o1 k1 o2 k2 : In T [t8_8; t8_16; t8_32] ->
  Forall (fun u => u < 2 ^ 8) l -> a < 0x80 -> Forall (fun u => u < 2 ^ 8) l2 ->
  transcode T (l ++ [a]) = Ok (o1, k1) -> transcode T l2 = Ok (o2, k2) ->
  transcode T ((l ++ [a]) ++ l2) = Ok (o1 ++ o2, k1 && k2).
Proof.
  intros HT B1 Ha B2. apply (concat8 T _ _ _ _ _ _ HT); [|exact B2|now apply ascii_no_incomplete].
  apply Forall_app. split; [exact B1|]. constructor; [|constructor]. change (2 ^ 8) with 256. lia.
Qed.
Print Assumptions C50_lines_8.
Theorem C50_pieces_16 T l1 l2 o1 k1 o2 k2 : In T [t16_8; t16_16; t16_32] ->
  Forall (fun u => u < 2 ^ 16) l1 -> Forall (fun u => u < 2 ^ 16) l2 -> ~ (ends_high l1 /\ starts_low l2) ->
  transcode T l1 = Ok (o1, k1) -> transcode T l2 = Ok (o2, k2) -> transcode T (l1 ++ l2) = Ok (o1 ++ o2, k1 && k2).
Proof. exact (concat16 T l1 l2 o1 k1 o2 k2). Qed.
Print Assumptions C50_pieces_16.
Theorem C50_pieces_32 T l1 l2 o1 k1 o2 k2 : In T [t32_8; t32_16; t32_32] ->
  Forall (fun u => u < 2 ^ 32) l1 -> Forall (fun u => u < 2 ^ 32) l2 ->
  transcode T l1 = Ok (o1, k1) -> transcode T l2 = Ok (o2, k2) -> transcode T (l1 ++ l2) = Ok (o1 ++ o2, k1 && k2).
Proof. exact (concat32 T l1 l2 o1 k1 o2 k2). Qed.
Print Assumptions C50_pieces_32.

(* --- recovery: whatever bytes come before, a UTF-8 text is read as it stands from its second code point on ---- *)
Theorem C50_recovers_8 junk c w cs us out ok : Forall (fun u => u < 2 ^ 8) junk -> utf8_of c w -> text utf8_of cs us ->
  transcode t8_32 (junk ++ w ++ us) = Ok (out, ok) ->
  exists x, out = x ++ cs /\ (length x <= length junk + length w)%nat
    /\ ((exists y, x = y ++ [c]) \/ exists j p, junk = j ++ p /\ p <> [] /\ incomplete8 p).
Proof.
  intros B U X E. apply IcuProps.conv_8_32 in E.
  - destruct E as (r & R & Y). apply IcuProps.text32 in Y. destruct Y as [<- _]. exact (local8 c w cs us U X _ _ _ R junk eq_refl).
  - rewrite !Forall_app. split; [exact B|]. split; [exact (IcuRead8.utf8_bytes _ _ U)|exact (IcuRead8.text_bytes8 _ _ X)].
Qed.
Print Assumptions C50_recovers_8.
Theorem C50_recovers_8_all T junk c w cs us y out ok : In T [t8_8; t8_16; t8_32] -> Forall (fun u => u < 2 ^ 8) junk ->
  utf8_of c w -> text utf8_of cs us -> transcode T us = Ok (y, true) -> transcode T (junk ++ w ++ us) = Ok (out, ok) ->
  exists x, out = x ++ y.
Proof. exact (junk8 T junk c w cs us y out ok). Qed.
Print Assumptions C50_recovers_8_all.

(* --- nothing is invented: every ASCII character written was in the input, in this order ------------------------ *)
Theorem C50_ascii_8 T l out ok : In T [t8_8; t8_16; t8_32] -> Forall (fun u => u < 2 ^ 8) l ->
  transcode T l = Ok (out, ok) -> subseq (asciis out) (asciis l) /\ (ok = true -> asciis out = asciis l).
Proof. exact (ascii8 T l out ok). Qed.
Print Assumptions C50_ascii_8.
Theorem C50_ascii_16 T l out ok : In T [t16_8; t16_16; t16_32] -> Forall (fun u => u < 2 ^ 16) l ->
  transcode T l = Ok (out, ok) -> asciis out = asciis l.
Proof. exact (ascii16 T l out ok). Qed.
Print Assumptions C50_ascii_16.
Theorem C50_ascii_32 T l out ok : In T [t32_8; t32_16; t32_32] -> Forall (fun u => u < 2 ^ 32) l ->
  transcode T l = Ok (out, ok) -> asciis out = asciis l.
Proof. exact (ascii32 T l out ok). Qed.
Print Assumptions C50_ascii_32.

(* the overlong form of '/' writes no '/'; an incomplete form swallows one; the text behind it is intact *)
Example C50_ex :
  transcode t8_8 [0x2E; 0xC0; 0xAF; 0x41] = Ok ([0x2E; 0xEF; 0xBF; 0xBD; 0xEF; 0xBF; 0xBD; 0x41], false)
  /\ transcode t8_32 ([0xE2; 0x82] ++ [0x2F] ++ [0xC3; 0xA9; 0x2F]) = Ok ([fffd] ++ [0xE9; 0x2F], false)
  /\ asciis [0xE2; 0x82; 0x2F; 0xC3; 0xA9; 0x2F] = [0x2F; 0x2F]
  /\ transcode t8_16 [0xE2; 0x0A] = Ok ([0xFFFD], false) /\ transcode t8_16 [0xE2; 0x82; 0xAC] = Ok ([0x20AC], true)
  /\ transcode t8_16 ([0xE2; 0x0A] ++ [0xE2; 0x82; 0xAC]) = Ok ([0xFFFD] ++ [0x20AC], false).
Proof. vm_compute. repeat split. Qed.
Example C50_ex_cut : (* a text must not be cut elsewhere *)
  transcode t8_32 [0xC3] = Ok ([fffd], false) /\ transcode t8_32 [0xA9] = Ok ([fffd], false) /\ transcode t8_32 ([0xC3] ++ [0xA9]) = Ok ([0xE9], true).
Proof. vm_compute. repeat split. Qed.
