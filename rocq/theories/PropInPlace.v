(* C65, C66: decoding a string into itself, transcoding an array into itself. *)
From Verif Require Import Base ModelIcu ModelOut ModelInPlace SpecIcu SpecRoute IcuEnc IcuProps RouteFacts ModelPct SpecPct SpecInPlace PctFacts InPlaceFacts.
From Coq Require Import Lia.
Local Open Scope list_scope.

(* --- C65 ------------------------------------------------------------------------------------------------ *)
(* while (it != last) *out++ = *it++;  writes the decoded text over the beginning of the string and leaves the rest *)
Theorem C65_step s t : decodes s t -> step_in_place (length s) s 0 0 = Ok (t ++ skipn (length t) s, length t).
Proof. apply step_what. Qed.
Print Assumptions C65_step.
Example C65_step_ex : decodes (ss "a%41%2") (ss "aA%2") /\ step_in_place 6 (ss "a%41%2") 0 0 = Ok (ss "aA%2%2", 4).
Proof. split; [apply pctdecode_iff|]; reflexivity. Qed.
(* std::copy (first, last, s.begin ()) ends, writes nowhere else, and makes garbled text of s *)
Theorem C65_copy s : exists g, garbled s g /\ length g <= length s /\ copy_in_place (length s) s 0 0 = Ok (g ++ skipn (length g) s, length g).
Proof.
  destruct (copy_what s) as (g & G & E). exists g. split; [exact G|]. split; [|exact E].
  destruct (pctdecode_ok s) as (t & _ & D). apply (garbled_len _ _ G _ D).
Qed.
Print Assumptions C65_copy.
Example C65_copy_ex : copy_in_place 9 (ss "%25a%41%2") 0 0 = Ok (ss "%aA%241%2", 5) /\ garbled (ss "%25a%41%2") (ss "%aA%2").
Proof.
  split; [reflexivity|]. eapply (gb_percent _ (ss "a%41%2") (ss "aA%2")); [|apply pctdecode_iff; reflexivity].
  exists "2"%char, "5"%char, 2%N, 5%N. repeat split; reflexivity.
Qed.
(* it is the decoded text exactly when there is nothing to decode, or the first escape stands for "%" itself *)
Theorem C65_copy_exact s t mem n : decodes s t -> copy_in_place (length s) s 0 0 = Ok (mem, n) ->
  (firstn n mem = t <-> forall b, first_escape s b -> b = "%"%char).
Proof. apply copy_exact. Qed.
Print Assumptions C65_copy_exact.
Theorem C65_copy_longer s t mem n b : decodes s t -> copy_in_place (length s) s 0 0 = Ok (mem, n) -> first_escape s b -> b <> "%"%char -> length t < n.
Proof.
  intros D E F N. destruct (copy_what s) as (g & G & X). rewrite X in E. injection E as _ <-. exact (proj2 (garbled_len _ _ G _ D) b F N).
Qed.
Print Assumptions C65_copy_longer.
(* the usual idiom, std::copy then erase, does not decode "%41BC" *)
Theorem C65_copy_refuted : decodes (ss "%41BC") (ss "ABC") /\ first_escape (ss "%41BC") "A"%char /\ copy_in_place 5 (ss "%41BC") 0 0 = Ok (ss "A41BC", 5).
Proof.
  split; [apply pctdecode_iff; reflexivity|]. split; [|reflexivity]. eapply (fe_here _ _ (ss "BC")). exists "4"%char, "1"%char, 4%N, 1%N. repeat split; reflexivity.
Qed.
Print Assumptions C65_copy_refuted.

(* --- C66 ------------------------------------------------------------------------------------------------ *)
Local Open Scope N_scope.
(* any transcoder: while no more has been written than read, the array may hold both *)
Theorem C66_behind T l out ok :
  (forall p s t w, l = p ++ s -> feed T (tc_init T) p = Ok (t, w) -> (length w <= length p)%nat) -> (length out <= length l)%nat ->
  transcode T l = Ok (out, ok) -> transcode_in_place T l = Ok (out ++ skipn (length out) l, length out, ok).
Proof. apply in_place_behind. Qed.
Print Assumptions C66_behind.
(* UTF-16 and UTF-32 can be repaired in place, whatever the array holds *)
Theorem C66_any a l out ok : a <> U8 -> units a l -> transcode (tc a a) l = Ok (out, ok) ->
  transcode_in_place (tc a a) l = Ok (out ++ skipn (length out) l, length out, ok).
Proof.
  intros A U E. assert (M : most a a = 1%nat) by (destruct a; [elim A; reflexivity|reflexivity..]).
  apply in_place_behind; [exact (behind_most a M l U)| |exact E]. pose proof (sizes a a l out ok U E) as [L _]. rewrite M in L. lia.
Qed.
Print Assumptions C66_any.
Example C66_any_ex : transcode t16_16 [0xD800; 0x41; 0xDC00; 0xD83D; 0xDE00] = Ok ([fffd; 0x41; fffd; 0xD83D; 0xDE00], false)
  /\ transcode_in_place t16_16 [0xD800; 0x41; 0xDC00; 0xD83D; 0xDE00] = Ok ([fffd; 0x41; fffd; 0xD83D; 0xDE00], 5%nat, false).
Proof. split; reflexivity. Qed.
(* UTF-8: the result is right exactly when no more is ever written than read, and otherwise the end of the array is
   overrun: a wrong text is never left in an intact array *)
Theorem C66_utf8 l out ok : units U8 l -> transcode (tc U8 U8) l = Ok (out, ok) ->
  let fits := (forall p s t w, l = p ++ s -> feed (tc U8 U8) (tc_init (tc U8 U8)) p = Ok (t, w) -> (length w <= length p)%nat) /\ (length out <= length l)%nat in
  (fits /\ transcode_in_place (tc U8 U8) l = Ok (out ++ skipn (length out) l, length out, ok))
  \/ (~ fits /\ transcode_in_place (tc U8 U8) l = Fault buffer_overflow).
Proof. exact (in_place8 l out ok). Qed.
Print Assumptions C66_utf8.
Example C66_utf8_ex :
  transcode_in_place t8_8 [0xF0; 0x90; 0x80; 0x41; 0xF0; 0x90; 0x80; 0x41; 0xFF; 0x42] = Ok ([0xEF; 0xBF; 0xBD; 0xEF; 0xBF; 0xBD; 0xEF; 0xBF; 0xBD; 0x42], 10%nat, false)
  /\ transcode_in_place t8_8 [0xFF; 0x41; 0x42; 0x43; 0x44] = Fault buffer_overflow.
Proof. split; reflexivity. Qed.
(* well-formed UTF-8 fits, and nothing changes *)
Theorem C66_well_formed8 l : units U8 l -> transcode (tc U8 U8) l = Ok (l, true) -> transcode_in_place (tc U8 U8) l = Ok (l, length l, true).
Proof.
  intros U E. assert (X : exists cs, text utf8_of cs l). { apply (conv U8 U8 l U) in E. destruct E as (cs & R & X). exists cs. exact X. }
  destruct X as (cs & X). pose proof (in_place_behind _ l l true (behind8 l cs X) (le_n _) E) as Y. rewrite skipn_all, app_nil_r in Y. exact Y.
Qed.
Print Assumptions C66_well_formed8.
Example C66_well_formed8_ex : transcode_in_place t8_8 [0x41; 0xE2; 0x82; 0xAC; 0x42] = Ok ([0x41; 0xE2; 0x82; 0xAC; 0x42], 5%nat, true).
Proof. reflexivity. Qed.
(* it is not enough that the repaired text has room in the array, nor that only the end of the text is missing *)
Theorem C66_utf8_refuted :
  transcode t8_8 [0xFF; 0xF0; 0x90; 0x80; 0x41; 0xF0; 0x90; 0x80; 0x41] = Ok ([0xEF; 0xBF; 0xBD; 0xEF; 0xBF; 0xBD; 0xEF; 0xBF; 0xBD], false)
  /\ transcode_in_place t8_8 [0xFF; 0xF0; 0x90; 0x80; 0x41; 0xF0; 0x90; 0x80; 0x41] = Fault buffer_overflow
  /\ transcode_in_place t8_8 [0x41; 0xE2] = Fault buffer_overflow.
Proof. vm_compute. repeat split. Qed.
Print Assumptions C66_utf8_refuted.
