(* C60 routes, C61 sizes and C62 order of transcoded text (icubaby.hpp, all nine transcoders between UTF-8, UTF-16 and
   UTF-32).  transcode t l = Ok (out, ok): the transcoder of type t, given the units l one after the other and then end_cp,
   writes exactly out, and well_formed() is then ok. *)
From Verif Require Import Base ModelIcu SpecIcu SpecRoute IcuView IcuViewAll IcuByte IcuProps RouteFacts.
Local Open Scope N_scope.
Local Open Scope list_scope.

(* --- C60: all routes agree -------------------------------------------------------------------------- *)
(* going from a to c directly, or through any third encoding b, is the same: same output, and the first step reports
   what the direct conversion reports; the second step never has anything to report *)
Theorem C60_routes a b c l out ok : units a l ->
  (transcode (tc a c) l = Ok (out, ok) <-> exists mid, transcode (tc a b) l = Ok (mid, ok) /\ transcode (tc b c) mid = Ok (out, true)).
Proof. apply route. Qed.
Print Assumptions C60_routes.
(* whatever the input, the output is well formed: transcoding it to its own encoding changes nothing *)
Theorem C60_fixed a b l out ok : units a l -> transcode (tc a b) l = Ok (out, ok) -> units b out /\ transcode (tc b b) out = Ok (out, true).
Proof. apply fixed. Qed.
Print Assumptions C60_fixed.
(* text that was reported well formed comes back unit for unit *)
Theorem C60_returns a b l out : units a l -> transcode (tc a b) l = Ok (out, true) -> transcode (tc b a) out = Ok (l, true).
Proof. apply returns. Qed.
Print Assumptions C60_returns.
(* the report does not depend on the target: it is true when the input is the encoding of some code points *)
Theorem C60_report a b l out ok : units a l -> transcode (tc a b) l = Ok (out, ok) ->
  (ok = true <-> exists cs, text (form a) cs l).
Proof.
  intros U E. split.
  - intros ->. apply (flag a b l out U) in E. destruct E as (cs & X & _). exists cs. exact X.
  - intros (cs & X). apply text_reads in X. apply (conv a b l U) in E. destruct E as (ds & R & _). destruct (reads_fun a l U _ _ _ _ X R) as [_ H]. symmetry. exact H.
Qed.
Print Assumptions C60_report.
Example C60_ex :
  transcode (tc U8 U16) [0x41; 0xF0; 0x9F; 0x98; 0x80; 0xFF] = Ok ([0x41; 0xD83D; 0xDE00; 0xFFFD], false)
  /\ transcode (tc U8 U32) [0x41; 0xF0; 0x9F; 0x98; 0x80; 0xFF] = Ok ([0x41; 0x1F600; 0xFFFD], false)
  /\ transcode (tc U32 U16) [0x41; 0x1F600; 0xFFFD] = Ok ([0x41; 0xD83D; 0xDE00; 0xFFFD], true)
  /\ transcode (tc U8 U8) [0x41; 0xF0; 0x9F; 0x98; 0x80; 0xFF] = Ok ([0x41; 0xF0; 0x9F; 0x98; 0x80; 0xEF; 0xBF; 0xBD], false)
  /\ transcode (tc U16 U8) [0x41; 0xD83D; 0xDE00] = Ok ([0x41; 0xF0; 0x9F; 0x98; 0x80], true)
  /\ transcode (tc U8 U16) [0x41; 0xF0; 0x9F; 0x98; 0x80] = Ok ([0x41; 0xD83D; 0xDE00], true).
Proof. vm_compute. repeat split. Qed.

(* --- C61: room -------------------------------------------------------------------------------------- *)
(* the output of n units never needs more than most a b * n units ... *)
Theorem C61_most a b l out ok : units a l -> transcode (tc a b) l = Ok (out, ok) -> (length out <= most a b * length l)%nat.
Proof. intros U E. apply (sizes a b l out ok U E). Qed.
Print Assumptions C61_most.
(* ... and is never shorter than den / num times the input *)
Theorem C61_least a b l out ok : units a l -> transcode (tc a b) l = Ok (out, ok) ->
  (snd (least a b) * length l <= fst (least a b) * length out)%nat.
Proof. intros U E. apply (sizes a b l out ok U E). Qed.
Print Assumptions C61_least.
(* no smaller factor will do, at any length *)
Theorem C61_most_attained a b n : exists l out ok, units a l /\ transcode (tc a b) l = Ok (out, ok) /\ length l = n /\ length out = (most a b * n)%nat.
Proof. apply most_attained. Qed.
Print Assumptions C61_most_attained.
Theorem C61_least_attained a b n :
  exists l out ok, units a l /\ transcode (tc a b) l = Ok (out, ok) /\ length l = (fst (least a b) * n)%nat /\ length out = (snd (least a b) * n)%nat.
Proof. apply least_attained. Qed.
Print Assumptions C61_least_attained.
Example C61_ex : transcode (tc U8 U8) [0xFF; 0xFF] = Ok ([0xEF; 0xBF; 0xBD; 0xEF; 0xBF; 0xBD], false)
  /\ transcode (tc U16 U8) [0x20AC; 0xDC00] = Ok ([0xE2; 0x82; 0xAC; 0xEF; 0xBF; 0xBD], false)
  /\ transcode (tc U32 U8) [0x1F600] = Ok ([0xF0; 0x9F; 0x98; 0x80], true)
  /\ transcode (tc U8 U16) [0xF0; 0x90; 0x80; 0x41] = Ok ([0xFFFD], false).
Proof. vm_compute. repeat split. Qed.

(* --- C62: order ------------------------------------------------------------------------------------- *)
(* transcoding to UTF-8 keeps the order of the texts by code points, whether or not they are well formed *)
Theorem C62_order a l m cs ds us vs k j k' j' : units a l -> units a m ->
  transcode (tc a U32) l = Ok (cs, k) -> transcode (tc a U32) m = Ok (ds, j) ->
  transcode (tc a U8) l = Ok (us, k') -> transcode (tc a U8) m = Ok (vs, j') ->
  (before us vs <-> before cs ds).
Proof. intros A B E F G H. destruct (order a U8 l m cs ds us vs k j k' j' A B E F G H) as [X Y]. symmetry. exact (order8 cs ds us vs X Y). Qed.
Print Assumptions C62_order.
(* well formed UTF-8 is already in code point order *)
Theorem C62_order8 l m cs ds : units U8 l -> units U8 m -> transcode (tc U8 U32) l = Ok (cs, true) -> transcode (tc U8 U32) m = Ok (ds, true) ->
  (before l m <-> before cs ds).
Proof.
  intros A B E F. apply (flag U8 U32 l cs A) in E. apply (flag U8 U32 m ds B) in F. destruct E as (x & X & X'). destruct F as (y & Y & Y').
  apply text32 in X'. apply text32 in Y'. destruct X' as [-> _]. destruct Y' as [-> _]. symmetry. exact (order8 _ _ _ _ X Y).
Qed.
Print Assumptions C62_order8.
(* UTF-16 keeps it between texts without code points of U+E000 .. U+FFFF ... *)
Theorem C62_utf16 a l m cs ds us vs k j k' j' : units a l -> units a m ->
  transcode (tc a U32) l = Ok (cs, k) -> transcode (tc a U32) m = Ok (ds, j) ->
  transcode (tc a U16) l = Ok (us, k') -> transcode (tc a U16) m = Ok (vs, j') ->
  Forall (fun c => c < 0xE000 \/ 0x10000 <= c) (cs ++ ds) ->
  (before us vs <-> before cs ds).
Proof.
  intros A B E F G H L. apply Forall_app in L. destruct L as [P Q]. destruct (order a U16 l m cs ds us vs k j k' j' A B E F G H) as [X Y]. symmetry. exact (order16 cs ds us vs X Y P Q).
Qed.
Print Assumptions C62_utf16.
(* ... and not otherwise *)
Theorem C62_utf16_refuted : exists cs ds us vs, before cs ds /\ ~ before us vs /\ before vs us
  /\ transcode (tc U32 U16) cs = Ok (us, true) /\ transcode (tc U32 U16) ds = Ok (vs, true).
Proof.
  exists [0xFFFF], [0x10000], [0xFFFF], [0xD800; 0xDC00].
  assert (B : before [0xD800; 0xDC00] [0xFFFF]) by (apply bf_less; reflexivity).
  split; [apply bf_less; reflexivity|]. split; [apply (before_asym _ _ B)|]. split; [exact B|]. split; vm_compute; reflexivity.
Qed.
Print Assumptions C62_utf16_refuted.
Example C62_ex : before [0x41; 0xC3; 0xA9] [0x41; 0xE2; 0x82; 0xAC] /\ before [0x41; 0xE9] [0x41; 0x20AC]
  /\ transcode (tc U8 U32) [0x41; 0xC3; 0xA9] = Ok ([0x41; 0xE9], true) /\ transcode (tc U8 U32) [0x41; 0xE2; 0x82; 0xAC] = Ok ([0x41; 0x20AC], true)
  /\ transcode (tc U32 U16) [0x1F600; 0x41] = Ok ([0xD83D; 0xDE00; 0x41], true) /\ transcode (tc U32 U16) [0x41] = Ok ([0x41], true).
Proof.
  split; [apply bf_same; apply bf_less; reflexivity|]. split; [apply bf_same; apply bf_less; reflexivity|]. vm_compute. repeat split.
Qed.
