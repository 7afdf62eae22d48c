(* C53: one transcoder, several texts. *)
From Verif Require Import Base ModelIcu ModelSession SpecIcu SpecSession IcuProps SessionFacts.
From Coq Require Import Lia.
Local Open Scope N_scope.
Local Open Scope list_scope.

(* from UTF-16 and UTF-32: each text comes out as it does from a fresh transcoder; well_formed() tells whether this
   text and all before it were well formed *)
Theorem C53_reuse T texts fresh : In T [t16_8; t16_16; t16_32; t32_8; t32_16; t32_32] ->
  Forall2 (fun l r => transcode T l = Ok r) texts fresh -> session T (tc_init T) texts = Ok (accumulated true fresh).
Proof. exact (reuse T texts fresh). Qed.
Print Assumptions C53_reuse.

(* and once end_cp has been called no code point is under way *)
Theorem C53_not_partial T l s w t w' : In T [t16_8; t16_16; t16_32; t32_8; t32_16; t32_32] ->
  feed T (tc_init T) l = Ok (s, w) -> tc_end T s = Ok (t, w') -> tc_partial T t = false.
Proof. exact (after_end T l s w t w'). Qed.
Print Assumptions C53_not_partial.

(* from UTF-8: the same, if no text but the last ends within a code point *)
Theorem C53_reuse_8 T texts fresh : In T [t8_8; t8_16; t8_32] -> Forall (Forall (fun u => u < 2 ^ 8)) texts ->
  Forall (fun l => partial_after T l = false) (removelast texts) ->
  Forall2 (fun l r => transcode T l = Ok r) texts fresh -> session T (tc_init T) texts = Ok (accumulated true fresh).
Proof. intros HT B P F. apply (reuse8 T texts fresh HT B). now rewrite (seen_whole T texts P). Qed.
Print Assumptions C53_reuse_8.

(* in particular for texts that are well formed *)
Theorem C53_well_formed T texts outs : In T [t8_8; t8_16; t8_32] -> Forall (Forall (fun u => u < 2 ^ 8)) texts ->
  Forall2 (fun l out => transcode T l = Ok (out, true)) texts outs -> session T (tc_init T) texts = Ok (map (fun out => (out, true)) outs).
Proof.
  intros HT B F. assert (F' : Forall2 (fun l r => transcode T l = Ok r) texts (map (fun out => (out, true)) outs)) by (clear B; induction F; cbn; constructor; auto).
  assert (P : Forall (fun l => partial_after T l = false) texts) by (clear B F'; induction F; constructor; eauto using wf_not_partial).
  rewrite (fun P => C53_reuse_8 T texts _ HT B P F').
  - rewrite accumulated_true; [reflexivity|]. clear. induction outs; cbn; constructor; auto.
  - clear - P. rewrite Forall_forall in *. intros l H. apply P. clear P. revert H. induction texts as [|a [|b t] IH]; cbn [removelast]; [intros []|intros []|]. intros [->|H]; [now left|right; auto].
Qed.
Print Assumptions C53_well_formed.

(* without that condition, exactly: the transcoder gives the answers fresh ones give to the texts seen *)
Theorem C53_seen_8 T texts : In T [t8_8; t8_16; t8_32] -> Forall (Forall (fun u => u < 2 ^ 8)) texts ->
  exists fresh, Forall2 (fun l r => transcode T l = Ok r) (seen T false texts) fresh /\ session T (tc_init T) texts = Ok (accumulated true fresh).
Proof.
  intros HT B. assert (Tot : forall l, Forall (fun u => u < 2 ^ 8) l -> exists r, transcode T l = Ok r).
  { intros l Hl. cbn [In] in HT. destruct HT as [<-|[<-|[<-|[]]]].
    - destruct (conv_8_8 l Hl) as [(o & k & E) _]. eauto.
    - destruct (conv_8_16 l Hl) as [(o & k & E) _]. eauto.
    - destruct (conv_8_32 l Hl) as [(o & k & E) _]. eauto. }
  assert (X : exists fresh, Forall2 (fun l r => transcode T l = Ok r) (seen T false texts) fresh).
  { pose proof (seen_bytes T false texts B) as S. induction S as [|l ls Hl _ (fresh & IH)]; [exists []; constructor|].
    destruct (Tot l Hl) as [r E]. exists (r :: fresh). now constructor. }
  destruct X as (fresh & F). exists fresh. split; [exact F|]. now apply reuse8.
Qed.
Print Assumptions C53_seen_8.

(* with a UTF-8 text that ends within a code point: the next text loses its first byte, each further end_cp writes one
   more U+FFFD, and partial() remains true *)
Theorem C53_refuted :
  transcode t8_32 [0x41] = Ok ([0x41], true) /\ transcode t8_32 [] = Ok ([], true)
  /\ session t8_32 (tc_init t8_32) [[0xE2]; [0x41]] = Ok [([fffd], false); ([fffd], false)]
  /\ session t8_32 (tc_init t8_32) [[0xE2]; []; []] = Ok [([fffd], false); ([fffd], false); ([fffd], false)]
  /\ exists s t, feed t8_32 (tc_init t8_32) [0xE2] = Ok (s, []) /\ tc_end t8_32 s = Ok (t, [fffd]) /\ tc_partial t8_32 t = true.
Proof. split; [|split; [|split; [|split]]]; try (vm_compute; reflexivity). eexists _, _. split; [vm_compute; reflexivity|]. split; vm_compute; reflexivity. Qed.
Print Assumptions C53_refuted.

(* the transcoder from bytes looks for a byte order mark in the first text only *)
Theorem C53_bytes_refuted :
  transcode tx_32 [0xEF; 0xBB; 0xBF; 0x42] = Ok ([0x42], true)
  /\ session tx_32 (tc_init tx_32) [[0x41]; [0xEF; 0xBB; 0xBF; 0x42]] = Ok [([0x41], true); ([0xFEFF; 0x42], true)].
Proof. split; vm_compute; reflexivity. Qed.
Print Assumptions C53_bytes_refuted.

Example C53_ex :
  session t16_8 (tc_init t16_8) [[0x41; 0xD801]; [0xDC37; 0x42]; [0xD801; 0xDC37]]
    = Ok [([0x41; 0xEF; 0xBF; 0xBD], false); ([0xEF; 0xBF; 0xBD; 0x42], false); ([0xF0; 0x90; 0x90; 0xB7], false)]
  /\ session t8_16 (tc_init t8_16) [[0xE2; 0x82; 0xAC]; [0x80; 0x41]; [0x42]]
    = Ok [([0x20AC], true); ([0xFFFD; 0x41], false); ([0x42], false)]
  /\ Forall (fun l => partial_after t8_16 l = false) [[0xE2; 0x82; 0xAC]; [0x80; 0x41]]
  /\ seen t8_32 false [[0xE2]; []; [0x41; 0x42]; [0x43]] = [[0xE2]; [0xFF]; [0xFF; 0x42]; [0x43]].
Proof. split; [|split; [|split]]; try (vm_compute; reflexivity). constructor; [vm_compute; reflexivity|constructor; [vm_compute; reflexivity|constructor]]. Qed.
