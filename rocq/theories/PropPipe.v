(* PROPERTY THEOREMS: C98 views that are laid one on top of the other.
   Vocabulary: ModelHist.v (the programs), ModelPipe.v (pointers, piled), SpecPipe.v (stages), SpecRoute.v (tc, units), SpecHist.v (cursor_run), SpecPct.v (decodes). *)
From Verif Require Import Base ModelPct ModelIcu ModelHist ModelPipe SpecPct SpecIcu SpecStore SpecHist SpecRoute SpecPipe HistFacts RouteFacts PipeFacts IcuRead8 IcuProps.
From Verif Require Import ModelUri ModelParts SpecStore SpecViews.
From Verif Require PctFacts PartsProps.
From Coq Require Import Lia.
Local Open Scope list_scope.

(* Any number of transcode views over an array of units: every program over the iterators of the topmost one sees what one transcoder from the
   first encoding to the last makes of the array; with two views or more, well_formed () is true whatever was there. *)
Theorem C98_text a es z l out ok : units a l -> transcode (tc a z) l = Ok (out, ok) ->
  exists n, forall fuel, n <= fuel -> forall ops x, cursor_run out (match es with [] => ok | _ => true end) (same_or_end (length out)) ops = Some x ->
  run (piled (pointers l) fuel (stages a (es ++ [z]))) ops = Ok x.
Proof.
  intros U E. destruct (pile_laws z out es a l ok U E) as (n & H). exists n. intros fuel L ops x X.
  destruct (H fuel L _ _ _ (laws_fewer _ _ _ _ _ _ (any_se (length l)) (pointers_laws l))) as (R & HR). exact (laws_run _ _ _ _ R ops x HR X).
Qed.
Print Assumptions C98_text.
(* the same over a percent-decoding view: the escapes are decoded first, and the text may be cut by them anywhere *)
Theorem C98_escaped s t es z out ok : decodes s t -> transcode (tc U8 z) (map code t) = Ok (out, ok) ->
  exists n, forall fuel, n <= fuel -> forall ops x, cursor_run out (match es with [] => ok | _ => true end) (same_or_end (length out)) ops = Some x ->
  run (piled (as_units (pct_class s)) fuel (stages U8 (es ++ [z]))) ops = Ok x.
Proof.
  intros D E. assert (U : units U8 (map code t)) by (apply Forall_map, Forall_forall; intros c _; apply PctFacts.code_lt).
  destruct (pile_laws z out es U8 (map code t) ok U E) as (n & H). exists n. intros fuel L ops x X.
  destruct (H fuel L _ _ _ (laws_fewer _ _ _ _ _ _ (any_se _) (units_laws _ _ _ _ _ (pct_laws s t D)))) as (R & HR). exact (laws_run _ _ _ _ R ops x HR X).
Qed.
Print Assumptions C98_escaped.
(* the views that lie on top do not matter: one view, several views, and a view of what has been transcoded before all show the same *)
Theorem C98_same a es es' z l out ok : units a l -> transcode (tc a z) l = Ok (out, ok) -> es <> [] -> es' <> [] ->
  exists n, forall fuel, n <= fuel -> forall ops x, cursor_run out true (same_or_end (length out)) ops = Some x ->
  run (piled (pointers l) fuel (stages a (es ++ [z]))) ops = Ok x /\ run (piled (pointers l) fuel (stages a (es' ++ [z]))) ops = Ok x
  /\ run (piled (pointers out) fuel (stages z [z])) ops = Ok x.
Proof.
  intros U E N N'. destruct (C98_text a es z l out ok U E) as (n & H). destruct (C98_text a es' z l out ok U E) as (n' & H').
  destruct (fixed a z l out ok U E) as [U2 E2]. destruct (C98_text z [] z out out true U2 E2) as (n2 & H2).
  exists (n + n' + n2). intros fuel L ops x X. split; [apply H; [lia|]; now destruct es|]. split; [apply H'; [lia|]; now destruct es'|]. apply H2; [lia|exact X].
Qed.
Print Assumptions C98_same.

(* in particular a range-based for loop *)
Theorem C98_loop a es z l out ok : units a l -> transcode (tc a z) l = Ok (out, ok) ->
  exists n, forall fuel, n <= fuel ->
  run (piled (pointers l) fuel (stages a (es ++ [z]))) (loop_program (length out)) = Ok (loop_sees out (match es with [] => ok | _ => true end)).
Proof. intros U E. destruct (C98_text a es z l out ok U E) as (n & H). exists n. intros fuel L. apply H; [exact L|]. apply loop_run. Qed.
Print Assumptions C98_loop.
Theorem C98_loop_escaped s t es z out ok : decodes s t -> transcode (tc U8 z) (map code t) = Ok (out, ok) ->
  exists n, forall fuel, n <= fuel ->
  run (piled (as_units (pct_class s)) fuel (stages U8 (es ++ [z]))) (loop_program (length out)) = Ok (loop_sees out (match es with [] => ok | _ => true end)).
Proof. intros D E. destruct (C98_escaped s t es z out ok D E) as (n & H). exists n. intros fuel L. apply H; [exact L|]. apply loop_run. Qed.
Print Assumptions C98_loop_escaped.

(* --- a text of three bytes, one of them escaped: "%E2\x82%ac!" --- *)
Definition ex_s : str := ss "%E2" ++ [chr 0x82] ++ ss "%ac!".
Definition ex_program : list op :=
  [Begin; End; Equal 0 1; Copy 0; Deref 0; Read 0; Inc 0; Equal 0 1; Deref 0; Read 1; Deref 2; Read 2; PostInc 0; Equal 0 1; Flag].
Example C98_ex : decodes ex_s [chr 0xE2; chr 0x82; chr 0xAC; "!"%char] /\ transcode (tc U8 U32) [0xE2; 0x82; 0xAC; 0x21]%N = Ok ([0x20AC; 0x21]%N, true)
  /\ cursor_run [0x20AC; 0x21]%N true (same_or_end 2) ex_program = Some [Bool false; Val 0x20AC; Bool false; Val 0x21; Val 0x20AC; Bool true; Bool true]%N
  /\ run (piled (as_units (pct_class ex_s)) 9 (stages U8 [U32])) ex_program = Ok [Bool false; Val 0x20AC; Bool false; Val 0x21; Val 0x20AC; Bool true; Bool true]%N
  /\ run (piled (as_units (pct_class ex_s)) 9 (stages U8 [U16; U8; U32])) ex_program = Ok [Bool false; Val 0x20AC; Bool false; Val 0x21; Val 0x20AC; Bool true; Bool true]%N.
Proof. split; [apply PctFacts.pctdecode_iff; vm_compute; reflexivity|]. repeat (match goal with |- _ /\ _ => split end); vm_compute; reflexivity. Qed.
(* F49: one view reports a malformed text; with another one on top, the report is lost *)
Theorem C98_report_refuted : let look := [Begin; End; Inc 0; Equal 0 1; Flag] in
  transcode (tc U8 U16) [0xFF]%N = Ok ([0xFFFD]%N, false) /\ run (piled (pointers [0xFF]%N) 9 (stages U8 [U16])) look = Ok [Bool true; Bool false]
  /\ run (piled (pointers [0xFF]%N) 9 (stages U8 [U32; U16])) look = Ok [Bool true; Bool true].
Proof. cbv zeta. repeat (match goal with |- _ /\ _ => split end); vm_compute; reflexivity. Qed.
Print Assumptions C98_report_refuted.

(* A component of parts, as text: what encode () makes of it, looked at through the views, is that text, code point by code point. *)
Theorem C98_component f s u e es : f = Userinfo \/ f = Segment \/ f = Query \/ f = Fragment -> text utf8_of u (map code s) -> encoded f s e ->
  exists n, forall fuel, n <= fuel ->
  run (piled (as_units (pct_class e)) fuel (stages U8 (es ++ [U32]))) (loop_program (length u)) = Ok (loop_sees u true).
Proof.
  intros Hf T E. assert (D : decodes e s).
  { rewrite <- (app_nil_r e), <- (app_nil_r s). apply PctFacts.decodes_encoded with (P := field_set f); [|destruct Hf as [->|[->|[->| ->]]]; exact E|constructor].
    destruct Hf as [->|[->|[->| ->]]]; right; reflexivity. }
  assert (X : transcode (tc U8 U32) (map code s) = Ok (u, true)) by (apply transcode_8_32; [apply Forall_map, Forall_forall; intros c _; apply PctFacts.code_lt|now apply reads8_true]).
  destruct (C98_loop_escaped e s es U32 u true D X) as (n & H). exists n. intros fuel L. rewrite (H fuel L). now destruct es.
Qed.
Print Assumptions C98_component.
Example C98_component_ex : text utf8_of [0xE9; 0x41]%N (map code [chr 0xC3; chr 0xA9; "A"%char]) /\ encoded Segment [chr 0xC3; chr 0xA9; "A"%char] (ss "%C3%A9A")
  /\ run (piled (as_units (pct_class (ss "%C3%A9A"))) 9 (stages U8 [U16; U32])) (loop_program 2) = Ok (loop_sees [0xE9; 0x41]%N true).
Proof.
  split; [|split; [|vm_compute; reflexivity]].
  - change (text utf8_of ([0xE9] ++ [0x41])%N ([0xC3; 0xA9] ++ [0x41] ++ [])%N). apply (text_cons utf8_of 0xE9%N); [apply (utf8_2 0xE9); vm_compute; congruence|].
    apply (text_cons utf8_of 0x41%N); [apply utf8_1; vm_compute; reflexivity|constructor].
  - cbn [encoded]. assert (H : forall c, (0x80 <= code c)%N -> field_set Segment c) by (intros c H; assert (code c > 0x7E)%N by lia; unfold field_set, path_set, query_set, fragment_set, c0_control_set; tauto).
    change (encodes (field_set Segment) [chr 0xC3; chr 0xA9; "A"%char] (escape (chr 0xC3) ++ escape (chr 0xA9) ++ ["A"%char])).
    apply enc_escape; [apply H; vm_compute; discriminate|]. apply enc_escape; [apply H; vm_compute; discriminate|]. apply enc_copy; [|constructor].
    intros [X|X]; [|discriminate X]. vm_compute in X. intuition congruence.
Qed.
(* ... and so for the parts that encode () gives *)
Definition seen_through_views (f : field) (s e : str) : Prop :=
  match f with
  | Scheme | Host | Port => True
  | _ => forall u es, text utf8_of u (map code s) -> exists n, forall fuel, n <= fuel ->
      run (piled (as_units (pct_class e)) fuel (stages U8 (es ++ [U32]))) (loop_program (length u)) = Ok (loop_sees u true)
  end.
Lemma rel_weaken (R R' : field -> str -> str -> Prop) : (forall f s e, R f s e -> R' f s e) -> forall p q, parts_rel R p q -> parts_rel R' p q.
Proof.
  intros H p q (A & B & C & D & E & F). assert (O : forall f o o', opt_rel (R f) o o' -> opt_rel (R' f) o o') by (intros f o o' []; constructor; auto).
  split; [now apply O|]. split; [destruct B as [|a b (B1 & B2 & B3)]; constructor; split; [now apply O|split; [now apply H|now apply O]]|]. split; [exact C|].
  split; [clear - H D; induction D; constructor; auto|]. split; now apply O.
Qed.
Theorem C98_parts grow store p pc st q : proper p -> shows store p pc -> parts_encode grow store p = Ok (st, q) ->
  exists qc, shows st q qc /\ parts_rel seen_through_views pc qc.
Proof.
  intros P S E. destruct (PartsProps.c26_encode_text grow store p pc st q P S E) as (qc & Sq & R). exists qc. split; [exact Sq|].
  revert R. apply rel_weaken. intros f s e X. destruct f; try exact I; intros u es T; (eapply C98_component; [|exact T|exact X]; tauto).
Qed.
Print Assumptions C98_parts.
