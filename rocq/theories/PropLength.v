(* PROPERTY THEOREMS: C90 how long the results are.
   Vocabulary: SpecLayers.v (times, encode_call, decode_call), SpecViews.v (no_xn), SpecStore.v (ascii_only, field_set), SpecPct.v (encodes, percent, upper_hex). *)
From Verif Require Import Base ModelUri ModelParts SpecUri SpecParts SpecPct SpecStore SpecViews SpecLayers UriSplit JoinFacts PartsProps LengthFacts.
From Verif Require PropSplitFacts PropLayers InfluenceFacts ModelPuny.
From Coq Require Import Lia.
Local Open Scope list_scope.

Lemma split_tidy sg fuel s p : fits fuel s -> split sg fuel s = Ok (Some p) -> tidy_path (p_path p).
Proof.
  intros Hf E. apply split_iff in E; [|exact Hf]. destruct E as [E _]. intros N. assert (D : path_shape (comps p)) by (eapply decomp_shape; left; exact E).
  destruct (absolute (p_path p)) eqn:A; [|reflexivity]. elim (ps_abs _ D A N).
Qed.

(* --- join --- *)
(* The result is not longer than the base and the reference together, if the base's path has more than one segment (or the base has
   no path and no authority); otherwise one "/" may come on top. *)
Theorem C90_join sg fuel base ref strict b t : fits fuel base -> fits fuel ref -> split sg fuel base = Ok (Some b) -> join sg fuel base ref strict = Ok (Some t) ->
  (length (compose t) <= length base + length ref + 1)%nat
  /\ ((2 <= length (segments (p_path b)))%nat \/ (segments (p_path b) = [] /\ p_authority b = None) -> (length (compose t) <= length base + length ref)%nat).
Proof.
  intros F1 F2 B J. apply InfluenceFacts.join_split in J as (b' & r & B' & R & ->). rewrite B in B'. injection B' as <-.
  pose proof (join_length b r strict (split_tidy sg fuel base b F1 B)) as L.
  rewrite (PropSplitFacts.compose_split sg fuel base b F1 (or_introl B)), (PropSplitFacts.compose_split sg fuel ref r F2 (or_intror R)) in L. unfold extra in L.
  destruct (segments (p_path b)) as [|x [|y l]]; cbn [length].
  - split; [destruct (p_authority b); lia|]. intros [H|[_ H]]; [lia|]. rewrite H in L. lia.
  - split; [lia|]. intros [H|[H _]]; [lia|discriminate H].
  - split; lia.
Qed.
Print Assumptions C90_join.
(* both bounds are reached *)
Example C90_join_ex : (exists b t, split true 200 (ss "http://a") = Ok (Some b) /\ segments (p_path b) = [] /\ join true 200 (ss "http://a") (ss "b") true = Ok (Some t) /\ compose t = ss "http://a/b")
  /\ (exists b t, split true 200 (ss "http://a/x/") = Ok (Some b) /\ length (segments (p_path b)) = 2 /\ join true 200 (ss "http://a/x/") (ss "b") true = Ok (Some t) /\ compose t = ss "http://a/x/b").
Proof. split; do 2 eexists; do 3 (split; [vm_compute; reflexivity|]); vm_compute; reflexivity. Qed.
(* references resolved one after the other: at most one "/" for each of them *)
Theorem C90_joins sg fuel base refs strict b rs : fits fuel base -> Forall (fits fuel) refs -> split sg fuel base = Ok (Some b) ->
  Forall2 (fun ref r => split_reference sg fuel ref = Ok (Some r)) refs rs ->
  (length (compose (fold_left (fun t r => join_parts t r strict) rs b)) <= length base + list_sum (map (@length ascii) refs) + length refs)%nat.
Proof.
  intros F1 F2 B R. pose proof (joins_length b rs strict) as L. rewrite (PropSplitFacts.compose_split sg fuel base b F1 (or_introl B)) in L.
  assert (E : list_sum (map (fun r => S (length (compose r))) rs) = (list_sum (map (@length ascii) refs) + length refs)%nat).
  { clear - R F2. induction R as [|ref r refs rs H R IH]; [reflexivity|]. cbn [map length].
    change (list_sum (S (length (compose r)) :: map (fun r => S (length (compose r))) rs)) with (S (length (compose r)) + list_sum (map (fun r => S (length (compose r))) rs))%nat.
    change (list_sum (length ref :: map (@length ascii) refs)) with (length ref + list_sum (map (@length ascii) refs))%nat.
    rewrite (IH (Forall_inv_tail F2)), (PropSplitFacts.compose_split sg fuel ref r (Forall_inv F2) (or_intror H)). lia. }
  rewrite E in L. lia.
Qed.
Print Assumptions C90_joins.
Example C90_joins_ex : exists b r, split true 200 (ss "a:b") = Ok (Some b) /\ split_reference true 200 (ss "c/") = Ok (Some r)
  /\ compose (fold_left (fun t r => join_parts t r true) [r; r; r] b) = ss "a:b/c/c/c/".
Proof. do 2 eexists. do 2 (split; [vm_compute; reflexivity|]). vm_compute; reflexivity. Qed.

(* --- encode --- *)
(* n layers of percent-encoding: two characters more in each layer for every byte of the set (so the length grows with the number
   of layers, not by powers of it); with a set that has not the percent sign only the first layer counts *)
Theorem C90_layers (P : ascii -> Prop) (f : ascii -> bool) n s e : (forall c, f c = true <-> P c) -> (forall d, ~ P (upper_hex d)) -> times n (encodes P) s e ->
  (P percent -> length e = length s + 2 * n * length (filter f s))%nat
  /\ (~ P percent -> length e = length s + 2 * Nat.min n 1 * length (filter f s))%nat.
Proof.
  intros Hf Hh T. destruct (encodes_times P f Hf Hh n s e T) as [L _]. unfold cnt in L. split; intros H.
  - apply Hf in H. now rewrite H in L.
  - now rewrite (f_no P f Hf _ H) in L.
Qed.
Print Assumptions C90_layers.
(* the sets of the library are such sets *)
Theorem C90_layers_sets k d : ~ field_set k (upper_hex d).
Proof. exact (field_hex k d). Qed.
Print Assumptions C90_layers_sets.
(* n calls of encode: at most 2n+1 times as long if the host is ASCII (tight: a space), and in any case at most 26 times or 2n+1 times *)
Theorem C90_encode n p q : times n encode_call p q ->
  (length (compose q) <= Nat.max 26 (2 * n + 1) * length (compose p))%nat
  /\ ((forall a, p_authority p = Some a -> ascii_only (map code (ModelUri.host a))) -> (length (compose q) <= (2 * n + 1) * length (compose p))%nat).
Proof. intros E. split; [exact (encode_length n p q E)|intros A; exact (encode_length_ascii n p q A E)]. Qed.
Print Assumptions C90_encode.
Example C90_encode_ex : times 2 encode_call (PropLayers.one_segment "a b") (PropLayers.one_segment "a%2520b") /\ p_authority (PropLayers.one_segment "a b") = None
  /\ compose (PropLayers.one_segment "a%2520b") = ss "http:a%2520b" /\ times 2 (encodes (field_set Segment)) (ss " ") (ss "%2520").
Proof.
  split; [apply PropLayers.C84_ex|]. split; [reflexivity|]. split; [reflexivity|]. exists (ss "%20"). split; [|exists (ss "%2520"); split; [|reflexivity]].
  - apply (enc_escape _ " "%char [] []); [|constructor]. apply (PartsEnc.needs_field_set Segment); [discriminate|vm_compute; reflexivity].
  - apply (enc_escape _ "%"%char (ss "20") (ss "20")); [now right|]. apply enc_copy; [exact (field_hex Segment 2)|]. apply enc_copy; [exact (field_hex Segment 0)|constructor].
Qed.

(* --- decode --- *)
(* at most four times as long (only a host can grow); without an xn-- label not longer, and not shorter than a third *)
Theorem C90_decode p q : decode_call p q ->
  (length (compose q) <= 4 * length (compose p))%nat
  /\ (no_xn p -> (length (compose q) <= length (compose p) /\ length (compose p) <= 3 * length (compose q))%nat).
Proof. intros D. split; [exact (decode_length p q D)|intros X; exact (decode_length_plain p q X D)]. Qed.
Print Assumptions C90_decode.
Example C90_decode_ex : decode_call (PropLayers.one_segment "a%20b") (PropLayers.one_segment "a b") /\ no_xn (PropLayers.one_segment "a%20b").
Proof.
  split.
  { exists (fun n => n), (Vec 0 0 []), (PropLayers.one_view "a%20b"). do 2 eexists. split; [apply PropLayers.one_proper|]. split; [repeat constructor|]. split; [vm_compute; reflexivity|repeat constructor]. }
  intros a ls l A. discriminate A. Qed.
(* a host that grows: the first code point takes some characters, every further one in the same place only one, for four bytes *)
Definition one_host (s : str) : parts := mkparts None (Some (mkauth None s None)) (mkpath false []) None None.
Example C90_decode_grows : exists s t, decode_call (one_host s) (one_host t) /\ (3 * length (compose (one_host s)) <= length (compose (one_host t)))%nat.
Proof.
  exists (ss "xn--427c" ++ repeat "a"%char 60). eexists. split.
  - exists (fun n => n), (Vec 0 0 []), (mkvparts None (Some (mkvauth None (Caller (ss "xn--427c" ++ repeat "a"%char 60)) None)) false [] None None). do 2 eexists.
    split; [split; [|split]; [repeat constructor|reflexivity|repeat constructor]|]. split; [repeat constructor|]. split; [vm_compute; reflexivity|]. repeat constructor.
  - vm_compute. lia.
Qed.
