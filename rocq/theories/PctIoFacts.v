(* Proofs about percent-encoding with what it does to the outside *)
From Verif Require Import Base ModelPct SpecPct PctFacts PctProps SpecPieces PctPieces ModelPunyIo SpecPunyIo PunyIoFacts ModelPctIo.
From Coq Require Import Lia.
Local Open Scope nat_scope.

Definition encc (es : N) (c : ascii) : str := if needs c es then escape c else [c].
Lemma enc_flat es s : enc es s = flat_map (encc es) s. Proof. induction s as [|c s IH]; cbn [enc flat_map]; [reflexivity|]. now rewrite IH. Qed.
Lemma enc_app es s t : enc es (s ++ t) = enc es s ++ enc es t. Proof. rewrite !enc_flat. apply flat_map_app. Qed.
Lemma encc_length es c : 1 <= length (encc es c). Proof. unfold encc. destruct (needs c es); cbn; lia. Qed.
Lemma enc_longer es s : length s <= length (enc es s).
Proof. induction s as [|c s IH]; cbn [enc length]; [lia|]. rewrite app_length. pose proof (encc_length es c). unfold encc in *. unfold str in *. lia. Qed.

(* --- the history of an encoding --- *)
Definition doing (es : N) (c : ascii) : list (event ascii) := Read c :: map Write (encc es c).
Lemma history es s : (es < 256)%N -> pctencode_t s es = (flat_map (doing es) s, Ok tt).
Proof.
  intros He. unfold pctencode_t. induction s as [|c s IH]; cbn [encode_range_t flat_map]; [reflexivity|].
  assert (C : encode_char_t (fun c _ => emit (Write c)) c es tt = (doing es c, Ok tt)).
  { unfold encode_char_t, doing, encc. rewrite needs_ok by auto. destruct (nibbles c) as (-> & -> & H1 & H2). rewrite !dec2hex_ok by auto. now destruct (needs c es). }
  rewrite C, then_cases. cbn [snd fst]. now rewrite IH.
Qed.
Lemma writes_map t : writes (map (@Write ascii) t) = t. Proof. induction t as [|c t IH]; [reflexivity|]. cbn [map]. now rewrite writes_cons, IH. Qed.
Lemma reads_map t : reads (map (@Write ascii) t) = []. Proof. induction t as [|c t IH]; [reflexivity|]. cbn [map]. now rewrite reads_cons, IH. Qed.
Lemma writes_history es s : writes (flat_map (doing es) s) = enc es s.
Proof. induction s as [|c s IH]; [reflexivity|]. cbn [flat_map]. rewrite writes_app, IH. unfold doing. rewrite writes_cons, writes_map. reflexivity. Qed.
Lemma reads_history es s : reads (flat_map (doing es) s) = s.
Proof. induction s as [|c s IH]; [reflexivity|]. cbn [flat_map]. rewrite reads_app, IH. unfold doing. now rewrite reads_cons, reads_map. Qed.

Lemma map_write_cut t : forall a (x : event ascii) b, map (@Write ascii) t = a ++ x :: b -> exists p d q, t = p ++ d :: q /\ a = map Write p /\ x = Write d /\ b = map Write q.
Proof.
  induction t as [|c t IH]; intros [|y a] x b E; try discriminate; cbn [map app] in E; injection E as <- E.
  - exists [], c, t. auto.
  - destruct (IH a x b E) as (p & d & q & -> & -> & -> & ->). exists (c :: p), d, q. auto.
Qed.
(* a history that is cut is cut at a reading, between characters, or at a writing, within the encoding of one *)
Lemma history_cut es s : forall a x b, flat_map (doing es) s = a ++ x :: b ->
  (exists s' c rest, s = s' ++ c :: rest /\ x = Read c /\ a = flat_map (doing es) s')
  \/ (exists s' c rest p d q, s = s' ++ c :: rest /\ encc es c = p ++ d :: q /\ x = Write d /\ a = flat_map (doing es) s' ++ Read c :: map Write p).
Proof.
  induction s as [|c s IH]; intros a x b E; [now destruct a|]. cbn [flat_map] in E. unfold doing at 1 in E. cbn [app] in E.
  destruct a as [|y a].
  - injection E as <- _. left. exists [], c, s. auto.
  - injection E as <- E. unfold str in *.
    assert (Split : forall (l : list (event ascii)) m, l ++ m = a ++ x :: b -> (exists b', l = a ++ x :: b') \/ exists a', a = l ++ a' /\ m = a' ++ x :: b).
    { clear. intros l. revert a. induction l as [|z l IH]; intros a m E; [right; exists a; auto|]. destruct a as [|y a]; cbn [app] in E; injection E as -> E.
      - left. exists l. auto.
      - destruct (IH a m E) as [(b' & ->)|(a' & -> & ->)]; [left; exists b'; auto|right; exists a'; auto]. }
    destruct (Split _ _ E) as [(b' & M)|(a' & -> & M)].
    + right. destruct (map_write_cut _ _ _ _ M) as (p & d & q & C & -> & -> & _). exists [], c, s, p, d, q. auto.
    + destruct (IH a' x b M) as [(s' & c' & rest & -> & -> & ->)|(s' & c' & rest & p & d & q & -> & C & -> & ->)].
      * left. exists (c :: s'), c', rest. auto.
      * right. exists (c :: s'), c', rest, p, d, q. split; [reflexivity|]. split; [exact C|]. split; [reflexivity|]. cbn [flat_map]. unfold doing at 3. cbn [app]. now rewrite <- app_assoc.
Qed.

(* --- into a string --- *)
(* the sizes asked for while a string of length j receives t *)
Lemma char_into es c out : (es < 256)%N -> fst (encode_char_t push_back c es out) = Read c :: map Grow (seq (S (length out)) (length (encc es c))) /\ snd (encode_char_t push_back c es out) = Ok (out ++ encc es c).
Proof.
  intros He. unfold encode_char_t, encc. rewrite needs_ok by auto. destruct (nibbles c) as (-> & -> & H1 & H2). rewrite !dec2hex_ok by auto. destruct (needs c es); cbn.
  - rewrite !app_length. cbn. rewrite <- !app_assoc. cbn. rewrite !Nat.add_1_r. auto.
  - auto.
Qed.
Lemma grows_map ns : grows (map (@Grow ascii) ns) = ns. Proof. induction ns as [|n ns IH]; [reflexivity|]. cbn [map]. now rewrite grows_cons, IH. Qed.
Lemma range_into es s : (es < 256)%N -> forall out, snd (encode_range_t push_back s es out) = Ok (out ++ enc es s)
  /\ grows (fst (encode_range_t push_back s es out)) = seq (S (length out)) (length (enc es s)).
Proof.
  intros He. induction s as [|c s IH]; intros out; cbn [encode_range_t enc].
  - rewrite app_nil_r. auto.
  - destruct (char_into es c out He) as [F S]. rewrite then_cases, S. cbn [fst snd]. rewrite grows_app, F, grows_cons, grows_map. change (if needs c es then escape c else [c]) with (encc es c).
    destruct (IH (out ++ encc es c)) as [-> ->]. rewrite <- app_assoc, !app_length. rewrite seq_app. cbn [Nat.add]. auto.
Qed.
Lemma for_into fuel : forall s result, length s <= fuel -> exists d, decode_loop fuel s result = Ok (result ++ d) /\ snd (decode_for_t fuel s result) = Ok (result ++ d)
  /\ fst (decode_for_t fuel s result) = map Grow (seq (S (length result)) (length d)) /\ length d <= length s.
Proof.
  induction fuel as [|fuel IH]; intros s result L; cbn [decode_loop decode_for_t].
  - destruct s; [|cbn in L; lia]. exists []. rewrite app_nil_r. auto.
  - destruct s as [|c s]. { exists []. rewrite app_nil_r. auto. }
    assert (St : exists b rest, deref (c :: s) = Ok b /\ increment (c :: s) = Ok rest /\ length rest <= length s).
    { destruct (esc (c :: s)) eqn:E.
      - apply esc_iff in E as (b & rest & E). exists b, rest. destruct (step_escape _ _ _ E) as [-> ->]. split; [reflexivity|]. split; [reflexivity|]. destruct (esc_hex _ _ _ E) as (h & l & _ & _ & X). injection X as _ ->. cbn. lia.
      - exists c, s. destruct (step_copy c s E) as [-> ->]. auto. }
    destruct St as (b & rest & D & I & R). rewrite D, I. cbn [bind]. rewrite !pure_then. cbn in L.
    destruct (IH rest (result ++ [b]) ltac:(lia)) as (d & A1 & A2 & A3 & A4). exists (b :: d). unfold push_back. rewrite <- app_assoc in *. cbn [app] in *.
    split; [exact A1|]. rewrite then_cases, emit_snd, emit_fst. cbn [snd fst ret]. rewrite !pure_then, A2, A3. split; [reflexivity|]. rewrite app_length. cbn. rewrite Nat.add_1_r. split; [reflexivity|lia].
Qed.
(* memory that has room for all the sizes but may refuse *)
Lemma run_memory_all {X A} room (todo : list (event X)) (o : outcome A) : forall h, (forall n, In n (grows todo) -> n <= room) -> run_from (memory room) h todo o = Returned (h ++ todo) o.
Proof.
  induction todo as [|e todo IH]; intros h L; cbn [run_from]; [now rewrite app_nil_r|].
  rewrite grows_cons in L. destruct e as [x|c|n]; cbn [memory].
  1,2: rewrite IH by auto; now rewrite <- app_assoc.
  destruct (Nat.ltb_spec room n). { specialize (L n (or_introl eq_refl)). lia. } rewrite IH; [now rewrite <- app_assoc|]. intros m M. apply L. now right.
Qed.
