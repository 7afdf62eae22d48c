(* C94: percent-encoding and decoding when the source, the destination or the memory fails. *)
From Verif Require Import Base ModelPct SpecPct PctFacts PctProps PctPieces ModelPunyIo SpecPunyIo PunyIoFacts ModelPctIo PctIoFacts.
From Coq Require Import Lia.
Local Open Scope nat_scope.

(* --- pctencode (first, last, out, encodeset) --- *)
(* where nothing that is asked for throws, the source has been read once, in order, and what has been written is the encoding *)
Theorem C94_encode_returns s es refuses h o : (es < 256)%N -> run refuses (pctencode_t s es) = Returned h o ->
  o = Ok tt /\ reads h = s /\ pctencode s es = Ok (writes h).
Proof.
  intros He E. rewrite history in E by auto. apply run_from_returned in E as (-> & -> & _). cbn [fst snd app]. rewrite reads_history, writes_history. split; [reflexivity|]. split; [reflexivity|]. now apply pctencode_enc.
Qed.
Print Assumptions C94_encode_returns.
(* where a reading throws, what was read before it has been encoded and written, and the caller can go on from there *)
Theorem C94_encode_source_fails s es refuses h c : (es < 256)%N -> run refuses (pctencode_t s es) = Threw h (Read c) ->
  exists rest more, s = reads h ++ c :: rest /\ pctencode (reads h) es = Ok (writes h)
    /\ pctencode (c :: rest) es = Ok more /\ pctencode s es = Ok (writes h ++ more).
Proof.
  intros He E. rewrite history in E by auto. apply run_from_threw in E as (a & b & E & -> & _). cbn [fst] in E. cbn [app].
  destruct (history_cut _ _ _ _ _ E) as [(s' & c' & rest & -> & X & ->)|(s' & c' & rest & p & d & q & _ & _ & X & _)]; [|discriminate]. injection X as <-.
  exists rest, (enc es (c :: rest)). rewrite reads_history, writes_history, !pctencode_enc, enc_app by auto. auto.
Qed.
Print Assumptions C94_encode_source_fails.
(* where a writing throws, one character has been read that is not yet wholly written, and the text written is a beginning of the output *)
Theorem C94_encode_destination_fails s es refuses h d : (es < 256)%N -> run refuses (pctencode_t s es) = Threw h (Write d) ->
  exists before c rest done part more, s = before ++ c :: rest /\ reads h = before ++ [c]
    /\ pctencode before es = Ok done /\ pctencode [c] es = Ok (part ++ d :: more) /\ writes h = done ++ part
    /\ exists tail, pctencode s es = Ok (writes h ++ d :: tail).
Proof.
  intros He E. rewrite history in E by auto. apply run_from_threw in E as (a & b & E & -> & _). cbn [fst] in E. cbn [app].
  destruct (history_cut _ _ _ _ _ E) as [(s' & c' & rest & -> & X & ->)|(s' & c & rest & p & x & q & -> & C & X & ->)]; [discriminate|]. injection X as <-.
  exists s', c, rest, (enc es s'), p, q. rewrite reads_app, writes_app, reads_history, writes_history, reads_cons, writes_cons, reads_map, writes_map.
  rewrite !pctencode_enc by auto. split; [reflexivity|]. split; [reflexivity|]. split; [reflexivity|]. split. { replace (enc es [c]) with (encc es c) by (cbn [enc]; now rewrite app_nil_r). now rewrite C. }
  split; [reflexivity|]. exists (q ++ enc es rest). rewrite enc_app. replace (enc es (c :: rest)) with (encc es c ++ enc es rest) by reflexivity. rewrite C, <- !app_assoc. reflexivity.
Qed.
Print Assumptions C94_encode_destination_fails.
(* a destination with room for k characters receives the first k, and an exception if there are more *)
Theorem C94_encode_room s es e k : (es < 256)%N -> pctencode s es = Ok e ->
  if Nat.leb (length e) k then exists h, run (takes k) (pctencode_t s es) = Returned h (Ok tt) /\ writes h = e
  else exists h c, run (takes k) (pctencode_t s es) = Threw h (Write c) /\ writes h = firstn k e.
Proof.
  intros He E. rewrite pctencode_enc in E by auto. injection E as <-. rewrite history by auto. unfold run. cbn [fst snd].
  pose proof (run_takes k (flat_map (doing es) s) (Ok tt) [] (Nat.le_0_l k)) as T. cbn [app] in T. rewrite writes_history in T.
  destruct (Nat.ltb_spec k (length (enc es s))); destruct (Nat.leb_spec (length (enc es s)) k); try lia; [exact T|]. exists (flat_map (doing es) s). rewrite writes_history. auto.
Qed.
Print Assumptions C94_encode_room.
(* decoding a text whose writing was broken off gives the characters that had been written whole, then the beginning of an escape *)
Lemma upper_part s es t d : (0 < es < 256)%N -> pctdecode t = Ok d -> pctdecode (enc es s ++ t) = Ok (s ++ d).
Proof. intros He D. destruct (c15 s es He) as (e & E & _ & K). rewrite pctencode_enc in E by lia. injection E as <-. now apply K. Qed.
Lemma two x : pctdecode [percent; x] = Ok [percent; x].
Proof. destruct x as [[] [] [] [] [] [] [] []]; vm_compute; reflexivity. Qed.
Theorem C94_encode_broken_off s es refuses h d : (0 < es < 256)%N -> run refuses (pctencode_t s es) = Threw h (Write d) ->
  exists before c rest tail, s = before ++ c :: rest /\ pctdecode (writes h) = Ok (before ++ tail)
    /\ (tail = [] \/ tail = [percent] \/ tail = [percent; upper_hex (code c / 16)]).
Proof.
  intros He E. assert (He' : (es < 256)%N) by lia. destruct (C94_encode_destination_fails s es refuses h d He' E) as (before & c & rest & dn & part & more & -> & _ & D & P & -> & _).
  rewrite pctencode_enc in D, P by auto. injection D as <-. injection P as P. cbn [enc] in P. rewrite app_nil_r in P.
  assert (T : part = [] \/ part = [percent] \/ part = [percent; upper_hex (code c / 16)]).
  { destruct (needs c es); [unfold escape in P|]; destruct part as [|x1 [|x2 [|x3 part]]]; cbn [app] in P; auto.
    - injection P as <- _. auto. - injection P as <- <- _. auto.
    - exfalso. apply (f_equal (@length ascii)) in P. cbn in P. rewrite app_length in P. cbn in P. lia.
    - exfalso. apply (f_equal (@length ascii)) in P. cbn in P. lia.
    - exfalso. apply (f_equal (@length ascii)) in P. cbn in P. lia.
    - exfalso. apply (f_equal (@length ascii)) in P. cbn in P. lia. }
  exists before, c, rest, part. split; [reflexivity|]. split; [|exact T]. apply upper_part; auto.
  destruct T as [->|[->| ->]]; [reflexivity..|apply two].
Qed.
Print Assumptions C94_encode_broken_off.

(* --- pctencode (s, encodeset), which gives a string --- *)
(* the memory it needs is that of its result; with less it throws, at once if there is not even room for the input *)
Theorem C94_encode_string s es e room : (es < 256)%N -> pctencode s es = Ok e ->
  if Nat.leb (length e) room then exists h, run (memory room) (pctencode_string_t s es) = Returned h (Ok e)
  else exists h, run (memory room) (pctencode_string_t s es) = Threw h (Grow (if Nat.ltb room (length s) then length s else S room)) /\ (room < length s -> h = []).
Proof.
  intros He E. rewrite pctencode_enc in E by auto. injection E as <-. unfold pctencode_string_t, run. rewrite emit_fst, emit_snd. destruct (range_into es s He []) as [-> G].
  pose proof (enc_longer es s) as L. cbn [run_from memory app]. destruct (Nat.ltb_spec room (length s)).
  - destruct (Nat.leb_spec (length (enc es s)) room); [lia|]. exists []. auto.
  - pose proof (run_memory room _ (Ok (enc es s)) [Grow (length s)] _ 0 G (Nat.le_0_l room)) as T. cbn [Nat.add app] in T. destruct (Nat.leb (length (enc es s)) room); [eauto|].
    destruct T as (a & b & _ & T & _). eexists. split; [exact T|]. lia.
Qed.
Print Assumptions C94_encode_string.
(* --- pctdecode (s): it needs memory for as many characters as the input has, however short the result; if that is refused nothing is done *)
Theorem C94_decode_string s d room : pctdecode s = Ok d ->
  if Nat.leb (length s) room then exists h, run (memory room) (pctdecode_string_t s) = Returned h (Ok d)
  else run (memory room) (pctdecode_string_t s) = Threw [] (Grow (length s)).
Proof.
  intros E. unfold pctdecode in E. destruct (for_into (length s) s [] (le_n _)) as (d' & D & S & F & L). rewrite D in E. injection E as <-. cbn [app length] in *.
  unfold pctdecode_string_t, run. rewrite emit_fst, emit_snd, S, F. cbn [run_from memory app]. destruct (Nat.ltb_spec room (length s)); destruct (Nat.leb_spec (length s) room); try lia; [reflexivity|].
  eexists. apply run_memory_all. rewrite grows_map. intros n N. apply in_seq in N. lia.
Qed.
Print Assumptions C94_decode_string.
(* whatever the memory, what it returns is the result *)
Theorem C94_string_returns s es refuses h o : (es < 256)%N ->
  (run refuses (pctencode_string_t s es) = Returned h o -> o = pctencode s es) /\ (run refuses (pctdecode_string_t s) = Returned h o -> o = pctdecode s).
Proof.
  intros He. split; intros E; apply run_from_returned in E as (_ & -> & _).
  - unfold pctencode_string_t. rewrite emit_snd. destruct (range_into es s He []) as [-> _]. now rewrite pctencode_enc.
  - unfold pctdecode_string_t, pctdecode. rewrite emit_snd. destruct (for_into (length s) s [] (le_n _)) as (d' & -> & -> & _). reflexivity.
Qed.
Print Assumptions C94_string_returns.

(* --- needs_pctencode, needs_pctdecode: they read up to the first character that decides, once, and nothing after it --- *)
Lemma any_history es s : (es < 256)%N -> exists a, s = a ++ skipn (length a) s /\ needs_pctencode_t s es = (map Read a, needs_pctencode s es)
  /\ ((needs_pctencode s es = Ok false /\ a = s) \/ exists p c, a = p ++ [c] /\ needs_pctencode s es = Ok true /\ needs_byte (code c) es = Ok true /\ needs_pctencode p es = Ok false).
Proof.
  intros He. induction s as [|c s IH]; cbn [needs_pctencode_t needs_pctencode].
  - exists []. auto.
  - rewrite needs_ok by auto. cbn [bind]. rewrite pure_then. destruct (needs c es) eqn:N.
    + exists [c]. split; [reflexivity|]. split; [reflexivity|]. right. exists [], c. rewrite needs_ok, N by auto. auto.
    + destruct IH as (a & A & H & K). exists (c :: a). split; [cbn [app length skipn]; now rewrite <- A|]. rewrite H. split; [reflexivity|].
      destruct K as [[K ->]|(p & x & -> & K & X & P)]; [left; auto|right]. exists (c :: p), x. split; [reflexivity|]. split; [exact K|]. split; [exact X|]. cbn [needs_pctencode]. now rewrite needs_ok, N by auto.
Qed.
Lemma reads_reads (t : str) : reads (map (@Read ascii) t) = t. Proof. induction t as [|c t IH]; [reflexivity|]. cbn [map]. now rewrite reads_cons, IH. Qed.
Theorem C94_needs_encoding s es refuses h o : (es < 256)%N -> run refuses (needs_pctencode_t s es) = Returned h o ->
  o = needs_pctencode s es
  /\ ((o = Ok false /\ h = map Read s)
      \/ exists before c after, s = before ++ c :: after /\ o = Ok true /\ needs_byte (code c) es = Ok true /\ needs_pctencode before es = Ok false /\ h = map Read (before ++ [c])).
Proof.
  intros He E. apply run_from_returned in E as (-> & -> & _). destruct (any_history es s He) as (a & A & H & K). rewrite H. cbn [fst snd app]. split; [reflexivity|].
  destruct K as [[K ->]|(p & c & -> & K & X & P)]; [left; auto|right]. exists p, c, (skipn (length (p ++ [c])) s). rewrite <- app_assoc in A. auto.
Qed.
Print Assumptions C94_needs_encoding.
Lemma find_history s : (needs_pctdecode s = false /\ needs_pctdecode_t s = (map Read s, Ok false))
  \/ exists before after, s = before ++ percent :: after /\ ~ In percent before /\ needs_pctdecode s = true /\ needs_pctdecode_t s = (map Read (before ++ [percent]), Ok true).
Proof.
  induction s as [|c s IH]; cbn [needs_pctdecode_t]; [left; auto|]. unfold needs_pctdecode in *. cbn [existsb]. destruct (Ascii.eqb_spec c "%") as [->|Ne].
  - right. exists [], s. auto.
  - cbn [orb]. destruct IH as [[IH H]|(b & a & -> & N & IH & H)]; [left|right].
    + rewrite H. auto.
    + exists (c :: b), a. rewrite H. split; [reflexivity|]. split; [|auto]. intros [X|X]; [now apply Ne|auto].
Qed.
Theorem C94_needs_decoding s refuses h o : run refuses (needs_pctdecode_t s) = Returned h o ->
  o = Ok (needs_pctdecode s)
  /\ ((~ In percent s /\ o = Ok false /\ h = map Read s) \/ exists before after, s = before ++ percent :: after /\ ~ In percent before /\ o = Ok true /\ h = map Read (before ++ [percent])).
Proof.
  intros E. apply run_from_returned in E as (-> & -> & _). destruct (find_history s) as [[N H]|(b & a & -> & I & N & H)]; rewrite H, N; cbn [fst snd app].
  - split; [reflexivity|]. left. split; [|auto]. rewrite <- needs_pctdecode_iff. now rewrite N.
  - split; [reflexivity|]. right. exists b, a. auto.
Qed.
Print Assumptions C94_needs_decoding.

(* "a b%": a destination with room for two characters, a source that fails at the third reading *)
Example C94_case1 : pctencode (ss "a b%") es_component = Ok (ss "a%20b%25"). Proof. vm_compute. reflexivity. Qed.
Example C94_case2 : exists h, run (takes 3) (pctencode_t (ss "a b%") es_component) = Threw h (Write "0"%char) /\ writes h = ss "a%2" /\ reads h = ss "a ".
Proof. eexists. split; [vm_compute; reflexivity|]. split; reflexivity. Qed.
Example C94_case3 : exists h, run (gives 2) (pctencode_t (ss "a b%") es_component) = Threw h (Read "b"%char) /\ writes h = ss "a%20".
Proof. eexists. split; [vm_compute; reflexivity|]. reflexivity. Qed.
Example C94_case4 : run (memory 3) (pctencode_string_t (ss "a b%") es_component) = Threw [] (Grow 4) /\ exists h, run (memory 5) (pctencode_string_t (ss "a b%") es_component) = Threw h (Grow 6).
Proof. split; [vm_compute; reflexivity|]. eexists. vm_compute. reflexivity. Qed.
Example C94_case5 : pctdecode (ss "a%20b%25") = Ok (ss "a b%") /\ run (memory 7) (pctdecode_string_t (ss "a%20b%25")) = Threw [] (Grow 8).
Proof. split; vm_compute; reflexivity. Qed.
Example C94_case6 : run (fun _ _ => false) (needs_pctencode_t (ss "ab c d") es_component) = Returned [Read "a"%char; Read "b"%char; Read " "%char] (Ok true).
Proof. vm_compute. reflexivity. Qed.
Example C94_case7 : run (fun _ _ => false) (needs_pctdecode_t (ss "a%b%")) = Returned [Read "a"%char; Read "%"%char] (Ok true).
Proof. vm_compute. reflexivity. Qed.
