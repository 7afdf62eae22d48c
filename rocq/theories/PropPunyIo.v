(* C93: Punycode when the source, the destination or the memory fails. *)
From Verif Require Import Base ModelPuny WorkPuny PunyFacts PunyEnc ModelPunyIo SpecPunyIo PunyIoFacts.
From Coq Require Import Lia.
Local Open Scope nat_scope.

(* --- encode --- *)
(* where nothing that is asked for throws, it is punycode::encode, and what has been written is its output *)
Theorem C93_encode_returns u plain refuses h o : run refuses (encode_t u plain) = Returned h o ->
  match o with Ok b => encode u plain = Ok (writes h, b) | Fault f => encode u plain = Fault f | Diverge => encode u plain = Diverge end.
Proof.
  intros E. apply run_from_returned in E as (-> & -> & _). rewrite encode_is. unfold onto. now destruct (snd (encode_t u plain)).
Qed.
Print Assumptions C93_encode_returns.
Lemma encoded u plain e b : encode u plain = Ok (e, b) -> snd (encode_t u plain) = Ok b /\ writes (fst (encode_t u plain)) = e.
Proof. rewrite encode_is. unfold onto. destruct (snd (encode_t u plain)); try discriminate. intros E. injection E as <- <-. auto. Qed.
(* whatever throws, and whenever: what has been written is the beginning of the output, up to the character whose writing failed *)
Theorem C93_encode_throws u plain e b refuses h x : encode u plain = Ok (e, b) -> run refuses (encode_t u plain) = Threw h x ->
  exists rest, e = writes h ++ rest /\ forall c, x = Write c -> exists rest', rest = c :: rest'.
Proof.
  intros E R. apply encoded in E as [_ <-]. apply run_from_threw in R as (a & r & E & -> & _ & _). rewrite E, writes_app. exists (writes (x :: r)). split; [reflexivity|].
  intros c ->. now exists (writes r).
Qed.
Print Assumptions C93_encode_throws.
(* a destination with room for k characters receives the first k, and an exception if there are more *)
Theorem C93_encode_destination u plain e b k : encode u plain = Ok (e, b) ->
  if Nat.leb (length e) k then exists h, run (takes k) (encode_t u plain) = Returned h (Ok b) /\ writes h = e
  else exists h c, run (takes k) (encode_t u plain) = Threw h (Write c) /\ writes h = firstn k e.
Proof.
  intros E. apply encoded in E as [B <-]. unfold run. rewrite B. pose proof (run_takes k (fst (encode_t u plain)) (Ok b) [] (Nat.le_0_l k)) as T. cbn [app] in T.
  destruct (Nat.ltb_spec k (length (writes (fst (encode_t u plain))))) as [L|L]; destruct (Nat.leb_spec (length (writes (fst (encode_t u plain)))) k); try lia; eauto.
Qed.
Print Assumptions C93_encode_destination.
(* the memory it needs is that for the code points beyond ASCII; if there is room for fewer it throws at the first that is too many,
   having written the ASCII characters before it *)
Theorem C93_encode_memory u plain e b room : encode u plain = Ok (e, b) ->
  if Nat.leb (length (filter (fun c => 0x80 <=? c)%N u)) room then exists h, run (memory room) (encode_t u plain) = Returned h (Ok b) /\ writes h = e
  else exists h before c after, run (memory room) (encode_t u plain) = Threw h (Grow (S room)) /\ u = before ++ c :: after /\ (0x80 <= c)%N
    /\ length (filter (fun c => 0x80 <=? c)%N before) = room /\ writes h = map chr (filter (fun c => c <? 0x80)%N before).
Proof.
  intros E. apply encoded in E as [B <-].
  assert (F : forall l, filter (fun c => 0x80 <=? c)%N l = filter nonb l). { intros l. apply filter_ext. intros c. unfold nonb, is_basic_code_point. rewrite N.leb_antisym. reflexivity. }
  rewrite F. pose proof (run_memory room (fst (encode_t u plain)) (Ok b) [] _ 0 (encode_grows u plain) (Nat.le_0_l room)) as T. unfold run. rewrite B. cbn [app Nat.add] in T.
  destruct (Nat.leb (length (filter nonb u)) room); [eauto|]. destruct T as (a & r & E & R & G). destruct (encode_cut u plain a r _ E) as (p & c & q & -> & C & W & G').
  exists a, p, c, q. split; [exact R|]. split; [reflexivity|]. split. { unfold nonb, is_basic_code_point in C. apply Bool.negb_true_iff, N.ltb_ge in C. exact C. }
  rewrite F. split; [lia|exact W].
Qed.
Print Assumptions C93_encode_memory.
(* it reads the whole source from its beginning, and once more for each distinct code point beyond ASCII *)
Theorem C93_encode_source u plain e b ds : encode u plain = Ok (e, b) -> NoDup ds -> (forall c, In c ds <-> In c u /\ (0x80 <= c)%N) ->
  forall k, if Nat.leb (length u * S (length ds)) k then exists h, run (gives k) (encode_t u plain) = Returned h (Ok b) /\ reads h = List.concat (repeat u (S (length ds)))
  else exists h x, run (gives k) (encode_t u plain) = Threw h (Read x) /\ reads h = firstn k (List.concat (repeat u (S (length ds)))).
Proof.
  intros E ND D k. apply encoded in E as [B _].
  assert (R : reads (fst (encode_t u plain)) = List.concat (repeat u (S (length ds)))).
  { rewrite (encode_reads u plain b B). cbn [repeat List.concat]. f_equal.
    assert (M : length ds = length (sort_and_remove_duplicates (filter nonb u))).
    { apply same_length; auto.
      - apply sorted_nodup, unique_strict, sort_sorted.
      - intros x. unfold sort_and_remove_duplicates. rewrite unique_in, sort_in, filter_In, D. unfold nonb, is_basic_code_point. rewrite Bool.negb_true_iff, N.ltb_ge. tauto. }
    rewrite M. destruct (plain && _)%bool eqn:P; [|reflexivity]. apply Bool.andb_true_iff in P as [_ P]. apply Bool.negb_true_iff in P.
    assert (Z : filter nonb u = []). { clear - P. induction u as [|c u IH]; [reflexivity|]. cbn in *. apply Bool.orb_false_iff in P as [-> P]. now apply IH. }
    now rewrite Z. }
  assert (L : length (List.concat (repeat u (S (length ds)))) = length u * S (length ds)).
  { generalize (S (length ds)) as n. induction n as [|n IH]; cbn [repeat List.concat]; [now rewrite Nat.mul_0_r|]. rewrite app_length, IH. lia. }
  unfold run. rewrite B. pose proof (run_gives k (fst (encode_t u plain)) (Ok b) [] (Nat.le_0_l k)) as T. cbn [app] in T. rewrite R, L in T.
  destruct (Nat.ltb_spec k (length u * S (length ds))) as [G|G]; destruct (Nat.leb_spec (length u * S (length ds)) k); try lia; [exact T|]. exists (fst (encode_t u plain)). auto.
Qed.
Print Assumptions C93_encode_source.

(* --- decode, with or without the asserts of find_last --- *)
Theorem C93_decode_returns asserts s refuses h o : run refuses (decode_t asserts s) = Returned h o -> o = decode s.
Proof. intros E. apply run_from_returned in E as (-> & -> & _). apply decode_is. Qed.
Print Assumptions C93_decode_returns.
(* a text of n characters never needs room for more than n code points, be it well formed or not *)
Theorem C93_decode_memory asserts s room : length s <= room -> exists h, run (memory room) (decode_t asserts s) = Returned h (decode s).
Proof.
  intros L. destruct (decode_is asserts s) as (A & _ & m & G & M & _). pose proof (run_memory room (fst (decode_t asserts s)) (snd (decode_t asserts s)) [] m 0 G (Nat.le_0_l room)) as T.
  cbn [app Nat.add] in T. destruct (Nat.leb_spec m room); [|lia]. exists (fst (decode_t asserts s)). rewrite <- A. exact T.
Qed.
Print Assumptions C93_decode_memory.
(* and one that is decoded needs exactly the room of the result *)
Theorem C93_decode_memory_exact asserts s u room : decode s = Ok (inl u) ->
  if Nat.leb (length u) room then exists h, run (memory room) (decode_t asserts s) = Returned h (Ok (inl u))
  else exists h, run (memory room) (decode_t asserts s) = Threw h (Grow (S room)).
Proof.
  intros D. destruct (decode_is asserts s) as (A & _ & m & G & _ & M). rewrite (M u D). pose proof (run_memory room (fst (decode_t asserts s)) (snd (decode_t asserts s)) [] m 0 G (Nat.le_0_l room)) as T.
  cbn [app Nat.add] in T. destruct (Nat.leb m room).
  - exists (fst (decode_t asserts s)). rewrite <- D, <- A. exact T.
  - destruct T as (a & b & _ & T & _). eauto.
Qed.
Print Assumptions C93_decode_memory_exact.
(* it reads no more than twice as many characters as there are, or three times with the asserts *)
Theorem C93_decode_source (asserts : bool) s k : (if asserts then 3 else 2) * length s <= k -> exists h, run (gives k) (decode_t asserts s) = Returned h (decode s).
Proof.
  intros L. destruct (decode_is asserts s) as (A & R & _). pose proof (run_gives k (fst (decode_t asserts s)) (snd (decode_t asserts s)) [] (Nat.le_0_l k)) as T. cbn [app] in T.
  destruct (Nat.ltb_spec k (length (reads (fst (decode_t asserts s))))); [lia|]. exists (fst (decode_t asserts s)). rewrite <- A. exact T.
Qed.
Print Assumptions C93_decode_source.
(* nothing is written: a call that throws leaves no trace *)
Theorem C93_decode_silent asserts s h : (exists refuses x, run refuses (decode_t asserts s) = Threw h x) \/ (exists refuses o, run refuses (decode_t asserts s) = Returned h o) -> writes h = [].
Proof.
  assert (W : writes (fst (decode_t asserts s)) = []) by apply decode_silent.
  intros [(refuses & x & E)|(refuses & o & E)].
  - apply run_from_threw in E as (a & r & E & -> & _). rewrite E, writes_app in W. now apply app_eq_nil in W as [W _].
  - apply run_from_returned in E as (-> & _). exact W.
Qed.
Print Assumptions C93_decode_silent.

Example C93_case1 : encode [0x62; 0xFC; 0x63; 0xFC]%N true = Ok (ss "bc-xkab", true). Proof. vm_compute. reflexivity. Qed.
(* "b", u umlaut, "c", u umlaut: a destination with room for four characters, memory for one code point, a source that fails at the fifth reading *)
Example C93_case2 : exists h, run (takes 4) (encode_t [0x62; 0xFC; 0x63; 0xFC]%N true) = Threw h (Write "k"%char) /\ writes h = ss "bc-x" /\ reads h = [0x62; 0xFC; 0x63; 0xFC; 0x62; 0xFC]%N.
Proof. eexists. split; [vm_compute; reflexivity|]. split; reflexivity. Qed.
Example C93_case3 : exists h, run (memory 1) (encode_t [0x62; 0xFC; 0x63; 0xFC]%N true) = Threw h (Grow 2) /\ writes h = ss "bc".
Proof. eexists. split; [vm_compute; reflexivity|]. reflexivity. Qed.
Example C93_case4 : exists h, run (gives 4) (encode_t [0x62; 0xFC; 0x63; 0xFC]%N true) = Threw h (Read 0x62%N) /\ writes h = ss "bc-".
Proof. eexists. split; [vm_compute; reflexivity|]. reflexivity. Qed.
Example C93_case5 : exists h, run (memory 3) (decode_t false (ss "bc-xkab")) = Threw h (Grow 4) /\ reads h = ss "bakx-bcxkab".
Proof. eexists. split; [vm_compute; reflexivity|]. vm_compute. reflexivity. Qed.
Example C93_case6 : exists h, run (memory 4) (decode_t true (ss "bc-xkab")) = Returned h (Ok (inl [0x62; 0xFC; 0x63; 0xFC]%N)) /\ reads h = ss "bakx-bc-xkabbcxkab".
Proof. eexists. split; [vm_compute; reflexivity|]. vm_compute. reflexivity. Qed.
(* the bound on the memory of a text that is rejected is reached, but for the last character *)
Example C93_case7 : exists h, run (fun _ _ => false) (decode_t false (ss "abc-!")) = Returned h (Ok (inr bad_input)) /\ grows h = [1; 2; 3].
Proof. eexists. split; [vm_compute; reflexivity|]. reflexivity. Qed.
