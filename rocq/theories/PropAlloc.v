(* C72: parsing, valid () and join () when memory runs out. *)
From Verif Require Import Base ModelRule ModelUri ModelParse ParseWork ParseCost ModelAlloc AllocFacts AllocQuiet AllocSize AllocSegs SpecUri PropSplitFacts.
Local Open Scope nat_scope.

(* A call in memory m ends with a result and the memory that is left, or with std::bad_alloc. *)
Definition returns {Mem X} (c : Mem -> outcome (option (X * Mem))) (m : Mem) (x : X) : Prop := exists m', c m = Ok (Some (x, m')).
Definition throws_bad_alloc {Mem X} (c : Mem -> outcome (option (X * Mem))) (m : Mem) : Prop := c m = Ok None.

Lemma same_or {Mem X} (c : @R Mem X) (o : outcome X) x : same c o -> o = Ok x -> forall m, throws_bad_alloc c m \/ returns c m x.
Proof. intros H -> m. exact (H m). Qed.

(* --- whatever the allocator does: the right answer or std::bad_alloc, nothing else ---------------------- *)
Theorem C72_split {Mem} (alloc : request -> Mem -> option Mem) sg fuel s o : split sg fuel s = Ok o ->
  forall m, throws_bad_alloc (split_m alloc sg fuel s) m \/ returns (split_m alloc sg fuel s) m o.
Proof. apply same_or, same_split. Qed.
Print Assumptions C72_split.
Theorem C72_split_reference {Mem} (alloc : request -> Mem -> option Mem) sg fuel s o : split_reference sg fuel s = Ok o ->
  forall m, throws_bad_alloc (split_reference_m alloc sg fuel s) m \/ returns (split_reference_m alloc sg fuel s) m o.
Proof. apply same_or, same_split_reference. Qed.
Print Assumptions C72_split_reference.
Theorem C72_join {Mem} (alloc : request -> Mem -> option Mem) sg fuel base ref strict o : join sg fuel base ref strict = Ok o ->
  forall m, throws_bad_alloc (join_m alloc sg fuel base ref strict) m \/ returns (join_m alloc sg fuel base ref strict) m o.
Proof. apply same_or, same_join_m. Qed.
Print Assumptions C72_join.
(* in particular an answer, when there is one, never depends on the memory *)
Theorem C72_same_answer {Mem1 Mem2} (a1 : request -> Mem1 -> option Mem1) (a2 : request -> Mem2 -> option Mem2) sg fuel s m1 m2 o1 o2 :
  returns (split_m a1 sg fuel s) m1 o1 -> returns (split_m a2 sg fuel s) m2 o2 -> o1 = o2.
Proof.
  intros [x1 H1] [x2 H2].
  destruct (same_split a1 sg fuel s m1) as [E1|E1]; [congruence|]. destruct (same_split a2 sg fuel s m2) as [E2|E2]; [congruence|].
  destruct (split sg fuel s) as [o| |]; [|congruence|congruence]. destruct E1 as [y1 E1], E2 as [y2 E2]. congruence.
Qed.
Print Assumptions C72_same_answer.

(* --- valid () is noexcept, and honestly so: it asks for no memory, so that it gives its answer when there is none --- *)
Theorem C72_valid {Mem} (alloc : request -> Mem -> option Mem) sg fuel p b : (forall m, alloc (Accs 0) m = Some m) ->
  parts_valid sg fuel p = Ok b -> forall m, parts_valid_m alloc sg fuel p m = Ok (Some (b, m)).
Proof. intros H E m. rewrite (quiet_valid alloc H sg fuel p m). unfold lift. now rewrite E. Qed.
Print Assumptions C72_valid.

(* --- enough memory: how much is enough ------------------------------------------------------------------- *)
(* an allocator that refuses no vector of B elements or fewer *)
Definition grants {Mem} (alloc : request -> Mem -> option Mem) (B : nat) : Prop :=
  forall k m, k <= B -> alloc (Accs k) m <> None /\ alloc (Segs k) m <> None.
Lemma grants_accs {Mem} (alloc : request -> Mem -> option Mem) B : grants alloc B -> forall k m, (N.of_nat k <= N.of_nat B)%N -> alloc (Accs k) m <> None.
Proof. intros H k m L. apply H. lia. Qed.
Lemma grants_segs {Mem} (alloc : request -> Mem -> option Mem) B : grants alloc B -> forall k m, (N.of_nat k <= N.of_nat B)%N -> alloc (Segs k) m <> None.
Proof. intros H k m L. apply H. lia. Qed.
Theorem C72_split_enough {Mem} (alloc : request -> Mem -> option Mem) sg fuel s o : grants alloc (31 * length s + 74) -> split sg fuel s = Ok o ->
  forall m, returns (split_m alloc sg fuel s) m o.
Proof.
  intros G E. apply split_both in E as [w E]. pose proof (uri_within sg fuel s o w E) as (_ & _ & C & U). cbn [fst snd] in C, U.
  apply (size_parse alloc (N.of_nat (31 * length s + 74)) (grants_accs _ _ G) (grants_segs _ _ G) sg fuel Uri s o w E); lia.
Qed.
Print Assumptions C72_split_enough.
Theorem C72_split_reference_enough {Mem} (alloc : request -> Mem -> option Mem) sg fuel s o : grants alloc (35 * length s + 86) -> split_reference sg fuel s = Ok o ->
  forall m, returns (split_reference_m alloc sg fuel s) m o.
Proof.
  intros G E. apply split_reference_both in E as [w E]. pose proof (uri_reference_within sg fuel s o w E) as (_ & _ & C & U). cbn [fst snd] in C, U.
  apply (size_parse alloc (N.of_nat (35 * length s + 86)) (grants_accs _ _ G) (grants_segs _ _ G) sg fuel Uri_reference s o w E); lia.
Qed.
Print Assumptions C72_split_reference_enough.
Theorem C72_join_enough {Mem} (alloc : request -> Mem -> option Mem) sg fuel base ref strict o :
  grants alloc (31 * length base + 35 * length ref + 86) -> fits fuel base -> fits fuel ref -> join sg fuel base ref strict = Ok o ->
  forall m, returns (join_m alloc sg fuel base ref strict) m o.
Proof.
  intros G Fb Fr E. destruct (split_terminates sg fuel base Fb) as [[b Sb]|[_ Sb]]; [|unfold join in E; rewrite Sb in E; discriminate].
  destruct b as [bp|].
  - destruct (split_reference_terminates sg fuel ref Fr) as [[r Sr]|[_ Sr]]; [|unfold join in E; rewrite Sb in E; cbn [bind] in E; rewrite Sr in E; discriminate].
    pose proof Sb as [bw Wb]%split_both. pose proof Sr as [rw Wr]%split_reference_both.
    pose proof (uri_within sg fuel base _ bw Wb) as (_ & _ & C1 & U1). pose proof (uri_reference_within sg fuel ref _ rw Wr) as (_ & _ & C2 & U2). cbn [fst snd] in *.
    apply (size_join alloc (N.of_nat (31 * length base + 35 * length ref + 86)) (grants_accs _ _ G) (grants_segs _ _ G) sg fuel base ref strict o bw rw _ _ Wb Wr); [lia|lia|lia|exact E].
  - intros m. unfold join in E. rewrite Sb in E. cbn [bind] in E. injection E as <-.
    destruct (C72_split_enough alloc sg fuel base None) with (m := m) as [m' E]; [intros k; intros; apply G; lia|exact Sb|].
    exists m'. unfold join_m, seqm. rewrite E. reflexivity.
Qed.
Print Assumptions C72_join_enough.

(* --- the segments alone: with memory for everything else and room for B segments, what has B segments or fewer is
   returned and what has more is std::bad_alloc; what is no URI needs no room at all ----------------------- *)
Definition room_for_segments {Mem} (alloc : request -> Mem -> option Mem) (B : nat) : Prop :=
  forall k m, alloc (Accs k) m <> None /\ (0 < k -> (alloc (Segs k) m <> None <-> k <= B)).
Theorem C72_split_segments {Mem} (alloc : request -> Mem -> option Mem) B sg fuel s p : room_for_segments alloc B -> split sg fuel s = Ok (Some p) ->
  forall m, if length (segments (p_path p)) <=? B then returns (split_m alloc sg fuel s) m (Some p) else throws_bad_alloc (split_m alloc sg fuel s) m.
Proof.
  intros G E m. apply split_both in E as [w E].
  pose proof (limited_parse alloc (fun k m => proj1 (G k m)) B (fun k m => proj2 (G k m)) sg fuel Uri s p w E) as H.
  destruct (_ <=? B); [exact (H m)|exact (H m)].
Qed.
Print Assumptions C72_split_segments.
Theorem C72_split_reference_segments {Mem} (alloc : request -> Mem -> option Mem) B sg fuel s p : room_for_segments alloc B -> split_reference sg fuel s = Ok (Some p) ->
  forall m, if length (segments (p_path p)) <=? B then returns (split_reference_m alloc sg fuel s) m (Some p) else throws_bad_alloc (split_reference_m alloc sg fuel s) m.
Proof.
  intros G E m. apply split_reference_both in E as [w E].
  pose proof (limited_parse alloc (fun k m => proj1 (G k m)) B (fun k m => proj2 (G k m)) sg fuel Uri_reference s p w E) as H.
  destruct (_ <=? B); [exact (H m)|exact (H m)].
Qed.
Print Assumptions C72_split_reference_segments.
Theorem C72_rejected_segments {Mem} (alloc : request -> Mem -> option Mem) sg fuel s : (forall k m, alloc (Accs k) m <> None) ->
  (split sg fuel s = Ok None -> forall m, returns (split_m alloc sg fuel s) m None)
  /\ (split_reference sg fuel s = Ok None -> forall m, returns (split_reference_m alloc sg fuel s) m None).
Proof.
  intros G. split; intros E; [apply split_both in E as [w E]|apply split_reference_both in E as [w E]]; exact (full_parse alloc G sg fuel _ s w E).
Qed.
Print Assumptions C72_rejected_segments.
Example C72_ex_segments : let two k (m : unit) := match k with Accs _ => Some m | Segs n => if n <=? 2 then Some m else None end in
  room_for_segments two 2 /\ returns (split_m two true 100 (ss "http://h/a/b?q")) tt (Some (mkparts (Some (ss "http")) (Some (mkauth None (ss "h") None)) (mkpath true [ss "a"; ss "b"]) (Some (ss "q")) None))
  /\ throws_bad_alloc (split_m two true 100 (ss "http://h/a/b/?q")) tt /\ throws_bad_alloc (split_m two true 100 (ss "x:a/b/c")) tt.
Proof.
  cbv zeta. split; [|split; [exists tt; vm_compute; reflexivity|split; vm_compute; reflexivity]].
  intros k m. split; [discriminate|]. intros _. destruct (Nat.leb_spec k 2); split; intros; try assumption; try discriminate; try congruence; lia.
Qed.

(* --- remove_dot_segments () works in the vector it is given ------------------------------------------------ *)
Theorem C72_remove_dot_segments p : length (segments (remove_dot_segments p)) <= length (segments p).
Proof. exact (rds_length (segments p)). Qed.
Print Assumptions C72_remove_dot_segments.
Theorem C72_remove_dot_segments_no_memory {Mem} (alloc : request -> Mem -> option Mem) p : (forall m, alloc (Segs 0) m = Some m) ->
  forall m, remove_dot_segments_m alloc p m = Ok (Some (remove_dot_segments p, m)).
Proof.
  intros H m. unfold remove_dot_segments_m, seqm, need. cbn [remove_dot_segments segments].
  rewrite (proj2 (Nat.leb_le _ _) (rds_length (segments p))), H. reflexivity.
Qed.
Print Assumptions C72_remove_dot_segments_no_memory.

(* --- concrete allocators --------------------------------------------------------------------------------------- *)
Definition size (k : request) : nat := match k with Accs n => n | Segs n => n end.
(* nothing but empty vectors *)
Definition none_left (k : request) (m : unit) : option unit := match size k with O => Some m | _ => None end.
(* vectors of at most B elements *)
Definition at_most (B : nat) (k : request) (m : unit) : option unit := if Nat.leb (size k) B then Some m else None.
(* m more vectors *)
Definition count_down (k : request) (m : nat) : option nat := match size k with O => Some m | _ => match m with O => None | S m => Some m end end.
Example C72_ex_bad_alloc : throws_bad_alloc (split_m none_left true 100 (ss "http://h/p?q")) tt
  /\ throws_bad_alloc (split_m count_down true 100 (ss "http://h/p?q")) 10.
Proof. split; vm_compute; reflexivity. Qed.
(* rejected before any memory is asked for *)
Example C72_ex_rejected : returns (split_m none_left true 100 (ss "1:")) tt None.
Proof. exists tt. vm_compute. reflexivity. Qed.
Example C72_ex_right : exists p m, split_m count_down true 100 (ss "http://h/p?q") 100 = Ok (Some (Some p, m)) /\ p_query p = Some (ss "q") /\ m < 100.
Proof. do 2 eexists. split; [vm_compute; reflexivity|]. split; [reflexivity|lia]. Qed.
Example C72_ex_at_most : returns (split_m (at_most 6) true 100 (ss "a:b/c")) tt (Some (mkparts (Some (ss "a")) None (mkpath false [ss "b"; ss "c"]) None None))
  /\ throws_bad_alloc (split_m (at_most 3) true 100 (ss "a:b/c")) tt.
Proof. split; [exists tt|]; vm_compute; reflexivity. Qed.
Example C72_ex_grants : grants (at_most 200) 200.
Proof. intros k m H. unfold at_most, size. rewrite (proj2 (Nat.leb_le _ _) H). split; discriminate. Qed.
Example C72_ex_valid : parts_valid_m none_left true 100 (mkparts (Some (ss "http")) (Some (mkauth None (ss "h") (Some (ss "80")))) (mkpath true [ss "a"]) None None) tt = Ok (Some (true, tt)).
Proof. vm_compute. reflexivity. Qed.
Example C72_ex_join : throws_bad_alloc (join_m none_left true 100 (ss "http://h/p") (ss "../g") true) tt
  /\ exists p, returns (join_m (at_most 200) true 100 (ss "http://h/p") (ss "../g") true) tt (Some p).
Proof. split; [vm_compute; reflexivity|]. eexists. exists tt. vm_compute. reflexivity. Qed.
