(* PROPERTY THEOREMS: results of join written, read and resolved again (C48); == is a congruence (C49).
   Vocabulary: SpecResolve.v, SpecPath.v, SpecUri.v, SpecParts.v, Rfc3986.v. *)
From Verif Require Import Base ModelUri ResolveFacts Rfc3986 SpecHost SpecParts SpecUri SpecPath SpecResolve.

(* --- C48 ---------------------------------------------------------------------------------------- *)
(* the text of a result is at most one byte longer than its two sources together, so the one hypothesis on
   sizes below is about the inputs *)
Theorem C48_length sg fuel base ref strict t : fits fuel base -> fits fuel ref ->
  join sg fuel base ref strict = Ok (Some t) -> (length (compose t) <= length base + length ref + 1)%nat.
Proof. intros H1 H2 H3. rewrite Nat.add_1_r. exact (join_strings_len sg fuel base ref strict t H1 H2 H3). Qed.
Print Assumptions C48_length.
Example C48_length_ex : exists t, join true 100 (ss "a://h") (ss "b") true = Ok (Some t) /\ compose t = ss "a://h/b".
Proof. eexists. split; vm_compute; reflexivity. Qed.

(* exactly when the composed result reads back as the result: always with an authority; without one, when the
   resolved path has a text form of its own *)
Theorem C48_reads_back sg fuel base ref strict t cb cr : fits fuel (base ++ ss "/" ++ ref) ->
  join sg fuel base ref strict = Ok (Some t) -> URI_decomp base cb -> reference_decomp ref cr ->
  ((exists t', split sg fuel (compose t) = Ok (Some t') /\ parts_eqb t' t = true)
   <-> p_authority t <> None
       \/ forall abs segs k, resolved_path strict cb cr abs segs -> resolves segs k -> text_form abs segs k).
Proof. exact (reads_back_exact sg fuel base ref strict t cb cr). Qed.
Print Assumptions C48_reads_back.

(* ... in particular for absolute paths without an empty segment before the last one; a relative path must
   leave a first segment with something in it *)
Theorem C48_reads_back_inputs sg fuel base ref strict t cb cr : fits fuel (base ++ ss "/" ++ ref) ->
  join sg fuel base ref strict = Ok (Some t) -> URI_decomp base cb -> reference_decomp ref cr ->
  ~ inner_empty (c_segments cb) -> ~ inner_empty (c_segments cr) -> c_segments cb <> [[]] ->
  (forall segs k, resolved_path strict cb cr false segs -> segs <> [] -> resolves segs k ->
     exists c x rest, k = (c :: x) :: rest) ->
  exists t', split sg fuel (compose t) = Ok (Some t') /\ parts_eqb t' t = true.
Proof. exact (reads_back_inputs sg fuel base ref strict t cb cr). Qed.
Print Assumptions C48_reads_back_inputs.

(* a result is resolved: against any base it gives itself again *)
Theorem C48_again sg fuel base ref strict t base2 b2 strict2 : fits fuel (base ++ ss "/" ++ ref) ->
  join sg fuel base ref strict = Ok (Some t) ->
  (exists t', split sg fuel (compose t) = Ok (Some t') /\ parts_eqb t' t = true) ->
  Forall (fun s => ~ is_dots s) (segments (p_path t)) ->
  split sg fuel base2 = Ok (Some b2) ->
  strict2 = true \/ p_authority t <> None \/ p_scheme t <> p_scheme b2 ->
  exists t', join sg fuel base2 (compose t) strict2 = Ok (Some t') /\ parts_eqb t' t = true.
Proof. intros F E R. exact (again sg fuel base ref strict t base2 b2 strict2 F E (proj2 (reads_back sg fuel base ref strict t F E) R)). Qed.
Print Assumptions C48_again.
Example C48_ex : let base := ss "http://h/a/b" in let ref := ss "../c#x" in
  fits 100 (base ++ ss "/" ++ ref)
  /\ exists t, join true 100 base ref true = Ok (Some t) /\ compose t = ss "http://h/c#x" /\ p_authority t <> None
       /\ Forall (fun s => ~ is_dots s) (segments (p_path t))
       /\ exists t', join true 100 (ss "other:/z") (compose t) true = Ok (Some t') /\ compose t' = ss "http://h/c#x".
Proof.
  cbn zeta. split; [split; vm_compute; [reflexivity|repeat constructor]|].
  eexists. split; [vm_compute; reflexivity|]. split; [vm_compute; reflexivity|]. split; [discriminate|]. split.
  - cbn [p_path segments]. constructor; [intros [H|H]; discriminate H|constructor].
  - eexists. split; vm_compute; reflexivity.
Qed.
(* without an authority: an absolute path and a relative one *)
Example C48_ex_none : exists t u, join true 100 (ss "file:/a/b") (ss "../../c//") true = Ok (Some t)
  /\ join true 100 (ss "x:a/b/c") (ss "../d") true = Ok (Some u)
  /\ compose t = ss "file:/c//" /\ compose u = ss "x:a/d" /\ p_authority t = None /\ p_authority u = None
  /\ (exists t', split true 100 (compose t) = Ok (Some t') /\ parts_eqb t' t = true)
  /\ (exists u', split true 100 (compose u) = Ok (Some u') /\ parts_eqb u' u = true).
Proof.
  do 2 eexists. split; [vm_compute; reflexivity|]. split; [vm_compute; reflexivity|].
  split; [vm_compute; reflexivity|]. split; [vm_compute; reflexivity|]. split; [reflexivity|]. split; [reflexivity|].
  split; eexists; (split; [vm_compute; reflexivity|vm_compute; reflexivity]).
Qed.
(* the hypotheses of C48_reads_back_inputs, met *)
Example C48_inputs_ex : let base := ss "file:/a/b" in let ref := ss "../c/" in exists t cb cr,
  fits 100 (base ++ ss "/" ++ ref) /\ join true 100 base ref true = Ok (Some t) /\ URI_decomp base cb /\ reference_decomp ref cr
  /\ ~ inner_empty (c_segments cb) /\ ~ inner_empty (c_segments cr) /\ c_segments cb <> [[]]
  /\ (forall segs k, resolved_path true cb cr false segs -> segs <> [] -> resolves segs k -> exists c x rest, k = (c :: x) :: rest)
  /\ compose t = ss "file:/c/".
Proof.
  cbn zeta. eexists. exists (mkcomponents (Some (ss "file")) None true [ss "a"; ss "b"] None None), (mkcomponents None None false [ss ".."; ss "c"; []] None None).
  split; [split; vm_compute; [reflexivity|repeat constructor]|]. split; [vm_compute; reflexivity|].
  split. { apply (proj1 (UriSplit.split_iff true 100 (ss "file:/a/b") (mkparts (Some (ss "file")) None (mkpath true [ss "a"; ss "b"]) None None)
             ltac:(split; vm_compute; [reflexivity|repeat constructor]))). vm_compute. reflexivity. }
  split. { apply (proj1 (UriSplit.split_reference_iff true 100 (ss "../c/") (mkparts None None (mkpath false [ss ".."; ss "c"; []]) None None)
             ltac:(split; vm_compute; [reflexivity|repeat constructor]))). vm_compute. reflexivity. }
  split. { intros ([|p0 [|p1 [|p2 pre]]] & y & post & E); discriminate E. }
  split. { intros ([|p0 [|p1 [|p2 [|p3 pre]]]] & y & post & E); discriminate E. }
  split; [discriminate|]. split; [|vm_compute; reflexivity].
  intros segs k H. exfalso. inversion H as [Hm E1 E2|x Hm Hx E1 E2|Hm Hx E1 E2]; try discriminate.
  apply Hm. split; [left; reflexivity|]. split; [reflexivity|]. split; [reflexivity|discriminate].
Qed.
(* Otherwise the text can gain an authority that neither input has, or lose its path:
   "a:/x" and "/.//evil/y" give "a://evil/y", whose host is "evil"; "file:/" and "etc/passwd" give
   "file://etc/passwd", whose host is "etc"; "x:a/b" and "../.." give "x:". *)
Theorem C48_refuted :
  (exists b r t u a, split true 100 (ss "a:/x") = Ok (Some b) /\ p_authority b = None
     /\ split_reference true 100 (ss "/.//evil/y") = Ok (Some r) /\ p_authority r = None
     /\ join true 100 (ss "a:/x") (ss "/.//evil/y") true = Ok (Some t) /\ p_authority t = None
     /\ compose t = ss "a://evil/y"
     /\ split true 100 (compose t) = Ok (Some u) /\ p_authority u = Some a /\ ModelUri.host a = ss "evil")
  /\ (exists b r t u a, split true 100 (ss "file:/") = Ok (Some b) /\ p_authority b = None
     /\ split_reference true 100 (ss "etc/passwd") = Ok (Some r) /\ p_authority r = None
     /\ join true 100 (ss "file:/") (ss "etc/passwd") true = Ok (Some t) /\ p_authority t = None
     /\ compose t = ss "file://etc/passwd"
     /\ split true 100 (compose t) = Ok (Some u) /\ p_authority u = Some a /\ ModelUri.host a = ss "etc")
  /\ (exists t u, join true 100 (ss "x:a/b") (ss "../..") true = Ok (Some t) /\ segments (p_path t) = [[]]
     /\ compose t = ss "x:" /\ split true 100 (compose t) = Ok (Some u) /\ parts_eqb u t = false).
Proof.
  split; [|split].
  - do 5 eexists. split; [vm_compute; reflexivity|]. split; [reflexivity|]. split; [vm_compute; reflexivity|]. split; [reflexivity|].
    split; [vm_compute; reflexivity|]. split; [reflexivity|]. split; [vm_compute; reflexivity|]. split; [vm_compute; reflexivity|].
    split; vm_compute; reflexivity.
  - do 5 eexists. split; [vm_compute; reflexivity|]. split; [reflexivity|]. split; [vm_compute; reflexivity|]. split; [reflexivity|].
    split; [vm_compute; reflexivity|]. split; [reflexivity|]. split; [vm_compute; reflexivity|]. split; [vm_compute; reflexivity|].
    split; vm_compute; reflexivity.
  - do 2 eexists. split; [vm_compute; reflexivity|]. split; [reflexivity|]. split; [vm_compute; reflexivity|]. split; vm_compute; reflexivity.
Qed.
Print Assumptions C48_refuted.

(* --- C49 ---------------------------------------------------------------------------------------- *)
(* parts that compare equal may differ in memory (with an authority the "absolute" mark is ignored); no
   operation tells them apart *)
Theorem C49_join b b' r r' strict : parts_eqb b b' = true -> parts_eqb r r' = true ->
  parts_eqb (join_parts b r strict) (join_parts b' r' strict) = true
  /\ compose (join_parts b r strict) = compose (join_parts b' r' strict).
Proof. intros H1 H2. pose proof (join_congruence b b' r r' strict H1 H2) as H. split; [exact H|exact (PropSplitFacts.eqb_composes _ _ H)]. Qed.
Print Assumptions C49_join.
Theorem C49_valid sg fuel p q : parts_eqb p q = true -> parts_valid sg fuel p = parts_valid sg fuel q.
Proof. exact (valid_congruence sg fuel p q). Qed.
Print Assumptions C49_valid.
Example C49_ex : let a := Some (mkauth None (ss "h") None) in
  let b := mkparts (Some (ss "s")) a (mkpath true [ss "x"; ss "y"]) None None in
  let b' := mkparts (Some (ss "s")) a (mkpath false [ss "x"; ss "y"]) None None in
  let r := mkparts None None (mkpath false [ss "z"]) None None in
  parts_eqb b b' = true /\ b <> b' /\ join_parts b r true <> join_parts b' r true
  /\ compose (join_parts b r true) = ss "s://h/x/z".
Proof. cbn zeta. split; [vm_compute; reflexivity|]. split; [discriminate|]. split; [vm_compute; discriminate|]. vm_compute. reflexivity. Qed.
