(* The project's remaining unit tests (test_rule.cpp, test_find_last.cpp, test_starts_with.cpp, test_pctencode.cpp, test_parts.cpp), evaluated in
   the model; the others are in TestRepo.v.  They show that the model agrees with the code on what the project's authors checked; they are tests, not properties, and no theorem rests on them. *)
From Verif Require Import Base ModelUri ModelRule ModelAlgo ModelPct ModelParts.
From Verif Require ModelPuny ModelIcu.
Local Open Scope list_scope.

(* --- test_rule.cpp ----------------------------------------------------------------------------------------- *)
(* remember () (false), and the acceptor that writes "post " before the text (true) *)
Definition act (post : bool) (s : str) (output : list str) : outcome (list str) := Ok (output ++ [if post then ss "post " ++ s else s]).
Definition result (r : outcome (rule bool)) : outcome (bool * list str) := do x <- r; done act x [].
Section RuleTests.
Variable sg : bool.
Definition sc (c : ascii) : matcher bool := single_char sg c.
(* rule.star (f): any number of times *)
Definition star' (f : matcher bool) : rule bool -> outcome (rule bool) := star 200 f 0 uint_max.
Definition keep (c : ascii) : matcher bool := fun r => do x <- concat_a (sc c) false r; matched r x.
End RuleTests.
Ltac run_sg := intros []; vm_compute; repeat split; discriminate.
Ltac run := vm_compute; repeat split; discriminate.
(* test_rule.cpp:35 *)
Example Rule_Concat : forall sg : bool, result (do r <- concat_a (sc sg "a") false (rule_of (ss "ab")); concat_a (sc sg "b") false r) = Ok (true, [ss "a"; ss "b"]).
Proof. run_sg. Qed.
(* test_rule.cpp:46 *)
Example Rule_ConcatAcceptorOrder : forall sg : bool,
  result (concat_a (fun r => do x <- concat_a (sc sg "a") false r; do y <- concat_a (sc sg "b") false x; matched r y) true (rule_of (ss "ab"))) = Ok (true, [ss "a"; ss "b"; ss "post ab"]).
Proof. run_sg. Qed.
(* test_rule.cpp:66, 83, 100 *)
Definition ab_or_ac (sg : bool) (s : string) := result (do r <- concat_a (sc sg "a") false (rule_of (ss s)); alternative [keep sg "b"; keep sg "c"] r).
Example Rule_Alternative : forall sg : bool, ab_or_ac sg "ab" = Ok (true, [ss "a"; ss "b"]) /\ ab_or_ac sg "ac" = Ok (true, [ss "a"; ss "c"]) /\ ab_or_ac sg "ad" = Ok (false, []).
Proof. run_sg. Qed.
(* test_rule.cpp:117, 129, 142 *)
Example Rule_Star : forall sg : bool, result (star' (keep sg "a") (rule_of (ss "aaa"))) = Ok (true, [ss "a"; ss "a"; ss "a"])
  /\ result (do r <- star' (keep sg "a") (rule_of (ss "aaab")); concat_a (sc sg "b") false r) = Ok (true, [ss "a"; ss "a"; ss "a"; ss "b"]).
Proof. run_sg. Qed.
Example Rule_Star2 : forall sg : bool,
  result (star' (fun r1 => do x <- concat_a (sc sg "/") false r1;
                           do y <- concat_a (fun r2 => do z <- star' (char_range sg "a" "z") r2; matched r2 z) false x; matched r1 y) (rule_of (ss "/"))) = Ok (true, [ss "/"; []]).
Proof. run_sg. Qed.
(* test_rule.cpp:160, 170 *)
Definition a_opt_b_c (sg : bool) (s : string) :=
  result (do r <- concat_a (sc sg "a") false (rule_of (ss s)); do x <- optional_a (sc sg "b") false r; concat_a (sc sg "c") false x).
Example Rule_Optional : forall sg : bool, a_opt_b_c sg "abc" = Ok (true, [ss "a"; ss "b"; ss "c"]) /\ a_opt_b_c sg "ac" = Ok (true, [ss "a"; ss "c"]).
Proof. run_sg. Qed.

(* --- test_find_last.cpp ------------------------------------------------------------------------------------ *)
(* both algorithms; the result is the subrange as a pair of positions *)
Definition finds {A} (f : A -> bool) (l : list A) (r : nat * nat) : Prop := find_last_forward f l = r /\ find_last_bidi f l = Ok r.
(* test_find_last.cpp:23, 30 *)
Example FindLast_A_B : finds (Nat.eqb 3) [1; 2; 3; 1; 2; 3; 1; 2] (5, 8).
Proof. run. Qed.
(* test_find_last.cpp:37, 46, 54, 62, 70 *)
Example FindLast_Rest : finds (Ascii.eqb "a") [] (0, 0) /\ finds (Ascii.eqb "a") (ss "ab") (0, 2) /\ finds (Ascii.eqb "b") (ss "aba") (1, 3) /\ finds (Ascii.eqb "a") (ss "aba") (2, 3)
  /\ finds (Nat.eqb 7) (filter (Nat.leb 5) [1; 3; 5; 7; 7; 11]) (2, 4).
Proof. run. Qed.
(* test_find_last.cpp:107-149 *)
Definition values : list nat := [1; 2; 1; 2; 1; 2; 1; 2].
Example FindLastInt_all : finds (Nat.eqb 0) values (8, 8) /\ finds (Nat.eqb 1) values (6, 8) /\ finds (Nat.eqb 2) values (7, 8)
  /\ finds (fun v => Nat.eqb 3 (v + 3)) values (8, 8) /\ finds (fun v => Nat.eqb 4 (v + 3)) values (6, 8) /\ finds (fun v => Nat.eqb 5 (v + 3)) values (7, 8).
Proof. run. Qed.

(* --- test_starts_with.cpp ---------------------------------------------------------------------------------- *)
Definition ascii_upper (c : ascii) : ascii := if (97 <=? code c)%N && (code c <=? 122)%N then chr (code c - 32) else c.
(* test_starts_with.cpp:29-31, 34, 39, 47 *)
Example StartsWith_all : starts_with Ascii.eqb (ss "const_cast") (ss "const") = true /\ starts_with Ascii.eqb (ss "constexpr") (ss "const") = true
  /\ starts_with Ascii.eqb (ss "volatile") (ss "const") = false
  /\ starts_with (fun x y => Ascii.eqb (ascii_upper x) (ascii_upper y)) (ss "Constantinopolis") (ss "constant") = true
  /\ starts_with (fun x y => Ascii.eqb (ascii_upper x) (ascii_upper y)) (ss "Istanbul") (ss "constant") = false
  /\ starts_with (fun x y => Ascii.eqb (ascii_upper x) (ascii_upper y)) (ss "Metropolis") (ss "metro") = true
  /\ starts_with (fun x y => Ascii.eqb (ascii_upper x) (ascii_upper y)) (ss "Acropolis") (ss "metro") = false
  /\ starts_with Nat.eqb [1; 3; 5; 7; 9] [1; 3; 5] = true.
Proof. run. Qed.

(* --- test_pctencode.cpp ------------------------------------------------------------------------------------ *)
(* test_pctencode.cpp:31, 40 *)
Example PctEncode_Hello_Percent : pctencode (ss "Hello") es_component = Ok (ss "Hello") /\ pctencode (ss "H%llo") es_component = Ok (ss "H%25llo").
Proof. run. Qed.
(* test_pctencode.cpp:49-124  the lambdas *)
Definition one_of (c : N) (l : list N) : bool := existsb (N.eqb c) l.
Definition is_c0 (c : N) : bool := (c =? 37)%N || (c <? 0x20)%N || (0x7E <? c)%N.
Definition is_fragment (c : N) : bool := is_c0 c || one_of c [0x20; 0x22; 0x3C; 0x3E]%N.
Definition is_query (c : N) : bool := is_c0 c || one_of c [0x20; 0x22; 0x23; 0x3C; 0x3E]%N.
Definition is_special_query (c : N) : bool := is_query c || one_of c [0x27]%N.
Definition is_path (c : N) : bool := is_query c || one_of c [0x3F; 0x60; 0x7B; 0x7D]%N.
Definition is_userinfo (c : N) : bool := is_path c || one_of c [0x2F; 0x3A; 0x3B; 0x3D; 0x40; 0x5B; 0x5C; 0x5D; 0x5E; 0x7C]%N.
Definition is_component (c : N) : bool := is_userinfo c || one_of c [0x24; 0x25; 0x26; 0x2B; 0x2C]%N.
Definition is_form_urlencoded (c : N) : bool := is_component c || one_of c [0x21; 0x27; 0x28; 0x29; 0x7E]%N.
(* (the test leaves out 0xFF: its vector has 255 elements) *)
Definition agree (es : N) (f : N -> bool) : Prop := map (fun n => needs_byte (N.of_nat n) es) (seq 0 256) = map (fun n => Ok (f (N.of_nat n))) (seq 0 256).
Example PctEncode_Exhaustive : agree es_fragment is_fragment /\ agree es_query is_query /\ agree es_special_query is_special_query /\ agree es_path is_path
  /\ agree es_userinfo is_userinfo /\ agree es_component is_component /\ agree es_form_urlencoded is_form_urlencoded.
Proof. run. Qed.

(* --- test_parts.cpp ---------------------------------------------------------------------------------------- *)
(* views owned by the caller; and the texts that views show *)
Definition views (p : parts) : vparts := mkvparts (option_map Caller (p_scheme p))
  (option_map (fun a => mkvauth (option_map Caller (ModelUri.userinfo a)) (Caller (ModelUri.host a)) (option_map Caller (ModelUri.port a))) (p_authority p))
  (absolute (p_path p)) (map Caller (segments (p_path p))) (option_map Caller (p_query p)) (option_map Caller (p_fragment p)).
Definition opt {X Y} (f : X -> outcome Y) (o : option X) : outcome (option Y) := match o with None => Ok None | Some x => do y <- f x; Ok (Some y) end.
Fixpoint each {X Y} (f : X -> outcome Y) (l : list X) : outcome (list Y) := match l with [] => Ok [] | x :: l => do y <- f x; do k <- each f l; Ok (y :: k) end.
Definition texts (st : vec) (p : vparts) : outcome parts :=
  do s <- opt (read st) (v_scheme p);
  do a <- opt (fun a => do u <- opt (read st) (v_userinfo a); do h <- read st (v_host a); do po <- opt (read st) (v_port a); Ok (mkauth u h po)) (v_authority p);
  do g <- each (read st) (v_segments p); do q <- opt (read st) (v_query p); do f <- opt (read st) (v_fragment p);
  Ok (mkparts s a (mkpath (v_absolute p) g) q f).
Definition empty_store : vec := Vec 0 0 [].
Definition grow (n : nat) : nat := n.
Definition encoded (p : parts) : outcome (parts * nat) := do x <- parts_encode grow empty_store (views p); let '(st, q) := x in do t <- texts st q; Ok (t, length (vc_data st)).
Definition decoded (p : parts) : outcome (parts + ModelPuny.derr) :=
  do x <- parts_decode grow empty_store (views p); let '(st, r) := x in match r with inl q => do t <- texts st q; Ok (inl t) | inr e => Ok (inr e) end.
(* test_parts.cpp:292-322, for the tests that give it valid parts and a host without xn-- (the others return at once) *)
Definition round_trip (sg : bool) (original : parts) : Prop :=
  parts_valid sg 400 original = Ok true ->
  match encoded original with Ok (e, _) => parts_valid sg 400 e = Ok true /\ decoded e = Ok (inl original) | _ => False end.
Definition muenchen : list N := [0x4D; 0xFC; 0x6E; 0x63; 0x68; 0x65; 0x6E]%N.

(* test_parts.cpp:26, 33, 41 *)
Example Parts_PunyPlain : puny_encoded_size [0x61; 0x2E; 0x62]%N = Ok 0 /\ puny_decoded_size (ss "a.b") = Ok (inl 0)
  /\ puny_encoded (map code (ss "aaa.bbb.ccc")) = Ok (ss "aaa.bbb.ccc", false).
Proof. run. Qed.
(* test_parts.cpp:50, 69, 82 *)
Example Parts_PunyEncoded : puny_encoded (muenchen ++ [0x2E; 0x64; 0x65]%N) = Ok (ss "xn--Mnchen-3ya.de", true)
  /\ puny_encoded (muenchen ++ [0x2E; 0x3C0]%N) = Ok (ss "xn--Mnchen-3ya.xn--1xa", true) /\ puny_encoded_size (muenchen ++ [0x2E; 0x64; 0x65]%N) = Ok 17.
Proof. run. Qed.
(* test_parts.cpp:89 *)
Example Parts_PunyEncodedMunchenGrinningFace : match to_utf8 (muenchen ++ [0x2E; 0x1F600]%N) with
  | Ok h => match encoded (mkparts None (Some (mkauth None h None)) (mkpath false []) None None) with
            | Ok (e, _) => option_map ModelUri.host (p_authority e) = Some (ss "xn--Mnchen-3ya.xn--e28h") | _ => False end
  | _ => False end.
Proof. run. Qed.
(* test_parts.cpp:107, 128 *)
Example Parts_PunyDecoded : puny_decoded (ss "aaa.bbb.ccc") = Ok (ss "aaa.bbb.ccc", inl false)
  /\ puny_decoded (ss "xn--Mnchen-3ya.de") = Ok (["M"%char; chr 0xC3; chr 0xBC] ++ ss "nchen.de", inl true).
Proof. run. Qed.
(* test_parts.cpp:149 *)
Example Parts_AllSetButNothingToEncode : forall sg : bool,
  let input := mkparts (Some (ss "https")) (Some (mkauth (Some (ss "user")) (ss "host") (Some (ss "1234")))) (mkpath true [ss "a"; ss "b"]) (Some (ss "query")) (Some (ss "fragment")) in
  parts_valid sg 200 input = Ok true /\ encoded input = Ok (input, 0).
Proof. run_sg. Qed.
(* test_parts.cpp:182 *)
Example Parts_EncodeDecode : forall sg : bool,
  let original := mkparts (Some (ss "https")) (Some (mkauth (Some (ss "user")) (["M"%char; chr 0xC3; chr 0xBC] ++ ss "nchen.de") (Some (ss "1234"))))
    (mkpath true [["~"%char; chr 0xC2; chr 0xA1]]) (Some (ss "a%b")) (Some (ss "c%d")) in
  match encoded original with Ok (e, _) => parts_valid sg 200 e = Ok true /\ decoded e = Ok (inl original) | _ => False end.
Proof. run_sg. Qed.
(* test_parts.cpp:216 *)
Example Parts_EncodeDecodePunycodeTLD : forall sg : bool, match to_utf8 [0x451; 0x436; 0x438; 0x43A; 0x2E; 0x440; 0x444]%N with
  | Ok h => let original := mkparts (Some (ss "http")) (Some (mkauth None h None)) (mkpath false []) None None in
            match encoded original with Ok (e, _) => parts_valid sg 200 e = Ok true /\ decoded e = Ok (inl original) | _ => False end
  | _ => False end.
Proof. run_sg. Qed.
(* test_parts.cpp:246 *)
Example Parts_DecodeBadPunycodeTLD : decoded (mkparts (Some (ss "http")) (Some (mkauth None (ss "xn--" ++ [chr 0xD1; chr 0x91]) None)) (mkpath false []) None None) = Ok (inr ModelPuny.bad_input).
Proof. run. Qed.
(* test_parts.cpp:334, 340 (329 gives a host with xn--) *)
Example Parts_EncodeDecodeRoundTripRegression3 : forall sg : bool,
  round_trip sg (mkparts (Some (ss "U")) (Some (mkauth (Some []) (ss "b") None)) (mkpath true [ss "ffffffffffffffffffffffffffff"; ss "k%fff"]) (Some []) None).
Proof. run_sg. Qed.
Definition elements : list str := map ss ["el0"; "el%1"; "el2"; "el%3"; "el4"; "el%5"; "el6"; "el%7"; "el8"; "el%9"; "el10"; "el%11";
  "el12"; "el%13"; "el14"; "el%15"; "el16"; "el%17"; "el18"; "el%19"; "el20"; "el%21"; "el22"; "el%23";
  "el24"; "el%25"; "el26"; "el%27"; "el28"; "el%29"; "el30"; "el%31"; "el32"; "el%33"; "el34"; "el%35";
  "el36"; "el%37"; "el38"; "el%39"; "el40"; "el%41"; "el42"; "el%43"; "el44"; "el%45"; "el46"; "el%47"]%string.
Example Parts_EncodeDecodeRoundTripManyPathElements : forall sg : bool, round_trip sg (mkparts None (Some (mkauth None (ss "host") None)) (mkpath true elements) None None)
  /\ match encoded (mkparts None None (mkpath true elements) None None) with Ok (e, _) => decoded e = Ok (inl (mkparts None None (mkpath true elements) None None)) | _ => False end.
Proof. run_sg. Qed.
