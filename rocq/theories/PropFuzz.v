(* PROPERTY THEOREMS: C91 what the project's fuzz tests assert, for every input.
   One theorem for each FUZZ_TEST in /repo/unittests/uri; what the test does is in the statement, without the test's sampling.
   Vocabulary: SpecFuzz.v (two_slashes, reads_as_authority, begins_xn), SpecLayers.v (encode_call, decode_call), SpecUri.v (fits). *)
From Verif Require Import Base ModelUri ModelPct ModelParts SpecUri SpecParts SpecPct SpecPuny SpecStore SpecViews SpecHost SpecLayers SpecAlike SpecFuzz UriSplit PctFacts PunyProps PartsHost PartsProps FuzzFacts.
From Verif Require PropSplitFacts PropPuny PropPct PropAlike PropLayers ModelPuny Rfc3986 AlikeFacts LayersFacts.
From Coq Require Import Lia.
Local Open Scope list_scope.

(* --- test_uri.cpp:1344-1348 UriSplitNeverCrashes --- *)
Theorem C91_split_never_crashes fuel s : fits fuel s -> exists o, split false fuel s = Ok o.
Proof.
  intros F. destruct (PropSplitFacts.split_terminates false fuel s F) as [H|[H _]]; [exact H|]. elim H. unfold ctype_safe. left. reflexivity.
Qed.
Print Assumptions C91_split_never_crashes.
(* where char is signed, bytes from 0x80 on are passed to std::isalnum (finding F3): the test's claim is false there *)
Theorem C91_split_never_crashes_refuted : exists s, split true 100 s = Fault ctype_domain.
Proof. destruct PropSplitFacts.split_undefined as (s & H & _). now exists s. Qed.
Print Assumptions C91_split_never_crashes_refuted.

(* --- test_uri.cpp:1725-1732 SplitComposeEqual --- *)
Theorem C91_split_compose_equal sg fuel s p : fits fuel s -> split sg fuel s = Ok (Some p) -> compose p = s.
Proof. intros F E. exact (PropSplitFacts.compose_split sg fuel s p F (or_introl E)). Qed.
Print Assumptions C91_split_compose_equal.

(* --- test_pctdecode.cpp:81-96 PctDecodeNeverCrashes, PctDecodeViewNeverCrashes --- *)
Theorem C91_pctdecode_never_crashes s : exists t, pctdecode s = Ok t.
Proof. destruct (PropPct.C18_total s) as (t & D & _). exists t. now apply PropPct.C18_decode. Qed.
Print Assumptions C91_pctdecode_never_crashes.

(* --- test_pctencode.cpp:127-158 EncodeNeverCrashes, RoundTrip; the seven sets of AnyEncodeSet --- *)
Definition any_encode_set : list N := [es_fragment; es_query; es_special_query; es_path; es_userinfo; es_component; es_form_urlencoded].
Theorem C91_pctencode_round_trip s es : In es any_encode_set -> exists e, pctencode s es = Ok e /\ pctdecode e = Ok s.
Proof.
  intros I. destruct (PropPct.C15_decode_encode s es) as (e & E & D & _); [|eauto]. cbv in I. intuition (subst; lia).
Qed.
Print Assumptions C91_pctencode_round_trip.

(* --- test_punycode.cpp:473-485 EncodeNeverCrashes, DecodeNeverCrashes --- *)
Theorem C91_punycode_never_crashes u s : (N.of_nat (length u) < 2 ^ 32)%N -> (forall c, In c u -> (c < 2 ^ 32)%N) -> (N.of_nat (length s) < 2 ^ 32)%N ->
  (exists e b, ModelPuny.encode u false = Ok (e, b)) /\ exists r, ModelPuny.decode s = Ok r.
Proof.
  intros H C S. split; [|exact (PropPuny.C21_total s S)]. destruct (PropPuny.C20_shape u false H C) as (e & b & E & _). eauto.
Qed.
Print Assumptions C91_punycode_never_crashes.

(* --- test_punycode.cpp:490-512 EncodeDecodeRoundTrip: code points up to 0x10FFFF --- *)
Theorem C91_punycode_encode_decode u : (N.of_nat (length u) < 2 ^ 32)%N -> Forall (fun c => (c <= 0x10FFFF)%N) u ->
  exists e b, ModelPuny.encode u false = Ok (e, b) /\ ModelPuny.decode e = Ok (inl u).
Proof. intros H F. apply (PropPuny.C19_decode_encode u false H); [|now left]. intros c Hc. rewrite Forall_forall in F. specialize (F c Hc). lia. Qed.
Print Assumptions C91_punycode_encode_decode.

(* --- test_punycode.cpp:514-550 DecodeEncodeRoundTrip --- *)
Definition same_ignoring_case (a b : str) : Prop := map Rfc3986.lower a = map Rfc3986.lower b.
Lemma lower_idem c : Rfc3986.lower (Rfc3986.lower c) = Rfc3986.lower c.
Proof. destruct c as [[] [] [] [] [] [] [] []]; reflexivity. Qed.
(* orig: what the test passes to decode, that is, without a hyphen that is its first character and its only one;
   lit: orig up to its last hyphen (nothing if it has none), where the test's ascii_part_end points *)
Theorem C91_punycode_decode_encode orig u : (N.of_nat (length orig) < 2 ^ 32)%N ->
  ~ (exists d, orig = "-"%char :: d /\ ~ In "-"%char d) -> ModelPuny.decode orig = Ok (inl u) ->
  exists e b, ModelPuny.encode u false = Ok (e, b) /\ length e = length orig
  /\ forall lit rest, orig = lit ++ rest -> (exists d, rest = "-"%char :: d /\ ~ In "-"%char d) \/ (lit = [] /\ ~ In "-"%char orig) ->
       exists rest', e = lit ++ rest' /\ same_ignoring_case rest rest'.
Proof.
  intros H N D. destruct (PropAlike.C89_punycode orig u H D) as (e & b & (lit & ds & C & Nd & ->) & E & _). exists (match lit with [] => [] | _ => lit ++ [hyphen] end ++ map Rfc3986.lower ds), b.
  split; [exact E|]. assert (X : (orig = lit ++ hyphen :: ds /\ lit <> []) \/ (orig = ds /\ lit = [])).
  { destruct C as [C|C]; [|now right]. destruct lit as [|c lit]; [|left; split; [exact C|discriminate]]. elim N. exists ds. split; [exact C|exact Nd]. }
  clear C. destruct X as [[-> Nl]|[-> ->]].
  - replace (match lit with [] => [] | _ => lit ++ [hyphen] end) with (lit ++ [hyphen]) by now destruct lit. split; [rewrite !app_length, map_length; cbn [length]; lia|].
    intros l r Q [(d & -> & Hd)|[_ Z]]; [|elim Z; apply in_or_app; right; now left].
    assert (L : l = lit /\ d = ds).
    { clear - Q Nd Hd. revert lit Q. induction l as [|c l IH]; intros [|c' lit] Q; cbn [app] in Q.
      - injection Q as ->. auto.
      - injection Q as -> Q. elim Hd. rewrite <- Q. apply in_or_app. right. now left.
      - injection Q as <- Q. elim Nd. rewrite Q. apply in_or_app. right. now left.
      - injection Q as -> Q. destruct (IH _ Q) as [-> ->]. auto. }
    destruct L as [-> ->]. exists (hyphen :: map Rfc3986.lower ds). split; [now rewrite <- app_assoc|]. unfold same_ignoring_case. cbn [map]. f_equal. rewrite map_map. apply map_ext. intros c. symmetry. apply lower_idem.
  - cbn [app]. split; [now rewrite map_length|]. intros l r Q [(d & -> & Hd)|[-> _]]; [elim Nd; rewrite Q; apply in_or_app; right; now left|]. cbn [app] in Q. subst r. exists (map Rfc3986.lower ds). split; [reflexivity|].
    unfold same_ignoring_case. rewrite map_map. apply map_ext. intros c. symmetry. apply lower_idem.
Qed.
Print Assumptions C91_punycode_decode_encode.
Example C91_punycode_ex : exists u, ModelPuny.decode (ss "a-B-FcA") = Ok (inl u) /\ ModelPuny.encode u false = Ok (ss "a-B-fca", true).
Proof. exists [97; 45; 66; 146]%N. split; vm_compute; reflexivity. Qed.

(* --- test_parts.cpp:277-288 EncodeAndComposeValidAlwaysAgree --- *)
(* the test's claim is false: valid parts without authority whose path begins with an empty segment *)
Theorem C91_compose_valid_refuted : exists p q, encode_call p q /\ (forall sg, parts_valid sg 100 q = Ok true) /\ (forall sg, split sg 100 (compose q) = Ok None).
Proof.
  set (p := mkparts (Some (ss "a")) None (mkpath true [[]; ss "a:b"]) None None). exists p, p. split.
  - exists (fun n => n), (Vec 0 0 []), (mkvparts (Some (Caller (ss "a"))) None true [Caller []; Caller (ss "a:b")] None None).
    exists (Vec 0 0 []), (mkvparts (Some (Caller (ss "a"))) None true [Caller []; Caller (ss "a:b")] None None). split; [|split; [|split; [vm_compute; reflexivity|]]].
    + split; [repeat constructor|]. split; [reflexivity|repeat constructor].
    + repeat constructor.
    + repeat constructor.
  - split; intros []; vm_compute; reflexivity.
Qed.
Print Assumptions C91_compose_valid_refuted.
(* what holds: split accepts the text exactly if there is an authority, or what follows a path's leading "//" reads as one *)
Theorem C91_compose_valid sg fuel p q : encode_call p q -> fits fuel (compose q) -> parts_valid sg fuel q = Ok true ->
  ((exists r, split sg fuel (compose q) = Ok (Some r)) <->
   p_authority q <> None \/ forall y, two_slashes (path_string (p_path q)) y -> reads_as_authority y).
Proof. intros _. apply accepted_iff. Qed.
Print Assumptions C91_compose_valid.
Example C91_compose_valid_ex : let q := mkparts (Some (ss "a")) None (mkpath true [[]; ss "h"; ss "x"]) None None in
  parts_valid true 100 q = Ok true /\ two_slashes (path_string (p_path q)) (ss "h") /\ exists r, split true 100 (compose q) = Ok (Some r) /\ p_authority r = Some (mkauth None (ss "h") None).
Proof.
  split; [vm_compute; reflexivity|]. split; [exists (ss "/x"); split; [vm_compute; reflexivity|split; [cbn; intuition discriminate|right; now exists (ss "x")]]|].
  eexists. split; vm_compute; reflexivity.
Qed.

(* --- test_parts.cpp:292-326 EncodeDecodeRoundTrip --- *)
Lemma joined_head {A} (d : A) l ls : exists r, joined d l ls = l ++ r /\ (r = [] \/ exists r', r = d :: r').
Proof. destruct ls as [|m ls]; cbn [joined]; [exists []; rewrite app_nil_r; auto|]. exists (d :: joined d m ls). eauto. Qed.
Lemma joined_in {A} (d : A) l ls m : In m ls -> exists a r, joined d l ls = a ++ d :: m ++ r.
Proof.
  revert l. induction ls as [|x ls IH]; intros l []; cbn [joined].
  - subst. destruct (joined_head d m ls) as (r & -> & _). exists l, r. reflexivity.
  - destruct (IH x H) as (a & r & ->). exists (l ++ d :: a), r. now rewrite <- app_assoc.
Qed.
(* the test's condition on the host says that no label begins with xn-- *)
Theorem C91_condition p a : p_authority p = Some a -> (no_xn p <-> ~ begins_xn (ModelUri.host a)).
Proof.
  intros Ea. unfold no_xn. rewrite Ea. destruct (labels_exist ascii_dec dot (ModelUri.host a)) as (l & ls & Lb). pose proof Lb as (l0 & ls0 & E & J & F). injection E as <- <-. split.
  - intros NX B. assert (K : exists m, In m (l :: ls) /\ has_prefix xn m); [|destruct K as (m & I & P); exact (NX a _ m eq_refl Lb I P)].
    clear NX Ea Lb. rewrite J in B. clear J. revert l F B. induction ls as [|x ls IH]; intros l F B; cbn [joined] in B.
    + exists l. split; [now left|]. destruct B as [(r & E)|(u & v & E)]; [exists r; exact E|]. elim (Forall_inv F). rewrite E. apply in_or_app. right. now left.
    + assert (Hl : forall r, l ++ dot :: joined dot x ls = xn ++ r -> has_prefix xn l).
      { intros r E. assert (Q : forall (w z : str), ~ In dot w -> forall k, k ++ dot :: z = w ++ r -> exists t, k = w ++ t).
        { induction w as [|c w IHw]; intros z Nw k Ek; [exists k; reflexivity|]. destruct k as [|c' k]; cbn [app] in Ek; injection Ek as Ec Ek; [elim Nw; now left|subst c'].
          destruct (IHw z (fun H => Nw (or_intror H)) k Ek) as (t & ->). exists t. reflexivity. }
        destruct (Q xn (joined dot x ls)) with (k := l) as (t & ->); [cbn; intuition discriminate|exact E|]. now exists t. }
      destruct B as [(r & E)|(u & v & E)]; [exists l; split; [now left|exact (Hl r E)]|].
      assert (K : begins_xn (joined dot x ls)).
      { clear - E F. pose proof (Forall_inv F) as Nl. clear F. revert u E. induction l as [|c l IHl]; intros u E; cbn [app] in E.
        - destruct u as [|c u]; cbn [app] in E; [left; exists v; exact (f_equal (@tl ascii) E)|]. right. exists u, v. exact (f_equal (@tl ascii) E).
        - destruct u as [|c' u]; [cbn in E; injection E as Ec _; elim Nl; left; exact Ec|]. cbn [app] in E. injection E as _ E. apply (IHl (fun H => Nl (or_intror H)) u E). }
      destruct (IH x (Forall_inv_tail F) K) as (m & I & P). exists m. split; [now right|exact P].
  - intros NB b ls' m Eb Lb' Hm (r & Hr). injection Eb as <-. rewrite (labels_fun dot _ _ _ Lb' Lb) in Hm. apply NB. rewrite J. destruct Hm as [Hm|Hm]; subst m.
    + left. destruct (joined_head dot l ls) as (t & -> & _). subst l. exists (r ++ t). now rewrite <- app_assoc.
    + right. destruct (joined_in dot l ls _ Hm) as (u & t & Ej). rewrite Ej. exists u, (r ++ t). unfold xn. rewrite <- app_assoc. reflexivity.
Qed.
Print Assumptions C91_condition.
Theorem C91_encode_decode sg fuel grow store p original : proper p -> shows store p original ->
  (forall a, p_authority original = Some a -> ~ begins_xn (ModelUri.host a)) -> parts_fit fuel original -> parts_valid sg fuel original = Ok true ->
  exists st q encoded, parts_encode grow store p = Ok (st, q) /\ shows st q encoded /\ (parts_fit fuel encoded -> parts_valid sg fuel encoded = Ok true)
  /\ forall grow2 st2 p2, proper p2 -> shows st2 p2 encoded -> exists st3 r, parts_decode grow2 st2 p2 = Ok (st3, inl r) /\ shows st3 r original.
Proof.
  intros P Sh NB Fi V. destruct (c24_valid sg fuel grow store p original P Sh Fi V) as (st & q & qc & E & T & W & R). exists st, q, qc. split; [exact E|]. split; [exact T|]. split; [exact W|]. apply R.
  destruct (p_authority original) as [a|] eqn:Ea; [apply (C91_condition original a Ea); now apply NB|]. intros a ls l H. congruence.
Qed.
Print Assumptions C91_encode_decode.
Example C91_encode_decode_ex : let p := mkvparts (Some (Caller (ss "http"))) (Some (mkvauth None (Caller (ss "a.xn-b.b")) None)) true [Caller (ss "%41"); Null] None None in
  let original := mkparts (Some (ss "http")) (Some (mkauth None (ss "a.xn-b.b") None)) (mkpath true [ss "%41"; []]) None None in
  proper p /\ shows (Vec 0 0 []) p original /\ ~ begins_xn (ss "a.xn-b.b") /\ parts_valid true 100 original = Ok true /\ begins_xn (ss "a.xn--tda").
Proof.
  split; [split; [repeat constructor|split; [reflexivity|repeat constructor]]|]. split; [repeat constructor|]. split.
  - intros [(r & E)|(a & b & E)]; [discriminate E|]. do 8 (destruct a as [|? a]; [discriminate E|injection E as _ E]). destruct a; discriminate E.
  - split; [vm_compute; reflexivity|]. right. exists (ss "a"), (ss "tda"). reflexivity.
Qed.
