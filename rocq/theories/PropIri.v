(* PROPERTY THEOREMS: C97 encode and the URI that RFC 3987 assigns to an IRI.
   Vocabulary: SpecIri.v (iri, itext, rfc3987_uri, to_uri, to_domain, escaped_again), SpecStore.v (encoded, parts_rel), SpecIcu.v (text utf8_of). *)
From Verif Require Import Base UriLang ModelUri ModelParts SpecPct SpecPuny SpecIcu SpecStore SpecViews Rfc3986 SpecHost SpecParts SpecUri SpecIri SendEx SendFacts IriFacts.
From Verif Require PartsHost PartsDec PartsProps PartsEx PunyProps IcuProps IcuUtf8 IcuEnc.
From Coq Require Import Lia.
Local Open Scope list_scope.

(* the mapping of RFC 3987 is a function *)
Theorem C97_mapping_unique also u e e' : to_uri also u e -> to_uri also u e' -> e = e'.
Proof.
  intros H. revert e'. induction H as [|a u e La Na _ IH|a u e La Aa _ IH|c bs u e Hc U _ IH]; intros e' X.
  - now inversion X.
  - inversion X as [|b v t Lb Nb K E1 E2|b v t Lb Ab K E1 E2|d ds v t Hd Ud K E1 E2]; subst; [| |lia].
    + apply code_injective in E1. subst b. f_equal. now apply IH.
    + apply code_injective in E1. subst b. contradiction.
  - inversion X as [|b v t Lb Nb K E1 E2|b v t Lb Ab K E1 E2|d ds v t Hd Ud K E1 E2]; subst; [| |lia].
    + apply code_injective in E1. subst b. contradiction.
    + apply code_injective in E1. subst b. f_equal. now apply IH.
  - inversion X as [|b v t Lb Nb K E1 E2|b v t Lb Ab K E1 E2|d ds v t Hd Ud K E1 E2]; subst; [lia|lia|].
    assert (ds = bs) as -> by (apply PunyProps.map_code_inj; eapply IcuEnc.utf8_fun; [exact Ud|exact U]). f_equal. now apply IH.
Qed.
Print Assumptions C97_mapping_unique.
(* encode maps the userinfo, each segment, the query and the fragment of an IRI as RFC 3987 says, and escapes the "%" of escapes, and
   ":", ";" and "=" in the userinfo, on top of that *)
Theorem C97_component f u s e : f = Userinfo \/ f = Segment \/ f = Query \/ f = Fragment -> itext f u -> text utf8_of u (map code s) ->
  (encoded f s e <-> to_uri (escaped_again f) u e).
Proof. intros T. apply text_component. destruct T as [->|[->|[->| ->]]]; reflexivity. Qed.
Print Assumptions C97_component.
(* so the component of the URI is what RFC 3987 says exactly if there are no such characters *)
Theorem C97_exact f u s e e' : f = Userinfo \/ f = Segment \/ f = Query \/ f = Fragment -> itext f u -> text utf8_of u (map code s) ->
  encoded f s e -> rfc3987_uri u e' -> (e = e' <-> forall a, In a s -> ~ escaped_again f a).
Proof. intros T. apply text_exact. destruct T as [->|[->|[->| ->]]]; reflexivity. Qed.
Print Assumptions C97_exact.
(* the host: the labels that are not ASCII in Punycode *)
Theorem C97_host u s e : text utf8_of u (map code s) -> (encoded Host s e <-> to_domain u e).
Proof. apply host_component. Qed.
Print Assumptions C97_host.
(* A whole IRI without escapes: encode gives the parts of a URI, component by component; split takes its text, and decode gives the IRI back. *)
Theorem C97_iri grow store p pc : proper p -> shows store p pc -> iri pc -> no_escapes pc -> ordinary_host pc ->
  exists st q qc, parts_encode grow store p = Ok (st, q) /\ shows st q qc /\ parts_rel component_to_uri pc qc /\
  forall sg fuel, fits fuel (compose qc) -> exists qc', split sg fuel (compose qc) = Ok (Some qc') /\ parts_eqb qc' qc = true /\
  forall grow2 st2 p2, proper p2 -> shows st2 p2 qc' ->
  exists st3 r pc', parts_decode grow2 st2 p2 = Ok (st3, inl r) /\ shows st3 r pc' /\ parts_eqb pc' pc = true.
Proof. apply iri_encode. Qed.
Print Assumptions C97_iri.
(* and as texts, where the host is ASCII: composing the encoded parts is mapping the composed parts *)
Theorem C97_text grow store p pc st q qc u : proper p -> shows store p pc -> iri pc -> parts_all (fun f s => forall a, In a s -> ~ escaped_again f a) pc ->
  (forall a, p_authority pc = Some a -> ascii_only (map code (ModelUri.host a))) ->
  parts_encode grow store p = Ok (st, q) -> shows st q qc -> text utf8_of u (map code (compose pc)) -> rfc3987_uri u (compose qc).
Proof. apply iri_text. Qed.
Print Assumptions C97_text.

(* an IRI *)
Definition ex_iri : parts := mkparts (Some (ss "http")) (Some (mkauth (Some e_acute) to_send_host (Some (ss "80"))))
    (mkpath true [ss "a'b"; []; e_acute ++ ss "x"]) (Some (ss "x=" ++ e_acute)) (Some e_acute).
Definition ex_iri_views : vparts :=
  mkvparts (Some (Caller (ss "http"))) (Some (mkvauth (Some (Caller e_acute)) (Caller to_send_host) (Some (Caller (ss "80")))))
    true [Caller (ss "a'b"); Null; Caller (e_acute ++ ss "x")] (Some (Caller (ss "x=" ++ e_acute))) (Some (Caller e_acute)).
Lemma plain_char f a : UriLang.f_r a = true -> ichar f (code a).
Proof. intros H. left. exists a. split; [reflexivity|]. apply regc_iff in H. destruct f; cbn [plain_rule]; repeat first [exact H|left]. Qed.
Lemma latin f c : (0xA0 <= c <= 0xD7FF)%N -> ichar f c.
Proof. intros H. right. left. exists 0xA0%N, 0xD7FF%N. split; [now left|exact H]. Qed.
Ltac itx := repeat (apply it_char; [first [apply (plain_char _ "a"%char); reflexivity|apply (plain_char _ "b"%char); reflexivity|apply (plain_char _ "x"%char); reflexivity|apply (plain_char _ "'"%char); reflexivity
  |apply (plain_char _ "="%char); reflexivity|apply (plain_char _ "."%char); reflexivity|apply latin; split; intros X; vm_compute in X; discriminate X]|]); apply it_nil.
Lemma acute_text cs us : text utf8_of cs us -> text utf8_of (0xE9 :: cs)%N ([0xC3; 0xA9] ++ us)%N.
Proof. intros T. apply text_cons; [|exact T]. apply (utf8_2 0xE9); vm_compute; congruence. Qed.
Lemma ascii_cons c cs us : (c < 0x80)%N -> text utf8_of cs us -> text utf8_of (c :: cs) (c :: us).
Proof. intros H T. change (c :: us) with ([c] ++ us). apply text_cons; [now apply utf8_1|exact T]. Qed.
Ltac utx := repeat first [apply text_nil|apply acute_text|apply ascii_cons; [vm_compute; reflexivity|]].
Lemma ex_iri_iri : iri ex_iri /\ no_escapes ex_iri /\ ordinary_host ex_iri.
Proof.
  assert (NP : forall s, forallb (fun c => negb (Ascii.eqb c percent)) s = true -> ~ In percent s).
  { intros s F I. rewrite forallb_forall in F. apply F in I. rewrite Ascii.eqb_refl in I. discriminate I. }
  split; [|split].
  - split; [|split; [discriminate|left; discriminate]]. split; [exact http_scheme|]. split; [split; [|split]|split; [|split]].
    + exists [0xE9]%N. split; [utx|itx].
    + right. exists [0xFC; 0x2E; 0x61]%N. split; [|itx]. change (text utf8_of ([0xFC] ++ [0x2E; 0x61])%N ([0xC3; 0xBC] ++ [0x2E; 0x61])%N). apply (text_cons utf8_of 0xFC%N); [apply (utf8_2 0xFC); vm_compute; congruence|utx].
    + apply rep_digits. repeat (apply Forall_cons; [vm_compute; split; discriminate|]). apply Forall_nil.
    + repeat apply Forall_cons; [| | |apply Forall_nil].
      * exists [0x61; 0x27; 0x62]%N. split; [utx|itx].
      * exists []. split; [utx|itx].
      * exists [0xE9; 0x78]%N. split; [utx|itx].
    + exists [0x78; 0x3D; 0xE9]%N. split; [utx|itx].
    + exists [0xE9]%N. split; [utx|itx].
  - split; [apply NP; reflexivity|]. split; [split; [|split]; apply NP; reflexivity|]. split; [repeat apply Forall_cons; try (apply NP; reflexivity); apply Forall_nil|]. split; apply NP; reflexivity.
  - intros a E. injection E as <-. cbn [ModelUri.host]. split; [right; apply no_ipv4; [discriminate|reflexivity]|].
    intros ls l LB Hl (r & ->). destruct LB as (l0 & ls' & -> & J & F).
    assert (X : In "x"%char to_send_host). { rewrite J. clear - Hl. revert l0 Hl. induction ls' as [|l' ls' IH]; intros l0 [->|Hl]; [now left|destruct Hl|now left|]. cbn [joined]. apply in_or_app. right. right. now apply IH. }
    cbn in X. repeat (destruct X as [X|X]; [discriminate X|]). destruct X.
Qed.
Definition iri_encoded := Eval vm_compute in parts_encode (fun n => n) (Vec 0 0 []) ex_iri_views.
Lemma iri_encoded_eq : parts_encode (fun n => n) (Vec 0 0 []) ex_iri_views = iri_encoded.
Proof. vm_compute. reflexivity. Qed.
Example C97_ex : proper ex_iri_views /\ shows (Vec 0 0 []) ex_iri_views ex_iri /\ iri ex_iri /\ no_escapes ex_iri /\ ordinary_host ex_iri
  /\ match parts_encode (fun n => n) (Vec 0 0 []) ex_iri_views with
     | Ok (st, q) => exists qc, shows st q qc /\ compose qc = ss "http://%C3%A9@xn--tda.a:80/a'b//%C3%A9x?x=%C3%A9#%C3%A9"
     | _ => False
     end.
Proof.
  split; [apply PartsEx.ok_proper; vm_compute; reflexivity|]. split; [repeat (constructor || split)|]. destruct ex_iri_iri as (A & B & C). split; [exact A|]. split; [exact B|]. split; [exact C|].
  rewrite iri_encoded_eq. unfold iri_encoded. exists (mkparts (Some (ss "http")) (Some (mkauth (Some (ss "%C3%A9")) (ss "xn--tda.a") (Some (ss "80")))) (mkpath true [ss "a'b"; []; ss "%C3%A9x"]) (Some (ss "x=%C3%A9")) (Some (ss "%C3%A9"))).
  split; [repeat (constructor || split)|vm_compute; reflexivity].
Qed.

(* F48: the escapes of an IRI are escaped again, and so is the ":" of "u:p": encode gives a URI that is not the one RFC 3987 assigns *)
Theorem C97_refuted :
  (exists u e e', itext Segment u /\ text utf8_of u (map code (ss "%41" ++ e_acute)) /\ encoded Segment (ss "%41" ++ e_acute) e /\ rfc3987_uri u e'
     /\ e = ss "%2541%C3%A9" /\ e' = ss "%41%C3%A9") /\
  (exists u e e', itext Userinfo u /\ text utf8_of u (map code (ss "u:p")) /\ encoded Userinfo (ss "u:p") e /\ rfc3987_uri u e'
     /\ e = ss "u%3Ap" /\ e' = ss "u:p").
Proof.
  assert (HX : forall a, (a = "4" \/ a = "1")%char -> hexdig (code a)).
  { intros a H. exists a. split; [reflexivity|]. apply UriLang.L_hex. exists a. split; [reflexivity|]. destruct H as [-> | ->]; reflexivity. }
  split.
  - assert (T : text utf8_of [0x25; 0x34; 0x31; 0xE9]%N (map code (ss "%41" ++ e_acute))).
    { change (text utf8_of [0x25; 0x34; 0x31; 0xE9]%N ([0x25; 0x34; 0x31] ++ [0xC3; 0xA9])%N). utx. }
    assert (I : itext Segment [0x25; 0x34; 0x31; 0xE9]%N).
    { apply it_escape; [apply (HX "4"%char); now left|apply (HX "1"%char); now right|]. itx. }
    exists [0x25; 0x34; 0x31; 0xE9]%N, (ss "%2541%C3%A9"), (ss "%41%C3%A9"). split; [exact I|]. split; [exact T|]. split; [|split; [|split; reflexivity]].
    + apply (proj2 (C97_component Segment _ _ _ (or_intror (or_introl eq_refl)) I T)).
      apply (tu_also _ "%"%char _ (ss "41%C3%A9")); [reflexivity|now left|].
      apply (tu_ascii _ "4"%char); [reflexivity|intros [X|(X & _)]; discriminate X|].
      apply (tu_ascii _ "1"%char); [reflexivity|intros [X|(X & _)]; discriminate X|].
      apply (tu_other _ 0xE9%N e_acute [] []); [discriminate| |apply tu_nil]. apply (utf8_2 0xE9); vm_compute; congruence.
    + apply (tu_ascii _ "%"%char); [reflexivity|now intros []|]. apply (tu_ascii _ "4"%char); [reflexivity|now intros []|]. apply (tu_ascii _ "1"%char); [reflexivity|now intros []|].
      apply (tu_other _ 0xE9%N e_acute [] []); [discriminate| |apply tu_nil]. apply (utf8_2 0xE9); vm_compute; congruence.
  - assert (T : text utf8_of [0x75; 0x3A; 0x70]%N (map code (ss "u:p"))) by (change (text utf8_of [0x75; 0x3A; 0x70]%N [0x75; 0x3A; 0x70]%N); utx).
    assert (I : itext Userinfo [0x75; 0x3A; 0x70]%N).
    { apply it_char; [apply (plain_char _ "u"%char); reflexivity|]. apply it_char; [left; exists ":"%char; split; [reflexivity|right; reflexivity]|].
      apply it_char; [apply (plain_char _ "p"%char); reflexivity|]. apply it_nil. }
    exists [0x75; 0x3A; 0x70]%N, (ss "u%3Ap"), (ss "u:p"). split; [exact I|]. split; [exact T|]. split; [|split; [|split; reflexivity]].
    + apply (proj2 (C97_component Userinfo _ _ _ (or_introl eq_refl) I T)).
      apply (tu_ascii _ "u"%char); [reflexivity|intros [X|(_ & X)]; [discriminate X|cbn in X; intuition discriminate]|].
      apply (tu_also _ ":"%char _ (ss "p")); [reflexivity|right; split; [reflexivity|now left]|].
      apply (tu_ascii _ "p"%char); [reflexivity|intros [X|(_ & X)]; [discriminate X|cbn in X; intuition discriminate]|]. apply tu_nil.
    + repeat (apply (tu_ascii _ "u"%char) || apply (tu_ascii _ ":"%char) || apply (tu_ascii _ "p"%char); [reflexivity|now intros []|]). apply tu_nil.
Qed.
Print Assumptions C97_refuted.

(* "http://h/é" meets what C97_text asks for *)
Definition ex_text : parts := mkparts (Some (ss "http")) (Some (mkauth None (ss "a.b") None)) (mkpath true [e_acute]) None None.
Definition ex_text_views : vparts := mkvparts (Some (Caller (ss "http"))) (Some (mkvauth None (Caller (ss "a.b")) None)) true [Caller e_acute] None None.
Definition text_encoded := Eval vm_compute in parts_encode (fun n => n) (Vec 0 0 []) ex_text_views.
Lemma text_encoded_eq : parts_encode (fun n => n) (Vec 0 0 []) ex_text_views = text_encoded.
Proof. vm_compute. reflexivity. Qed.
Example C97_text_ex : proper ex_text_views /\ shows (Vec 0 0 []) ex_text_views ex_text /\ iri ex_text
  /\ parts_all (fun f s => forall a, In a s -> ~ escaped_again f a) ex_text /\ (forall a, p_authority ex_text = Some a -> ascii_only (map code (ModelUri.host a)))
  /\ (exists u, text utf8_of u (map code (compose ex_text)))
  /\ match parts_encode (fun n => n) (Vec 0 0 []) ex_text_views with
     | Ok (st, q) => exists qc, shows st q qc /\ compose qc = ss "http://a.b/%C3%A9"
     | _ => False
     end.
Proof.
  assert (NE : forall f s, forallb (fun c => negb (Ascii.eqb c percent)) s = true -> f <> Userinfo -> forall a, In a s -> ~ escaped_again f a).
  { intros f s F NU a I [-> | (X & _)]; [|now apply NU]. rewrite forallb_forall in F. apply F in I. rewrite Ascii.eqb_refl in I. discriminate I. }
  split; [apply PartsEx.ok_proper; vm_compute; reflexivity|]. split; [repeat (constructor || split)|]. split; [|split; [|split; [|split]]].
  - split; [|split; [discriminate|left; discriminate]]. split; [exact http_scheme|]. split; [split; [|split]|split; [|split]].
    + exact Logic.I.
    + right. exists [0x61; 0x2E; 0x62]%N. split; [utx|itx].
    + exact Logic.I.
    + apply Forall_cons; [|apply Forall_nil]. exists [0xE9]%N. split; [utx|itx].
    + exact Logic.I.
    + exact Logic.I.
  - split; [exact (NE Scheme (ss "http") eq_refl ltac:(discriminate))|]. split; [split; [|split]|split; [|split]]; try exact Logic.I; [exact (NE Host (ss "a.b") eq_refl ltac:(discriminate))|].
    apply Forall_cons; [|apply Forall_nil]. apply (NE Segment e_acute); [reflexivity|discriminate].
  - intros a E. injection E as <-. repeat (apply Forall_cons; [vm_compute; reflexivity|]). apply Forall_nil.
  - exists (map code (ss "http://a.b/") ++ [0xE9])%N. change (text utf8_of (map code (ss "http://a.b/") ++ [0xE9])%N (map code (ss "http://a.b/") ++ [0xC3; 0xA9] ++ [])%N). cbn [map app ss String.list_ascii_of_string]. utx.
  - rewrite text_encoded_eq. unfold text_encoded.
    exists (mkparts (Some (ss "http")) (Some (mkauth None (ss "a.b") None)) (mkpath true [ss "%C3%A9"]) None None).
    split; [repeat (constructor || split)|vm_compute; reflexivity].
Qed.
