(* PROPERTY THEOREMS: C99 decode and the IRI that RFC 3987 assigns to a URI.
   Vocabulary: SpecBack.v (from_uri, convertible, shown), SpecIri.v (itext, rfc3987_uri), SpecStore.v (decoded, parts_rel), SpecIcu.v (text utf8_of). *)
From Verif Require Import Base ModelUri ModelParts SpecPct SpecIcu SpecStore SpecViews Rfc3986 SpecIri SpecBack SendEx PropIri PropPipe IriFacts BackFacts PegUri.
From Verif Require PartsProps PartsEx PctFacts IcuEnc CaseHost.
From Coq Require Import Lia.
Local Open Scope list_scope.

Definition rule_of (f : field) (e : str) : Prop :=
  match f with Userinfo => L userinfo e | Segment => L segment e | Query => L query e | Fragment => L fragment e | _ => False end.
Lemma rule_of_texty f e : rule_of f e -> texty f = true /\ L (uri_rule f) e.
Proof. destruct f; intros H; try contradiction H; (split; [reflexivity|exact H]). Qed.
(* every component of a URI stands for exactly one text, and it is a component of an IRI *)
Theorem C99_mapping f e : rule_of f e ->
  exists u k, from_uri f e u k /\ itext f u /\ forall u' k', from_uri f e u' k' -> u' = u /\ k' = k.
Proof.
  intros R. apply rule_of_texty in R as [T R]. destruct (from_uri_total f (length e) e (le_n _)) as (u & k & F). exists u, k. split; [exact F|].
  split; [now apply (rule_iri f e u k)|]. intros u' k' F'. destruct (from_uri_fun _ _ _ _ F _ _ F') as [-> ->]. now split.
Qed.
Print Assumptions C99_mapping.
(* decode gives the text of that IRI exactly if every escape is one that RFC 3987 converts *)
Theorem C99_text f e s u k : rule_of f e -> decodes e s -> from_uri f e u k -> (text utf8_of u (map code s) <-> k = 0).
Proof.
  intros R D F. apply rule_of_texty in R as [T R]. destruct (from_uri_text _ _ _ _ F (rule_ascii _ _ T R) _ D) as (x & X & Lx & Z). split.
  - intros X'. rewrite (IcuEnc.text_fun _ IcuEnc.utf8_fun _ _ _ X X') in Lx. rewrite map_length in Lx. lia.
  - intros K. rewrite <- (Z K). exact X.
Qed.
Print Assumptions C99_text.
(* it is always as long as or shorter than that text: each escape that RFC 3987 keeps costs two octets *)
Theorem C99_length f e s u k x : rule_of f e -> decodes e s -> from_uri f e u k -> text utf8_of u x -> length x = length s + 2 * k.
Proof.
  intros R D F X'. apply rule_of_texty in R as [T R]. destruct (from_uri_text _ _ _ _ F (rule_ascii _ _ T R) _ D) as (x' & X & Lx & _).
  now rewrite (IcuEnc.text_fun _ IcuEnc.utf8_fun _ _ _ X' X).
Qed.
Print Assumptions C99_length.
(* the mapping of section 3.2 takes back that of section 3.1, for texts without "%" *)
Theorem C99_back f u e : rfc3987_uri u e -> itext f u -> ~ In (code percent) u -> from_uri f e u 0.
Proof. apply back. Qed.
Print Assumptions C99_back.
(* so what encode makes of a component of an IRI without the characters that it escapes although RFC 3987 does not is taken back by section 3.2 *)
Lemma text_byte u t : text utf8_of u t -> forall c, In c u -> (c < 0x80)%N -> In c t.
Proof.
  induction 1 as [|x w cs us F _ IH]; intros c Hc Lc; [destruct Hc|]. apply in_or_app. destruct Hc as [->|Hc]; [left|right; now apply IH].
  destruct (CaseHost.utf8_high c w F) as [[-> _]|[H _]]; [now left|lia].
Qed.
Lemma to_uri_without (P : ascii -> Prop) u e : to_uri P u e -> (forall a, In (code a) u -> (code a < 0x80)%N -> ~ P a) -> rfc3987_uri u e.
Proof.
  induction 1 as [|a u e La Na _ IH|a u e La Aa _ IH|c bs u e Hc U _ IH]; intros H.
  - constructor.
  - apply tu_ascii; [exact La|intros []|]. apply IH. intros b Hb. apply H. now right.
  - destruct (H a (or_introl eq_refl) La Aa).
  - apply tu_other; [exact Hc|exact U|]. apply IH. intros b Hb. apply H. now right.
Qed.
Theorem C99_encode f s u e : f = Userinfo \/ f = Segment \/ f = Query \/ f = Fragment -> itext f u -> text utf8_of u (map code s) -> encoded f s e ->
  (forall a, In a s -> ~ escaped_again f a) -> from_uri f e u 0.
Proof.
  intros T I X E N. assert (In_s : forall a, In (code a) u -> (code a < 0x80)%N -> In a s).
  { intros a Ha La. pose proof (text_byte _ _ X _ Ha La) as H. apply in_map_iff in H as (b & Eb & Hb). apply code_injective in Eb. now subst b. }
  apply C99_back; [|exact I|].
  - apply (to_uri_without (escaped_again f)); [now apply (C97_component f u s e T I X)|]. intros a Ha La. apply N. now apply In_s.
  - intros H. apply (N percent); [now apply In_s|now left].
Qed.
Print Assumptions C99_encode.
(* decode () of parts, component by component *)
Definition as_rfc3987 (f : field) (e s : str) : Prop :=
  rule_of f e -> exists u k, from_uri f e u k /\ itext f u /\ (text utf8_of u (map code s) <-> k = 0).
Theorem C99_parts grow store p pc st q : proper p -> shows store p pc -> parts_decode grow store p = Ok (st, inl q) ->
  exists qc, shows st q qc /\ parts_rel as_rfc3987 pc qc.
Proof.
  intros P S E. destruct (PartsProps.c26_decode_text grow store p pc st q P S E) as (qc & Sq & R). exists qc. split; [exact Sq|].
  revert R. apply rel_weaken. intros f e s X R. destruct (C99_mapping f e R) as (u & k & F & I & _). exists u, k. split; [exact F|]. split; [exact I|].
  apply (C99_text f e s u k R); [|exact F]. destruct f; try contradiction R; exact X.
Qed.
Print Assumptions C99_parts.

(* --- "%C3%A9x" stands for the two characters that decode gives --- *)
Lemma acute_convertible f r : convertible f (ss "%C3%A9" ++ r) 0xE9 r.
Proof.
  split; [right; left; exists 0xA0%N, 0xD7FF%N; split; [now left|split; intros X; vm_compute in X; discriminate X]|].
  exists e_acute. split; [apply (utf8_2 0xE9); vm_compute; congruence|exact (escapes_map e_acute r)].
Qed.
Lemma no_escape c e : Ascii.eqb c percent = false -> forall b rest, ~ escaped_at (c :: e) b rest.
Proof. intros H b r (h & l & x & y & E & _). injection E as -> _. discriminate H. Qed.
Example C99_ex : rule_of Segment (ss "%C3%A9x") /\ from_uri Segment (ss "%C3%A9x") [0xE9; 0x78]%N 0
  /\ decodes (ss "%C3%A9x") (e_acute ++ ss "x") /\ text utf8_of [0xE9; 0x78]%N (map code (e_acute ++ ss "x")).
Proof.
  assert (R : rule_of Segment (ss "%C3%A9x")).
  { exists [ss "%C3"; ss "%A9"; ss "x"]. split; [reflexivity|]. split; [|split; [lia|exact Logic.I]]. repeat apply Forall_cons; try apply Forall_nil; apply (proj1 (proj2 UriLang.e_pchar)).
    - right. exists "C"%char, "3"%char. now repeat split.
    - right. exists "A"%char, "9"%char. now repeat split.
    - left. exists "x"%char. now split. }
  assert (F : from_uri Segment (ss "%C3%A9x") [0xE9; 0x78]%N 0).
  { apply fu_convert with (rest := ss "x"); [apply (acute_convertible Segment (ss "x"))|].
    apply (fu_char Segment "x"%char [] [] 0); [apply no_escape; reflexivity|constructor]. }
  assert (D : decodes (ss "%C3%A9x") (e_acute ++ ss "x")) by (apply PctFacts.pctdecode_iff; vm_compute; reflexivity).
  split; [exact R|]. split; [exact F|]. split; [exact D|]. now apply (C99_text Segment _ _ _ _ R D F).
Qed.

(* F50: decode also converts what RFC 3987 keeps: the escape of "/", a reserved character ... *)
Theorem C99_refuted : exists e s u k, rule_of Segment e /\ decodes e s /\ from_uri Segment e u k /\ e = ss "a%2Fb" /\ s = ss "a/b" /\ u = map code e /\ ~ text utf8_of u (map code s).
Proof.
  exists (ss "a%2Fb"), (ss "a/b"), (map code (ss "a%2Fb")), 1.
  assert (R : rule_of Segment (ss "a%2Fb")).
  { exists [ss "a"; ss "%2F"; ss "b"]. split; [reflexivity|]. split; [|split; [lia|exact Logic.I]]. repeat apply Forall_cons; try apply Forall_nil; apply (proj1 (proj2 UriLang.e_pchar)).
    - left. exists "a"%char. now split.
    - right. exists "2"%char, "F"%char. now repeat split.
    - left. exists "b"%char. now split. }
  assert (D : decodes (ss "a%2Fb") (ss "a/b")) by (apply PctFacts.pctdecode_iff; vm_compute; reflexivity).
  assert (E : escaped_at (ss "%2Fb") "/"%char (ss "b")).
  { exists "2"%char, "F"%char, 2%N, 15%N. repeat (match goal with |- _ /\ _ => split end); vm_compute; reflexivity. }
  assert (F : from_uri Segment (ss "a%2Fb") (map code (ss "a%2Fb")) 1).
  { apply (fu_char Segment "a"%char (ss "%2Fb")); [apply no_escape; reflexivity|].
    apply (fu_keep Segment "2"%char "F"%char (ss "b") "/"%char (map code (ss "b")) 0); [exact E| |apply (fu_char Segment "b"%char [] [] 0); [apply no_escape; reflexivity|constructor]].
    intros c r (Sh & bs & U & X). inversion X as [|e0 b r0 bs' rest E0 X']; subst; [now destruct (utf8_some _ _ U)|].
    destruct (PctFacts.escaped_at_fun _ _ _ _ _ E E0) as [<- <-]. destruct (utf8_starts 0x2F [("/")%char] c bs' (utf8_1 0x2F eq_refl) U) as [<- ->].
    destruct Sh as [(a & Ea & La)|[(x & y & I & H)|[K _]]]; [| |discriminate K].
    - apply unres_iff in La. assert (a = "/"%char) as -> by (apply code_injective; rewrite Ea; reflexivity). discriminate La.
    - assert (Y : (0x80 <= 0x2F)%N) by (eapply ranges_high; [|exists x, y; split; [exact I|exact H]]; vm_compute; reflexivity). vm_compute in Y. now apply Y. }
  split; [exact R|]. split; [exact D|]. split; [exact F|]. split; [reflexivity|]. split; [reflexivity|]. split; [reflexivity|].
  intros X. apply (C99_text Segment _ _ _ _ R D F) in X. discriminate X.
Qed.
Print Assumptions C99_refuted.
