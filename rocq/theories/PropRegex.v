(* C80: programs that take URIs apart without the grammar find what split () finds. *)
From Verif Require Import Base ModelUri Rfc3986 SpecUri SpecHost SpecParts SpecRegex RegexFacts RegexUri RegexAuth RegexExact PropSplit PartsProps.
Local Open Scope nat_scope.

Definition triple (a : ModelUri.authority) : option str * str * option str := (ModelUri.userinfo a, ModelUri.host a, ModelUri.port a).
(* what Appendix B's regular expression should find *)
Definition pieces_of_parts (p : parts) : pieces :=
  mkpieces (p_scheme p) (option_map (fun a => authority_text (triple a)) (p_authority p)) (Some (path_text (absolute (p_path p)) (segments (p_path p)))) (p_query p) (p_fragment p).
Lemma pieces_comps p : pieces_of (comps p) = pieces_of_parts p.
Proof. unfold pieces_of, pieces_of_parts, comps. cbn. destruct (p_authority p); reflexivity. Qed.

Theorem C80_split sg fuel s p : fits fuel s -> split sg fuel s = Ok (Some p) -> by_regex s = Some (pieces_of_parts p).
Proof. intros F E. destruct (C01_split_sound sg fuel s p F E) as (_ & D & _). rewrite <- pieces_comps. now apply regex_URI. Qed.
Print Assumptions C80_split.
Theorem C80_split_reference sg fuel s p : fits fuel s -> split_reference sg fuel s = Ok (Some p) -> by_regex s = Some (pieces_of_parts p).
Proof.
  intros F E. apply (C04_split_reference sg fuel s p F) in E as [[D|D] _]; rewrite <- pieces_comps; [now apply regex_URI|now apply regex_relative].
Qed.
Print Assumptions C80_split_reference.

(* the authority: whoever takes apart, in whatever sensible way, the text that was found finds the library's userinfo, host and port *)
Lemma decomp_authority s p a : (URI_decomp s (comps p) \/ relative_decomp s (comps p)) -> p_authority p = Some a -> authority_decomp (authority_text (triple a)) (triple a).
Proof.
  intros D E.
  assert (H : exists first sh, hier_decomp first sh (comps p)).
  { destruct D as [(sch & sh & st & _ & _ & _ & H & _)|(sh & st & _ & _ & H & _)]; eauto. }
  destruct H as (first & sh & [(x & sa & sp & EX & _ & A & _)|(EX & _)]); unfold comps in EX; cbn in EX; rewrite E in EX; [|discriminate].
  injection EX as <-. pose proof (authority_free _ _ A) as [-> _]. exact A.
Qed.
Lemma any_reader sg fuel s p r au : fits fuel s -> split sg fuel s = Ok (Some p) \/ split_reference sg fuel s = Ok (Some p) -> by_regex s = Some r -> r_authority r = Some au ->
  exists a, p_authority p = Some a /\ authority_decomp au (triple a).
Proof.
  intros F E R A.
  assert (X : (URI_decomp s (comps p) \/ relative_decomp s (comps p)) /\ by_regex s = Some (pieces_of_parts p)).
  { destruct E as [E|E]; [split; [left; apply (C01_split_sound sg fuel s p F E)|now apply (C80_split sg fuel)]|].
    split; [apply (C04_split_reference sg fuel s p F) in E; apply E|now apply (C80_split_reference sg fuel)]. }
  destruct X as [D X]. rewrite X in R. injection R as <-. cbn in A. destruct (p_authority p) as [a|] eqn:PA; [|discriminate]. injection A as <-.
  exists a. split; [reflexivity|]. now apply (decomp_authority s p).
Qed.
Theorem C80_authority sg fuel s p r au : fits fuel s -> split sg fuel s = Ok (Some p) \/ split_reference sg fuel s = Ok (Some p) -> by_regex s = Some r -> r_authority r = Some au ->
  exists u h po, p_authority p = Some (mkauth u h po) /\ sensible au (u, h, po) /\ forall a', sensible au a' -> a' = (u, h, po).
Proof.
  intros F E R A. destruct (any_reader sg fuel s p r au F E R A) as ([u h po] & PA & D). exists u, h, po. split; [exact PA|]. split; [now apply authority_sensible|].
  intros a'. now apply sensible_unique.
Qed.
Print Assumptions C80_authority.
(* in particular the one that reads from the left and the one that reads from the right *)
Theorem C80_scanners sg fuel s p r au : fits fuel s -> split sg fuel s = Ok (Some p) \/ split_reference sg fuel s = Ok (Some p) -> by_regex s = Some r -> r_authority r = Some au ->
  exists u h po, p_authority p = Some (mkauth u h po) /\ from_left au = (u, h, po) /\ from_right au = (u, h, po).
Proof.
  intros F E R A. destruct (any_reader sg fuel s p r au F E R A) as ([u h po] & PA & D). exists u, h, po. split; [exact PA|]. exact (scanners au _ D).
Qed.
Print Assumptions C80_scanners.

(* the characters over which programs differ (blanks, control characters, backslash, ...) do not occur in what is accepted *)
Theorem C80_characters sg fuel s p : fits fuel s -> split sg fuel s = Ok (Some p) \/ split_reference sg fuel s = Ok (Some p) ->
  Forall (fun c => (0x21 <= code c <= 0x7E)%N /\ ~ In c (ss """<>\^`{|}")) s.
Proof.
  intros F E. assert (X : L URI_reference s).
  { destruct E as [E|E]; [left; apply (C01_split_sound sg fuel s p F E)|]. apply C04_language. exists (comps p). apply (C04_split_reference sg fuel s p F) in E. apply E. }
  revert X. apply uses_only with (f := fun c => (0x21 <=? code c)%N && (code c <=? 0x7E)%N && negb (existsb (Ascii.eqb c) (ss """<>\^`{|}"))); [|vm_compute; reflexivity].
  intros c. rewrite !andb_true_iff, !N.leb_le, negb_true_iff. intros [H N]. split; [exact H|]. intros I.
  assert (K : existsb (Ascii.eqb c) (ss """<>\^`{|}") = true) by (apply existsb_exists; exists c; split; [exact I|apply Ascii.eqb_refl]). congruence.
Qed.
Print Assumptions C80_characters.

(* a text is a URI exactly if it is made up of the pieces the regular expression finds and each of them is what it should be *)
Theorem C80_URI s : L URI s <-> exists r, by_regex s = Some r /\ recompose r = s /\ URI_pieces r.
Proof. exact (URI_by_pieces s). Qed.
Print Assumptions C80_URI.
Theorem C80_relative s : L relative_ref s <-> exists r, by_regex s = Some r /\ recompose r = s /\ relative_pieces r.
Proof. exact (relative_by_pieces s). Qed.
Print Assumptions C80_relative.
(* and split () accepts it exactly if, besides, the host does not begin with an IPv4 address without being one (C02) *)
Theorem C80_accepted sg fuel s : fits fuel s ->
  ((exists p, split sg fuel s = Ok (Some p)) <->
   exists r, by_regex s = Some r /\ recompose r = s /\ URI_pieces r
     /\ match r_authority r with Some au => host_unambiguous (snd (fst (from_left au))) | None => True end).
Proof.
  intros F. split.
  - intros (p & E). pose proof E as I. apply (UriSplit.split_iff sg fuel s p F) in I as [D U]. assert (Y : L URI s) by (apply UriSplit.L_URI; eauto).
    apply C80_URI in Y as (r & R & RC & P). exists r. repeat (split; [assumption|]).
    destruct (r_authority r) as [au|] eqn:RA; [|exact Logic.I]. destruct (C80_scanners sg fuel s p r au F (or_introl E) R RA) as (u & h & po & PA & -> & _).
    cbn [fst snd]. unfold unambiguous, comps in U. cbn in U. rewrite PA in U. exact U.
  - intros (r & R & RC & P & U). assert (Y : L URI s) by (apply C80_URI; eauto). apply UriSplit.L_URI in Y as [c D].
    pose proof (regex_URI s c D) as R'. rewrite R in R'. injection R' as ->. cbn [pieces_of r_authority] in U.
    destruct (C02_split_complete sg fuel s c F D) as (p & E & _); [|now exists p]. unfold unambiguous. destruct (c_authority c) as [[[u h] po]|] eqn:CA; [|exact I]. cbn [option_map] in U.
    assert (A : authority_decomp (authority_text (u, h, po)) (u, h, po)).
    { destruct D as (sch & sh & st & _ & _ & _ & [(x & sa & sp & EX & _ & A & _)|(EX & _)] & _); rewrite CA in EX; [|discriminate].
      injection EX as <-. pose proof (authority_free _ _ A) as [-> _]. exact A. }
    rewrite (proj1 (scanners _ _ A)) in U. exact U.
Qed.
Print Assumptions C80_accepted.

Example C80_ex : let s := ss "http://u:x@[2001:db8::1]:8080/a/b?q?#f" in exists p, fits 100 s /\ split true 100 s = Ok (Some p)
  /\ by_regex s = Some (mkpieces (Some (ss "http")) (Some (ss "u:x@[2001:db8::1]:8080")) (Some (ss "/a/b")) (Some (ss "q?")) (Some (ss "f")))
  /\ sensible (ss "u:x@[2001:db8::1]:8080") (Some (ss "u:x"), ss "[2001:db8::1]", Some (ss "8080")).
Proof.
  cbv zeta. eexists. split; [unfold fits; vm_compute; split; [reflexivity|repeat constructor]|]. split; [vm_compute; reflexivity|]. split; [vm_compute; reflexivity|].
  split; [reflexivity|]. split; [vm_compute; intuition congruence|]. split; [left; exists (ss "2001:db8::1"); reflexivity|]. repeat split; vm_compute; intuition congruence.
Qed.
(* texts over which programs disagree are not accepted *)
Example C80_ex_rejected : split true 100 (ss "http://a@b@c/") = Ok None /\ from_left (ss "a@b@c") <> from_right (ss "a@b@c")
  /\ split true 100 (ss "http://a:1:2/") = Ok None /\ from_left (ss "a:1:2") <> from_right (ss "a:1:2")
  /\ split true 100 (ss "http://good\@evil/") = Ok None /\ split true 100 (ss "http://good.com evil/") = Ok None.
Proof. split; [vm_compute; reflexivity|]. split; [vm_compute; discriminate|]. split; [vm_compute; reflexivity|]. split; [vm_compute; discriminate|]. split; vm_compute; reflexivity. Qed.
