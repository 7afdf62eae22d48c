(* PROPERTY THEOREMS: the grammar that the project ships (C59).  [file] is what read_grammar makes of the text of
   systemtests/uri.abnf (AbnfText.v) followed by the core rules of RFC 5234; derives is the language of a rule (SpecAbnf.v). *)
From Verif Require Import Base ModelUri Rfc3986 SpecHost SpecUri SpecAbnf AbnfText AbnfFacts PropSplitFacts ModelTool SpecTool ToolFacts AbnfSplit.
From Coq Require Import Lia.
Local Open Scope string_scope.

(* The text is a grammar, and its rules are those of RFC 3986 as C01-C08 use them. *)
Definition rfc_rules : list (string * abnf) :=
  [("URI", URI); ("hier-part", hier_part); ("URI-reference", URI_reference); ("relative-ref", relative_ref); ("relative-part", relative_part); ("scheme", scheme);
   ("authority", authority); ("userinfo", userinfo); ("host", host); ("port", port); ("IP-literal", IP_literal); ("IPvFuture", IPvFuture);
   ("IPv6address", IPv6address); ("h16", h16); ("ls32", ls32); ("IPv4address", IPv4address); ("dec-octet", dec_octet); ("reg-name", reg_name);
   ("path-abempty", path_abempty); ("path-absolute", path_absolute); ("path-noscheme", path_noscheme); ("path-rootless", path_rootless);
   ("path-empty", path_empty); ("segment", segment); ("segment-nz", segment_nz); ("segment-nz-nc", segment_nz_nc); ("pchar", pchar);
   ("query", query); ("fragment", fragment); ("pct-encoded", pct_encoded); ("unreserved", unreserved); ("sub-delims", sub_delims)].
Definition grammar : rules := match file with Some G => G | None => [] end.
Theorem C59_rules : file = Some grammar /\ length grammar = 39
  /\ forall n g, In (n, g) rfc_rules -> forall s, derives grammar (ERef (ss n)) s <-> L g s.
Proof.
  split; [vm_compute; reflexivity|]. split; [vm_compute; reflexivity|]. intros n g H.
  assert (U : unique grammar = true) by (vm_compute; reflexivity).
  assert (E : Forall (fun x => option_map norm (expand 60 grammar (ERef (ss (fst x)))) = Some (norm (snd x))) rfc_rules).
  { repeat (apply Forall_cons; [vm_compute; reflexivity|]). apply Forall_nil. }
  rewrite Forall_forall in E. exact (same_lang grammar (ss n) g U (E _ H)).
Qed.
Print Assumptions C59_rules.
(* split takes exactly what "URI" derives, and split_reference what "URI-reference" derives, but for the hosts of C02. *)
Theorem C59_split sg fuel s : fits fuel s ->
  ((exists p, split sg fuel s = Ok (Some p)) <-> derives grammar (ERef (ss "URI")) s /\ forall c, URI_decomp s c -> unambiguous c).
Proof. exact (proj1 (abnf_split sg fuel s grammar (proj2 (proj2 C59_rules) "URI" URI (or_introl eq_refl) s) (proj2 (proj2 C59_rules) "URI-reference" URI_reference (or_intror (or_intror (or_introl eq_refl))) s))). Qed.
Print Assumptions C59_split.
Theorem C59_split_reference sg fuel s : fits fuel s ->
  ((exists p, split_reference sg fuel s = Ok (Some p)) <-> derives grammar (ERef (ss "URI-reference")) s /\ forall c, reference_decomp s c -> unambiguous c).
Proof. exact (proj2 (abnf_split sg fuel s grammar (proj2 (proj2 C59_rules) "URI" URI (or_introl eq_refl) s) (proj2 (proj2 C59_rules) "URI-reference" URI_reference (or_intror (or_intror (or_introl eq_refl))) s))). Qed.
Print Assumptions C59_split_reference.
(* systemtests/test generates texts from "URI-reference" and hands them to uri-split; but uri-split takes URIs only.  "It
   succeeds on whatever the grammar's URI-reference derives" is false. *)
Theorem C59_system_test_refuted : exists s, derives grammar (ERef (ss "URI-reference")) s
  /\ uri_split true 100 [] [Some s] = Ok (ss "URI: a/b" ++ [SpecTool.newline], false)%list.
Proof.
  exists (ss "a/b"). split; [|vm_compute; reflexivity].
  apply (C59_split_reference true 100 (ss "a/b")); [split; [reflexivity|apply Nat.leb_le; reflexivity]|]. eexists. vm_compute. reflexivity.
Qed.
Print Assumptions C59_system_test_refuted.
Example C59_ex : derives grammar (ERef (ss "uri")) (ss "http://u@[::1]:80/a/%41?q#f") /\ derives grammar (ERef (ss "URI-reference")) (ss "//h/a:b")
  /\ ~ derives grammar (ERef (ss "URI")) (ss "1http:x") /\ In ("URI-reference", URI_reference) rfc_rules.
Proof.
  assert (F : forall s, Nat.leb (length s) 99 = true -> fits 100 s).
  { intros s H. apply Nat.leb_le in H. split; lia. }
  split; [|split; [|split]].
  - assert (D : derives grammar (ERef (ss "URI")) (ss "http://u@[::1]:80/a/%41?q#f")).
    { apply (C59_split true 100); [apply F; reflexivity|]. eexists. vm_compute. reflexivity. }
    inversion D; subst. eapply d_ref; [eassumption| |eassumption]. unfold same_name in *. rewrite <- H1. reflexivity.
  - apply (C59_split_reference true 100); [apply F; reflexivity|]. eexists. vm_compute. reflexivity.
  - intros D. apply (proj2 (proj2 C59_rules) "URI" URI (or_introl eq_refl)) in D. apply uri_has_decomp in D. destruct D as (c & sch & sh & st & _ & (c1 & s2 & -> & L1 & _) & E & _).
    destruct L1 as [(x & -> & H)|(x & -> & H)]; cbn in E; injection E as <- _; destruct H as [H _]; vm_compute in H; now apply H.
  - right. right. left. reflexivity.
Qed.
