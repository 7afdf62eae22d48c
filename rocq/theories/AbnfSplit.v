From Verif Require Import Base ModelUri Rfc3986 SpecHost SpecParts SpecUri SpecAbnf UriSplit UriProps UriStruct PropSplitFacts.
Lemma abnf_split sg fuel s G : (derives G (ERef (ss "URI")) s <-> L URI s) -> (derives G (ERef (ss "URI-reference")) s <-> L URI_reference s) ->
  (fits fuel s -> ((exists p, split sg fuel s = Ok (Some p)) <-> derives G (ERef (ss "URI")) s /\ forall c, URI_decomp s c -> unambiguous c))
  /\ (fits fuel s -> ((exists p, split_reference sg fuel s = Ok (Some p)) <-> derives G (ERef (ss "URI-reference")) s /\ forall c, reference_decomp s c -> unambiguous c)).
Proof.
  intros H1 H2. split; intros F.
  - rewrite H1, (uri_has_decomp s). split.
    + intros [p E]. apply split_iff in E; auto. destruct E as [D U]. split; [eauto|]. intros c Dc. now rewrite (URI_unique s c (comps p)).
    + intros [[c D] U]. destruct (split_complete sg fuel s c F D (U c D)) as (p & E & _). eauto.
  - rewrite H2, (reference_has_decomp s). split.
    + intros [p E]. apply split_reference_spec in E; auto. destruct E as [D U]. split; [eauto|]. intros c Dc. now rewrite (reference_unique s c (comps p) Dc D).
    + intros [[c D] U]. exists (parts_of c). apply split_reference_spec; auto. rewrite comps_parts_of. split; [exact D|]. apply U. exact D.
Qed.
