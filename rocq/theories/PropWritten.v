(* PROPERTY THEOREMS: C88 a reference written out.
   Vocabulary: SpecWritten.v (without_dots, origin, up_to, from_here), SpecContinue.v (with_end), SpecUri.v (fits). *)
From Verif Require Import Base ModelRule ModelUri Rfc3986 SpecHost SpecUri SpecParts SpecPath SpecContinue SpecWritten SpecSteps UriSplit PropSplitFacts PathFacts StepsFacts InfluenceFacts ContinueFacts WrittenFacts.
From Coq Require Import Lia.
Local Open Scope list_scope.

Lemma fits_end fuel u v : fits fuel (u ++ v) -> fits fuel v.
Proof. unfold fits. rewrite app_length. lia. Qed.
Lemma fits_begin fuel u v : fits fuel (u ++ v) -> fits fuel u.
Proof. unfold fits. rewrite app_length. lia. Qed.
Lemma join_both sg fuel base ref strict b : split sg fuel base = Ok (Some b) ->
  forall t, join sg fuel base ref strict = Ok (Some t) <-> exists r, split_reference sg fuel ref = Ok (Some r) /\ t = join_parts b r strict.
Proof.
  intros B t. split.
  - intros J. apply join_split in J as (b' & r & B' & R & ->). rewrite B in B'. injection B' as <-. eauto.
  - intros (r & R & ->). unfold join, bind. now rewrite B, R.
Qed.
Definition comps_authority (a : option ModelUri.authority) := match a with Some a => Some (ModelUri.userinfo a, ModelUri.host a, ModelUri.port a) | None => None end.
Lemma comps_same p q : comps p = comps q -> p = q.
Proof. intros E. rewrite <- (parts_of_comps p), <- (parts_of_comps q). now rewrite E. Qed.
Lemma comps_no_authority (a : option ModelUri.authority) : comps_authority a = None -> a = None.
Proof. now destruct a. Qed.
Definition plus_scheme (r : parts) (s : option str) : parts := mkparts s (p_authority r) (p_path r) (p_query r) (p_fragment r).
Definition plus_authority (r : parts) (a : option ModelUri.authority) : parts := mkparts (p_scheme r) a (p_path r) (p_query r) (p_fragment r).

(* --- "//..." : written after the scheme of the base --- *)
Theorem C88_network sg fuel base b s x strict t : fits fuel base -> fits fuel (s ++ ss ":" ++ ss "//" ++ x) ->
  split sg fuel base = Ok (Some b) -> p_scheme b = Some s ->
  (join sg fuel base (ss "//" ++ x) strict = Ok (Some t)
   <-> exists p, split sg fuel (s ++ ss ":" ++ ss "//" ++ x) = Ok (Some p) /\ t = without_dots p).
Proof.
  intros F F' B S. assert (FR : fits fuel (ss "//" ++ x)) by exact (fits_end _ _ _ (fits_end _ _ _ F')). rewrite (join_both sg fuel base (ss "//" ++ x) strict b B t).
  apply split_iff in B as [DB _]; [|exact F]. assert (LS : L scheme s). { destruct DB as (sch & _ & _ & E & LS & _). cbn in E. congruence. }
  assert (K : forall r, split_reference sg fuel (ss "//" ++ x) = Ok (Some r) ->
     p_scheme r = None /\ p_authority r <> None /\ split sg fuel (s ++ ss ":" ++ ss "//" ++ x) = Ok (Some (plus_scheme r (Some s)))).
  { intros r R. apply split_reference_iff in R as [D U]; [|exact FR]. apply (slash_reference (ss "//" ++ x) _ eq_refl) in D. pose proof (two_slashes _ _ D) as A. pose proof D as (_ & _ & NS & _). split; [exact NS|]. split; [cbn in A; now destruct (p_authority r)|].
    apply split_iff; [exact F'|]. split; [|exact U]. apply (slash_scheme s (ss "//" ++ x) _ LS eq_refl). split; [reflexivity|]. destruct r as [sc au pa q f]. cbn in NS. subst sc. exact D. }
  assert (J : forall r, split_reference sg fuel (ss "//" ++ x) = Ok (Some r) -> join_parts b r strict = without_dots (plus_scheme r (Some s))).
  { intros r R. destruct (K r R) as (NS & A & _). rewrite join_loose by exact NS. destruct (p_authority r) as [a|] eqn:EA; [|congruence]. rewrite (join_authority b r a NS EA), S. unfold without_dots, plus_scheme. cbn. now rewrite EA. }
  split.
  - intros (r & R & ->). exists (plus_scheme r (Some s)). split; [apply K, R|]. now apply J.
  - intros (p & P & ->). apply split_iff in P as [D U]; [|exact F']. apply (slash_scheme s (ss "//" ++ x) _ LS eq_refl) in D as [ES D].
    assert (R : split_reference sg fuel (ss "//" ++ x) = Ok (Some (plus_scheme p None))). { apply split_reference_iff; [exact FR|]. split; [right; exact D|exact U]. }
    exists (plus_scheme p None). split; [exact R|]. rewrite (J _ R). cbn in ES. unfold without_dots, plus_scheme. cbn. now rewrite ES.
Qed.
Print Assumptions C88_network.

(* --- "/..." : written after the scheme and the authority of the base --- *)
Theorem C88_root sg fuel base b u x strict t : fits fuel base -> fits fuel (u ++ ss "/" ++ x) -> hd_error x <> Some "/"%char ->
  split sg fuel base = Ok (Some b) -> split sg fuel u = Ok (Some (origin b)) ->
  (join sg fuel base (ss "/" ++ x) strict = Ok (Some t)
   <-> exists p, split sg fuel (u ++ ss "/" ++ x) = Ok (Some p) /\ t = without_dots p).
Proof.
  intros F F' N B O. assert (FR : fits fuel (ss "/" ++ x)) by exact (fits_end _ _ _ F'). rewrite (join_both sg fuel base (ss "/" ++ x) strict b B t).
  apply split_iff in O as [DO UO]; [|exact (fits_begin _ _ _ F')]. assert (N' : forall y, ss "/" ++ x <> ss "//" ++ y). { intros y E. injection E as ->. now elim N. }
  set (ref := ss "/" ++ x) in *. assert (SR : slash_head ref) by reflexivity. clearbody ref.
  assert (K : forall c, unambiguous c -> (URI_decomp (u ++ ref) c <-> c_scheme c = p_scheme b /\ c_authority c = comps_authority (p_authority b) /\ relative_decomp ref (set_authority (set_scheme c None) None))).
  { intros c U. destruct DO as (sch & sh & st & ES & LS & -> & H & T). destruct T as (-> & _). cbn [opt_pre app comps origin p_query p_fragment c_query c_fragment]. rewrite app_nil_r, <- !app_assoc. cbn in ES.
    destruct H as [(a & sa & sp & A & -> & D & P)|(A & P)]; cbn in A.
    - assert (sp = []) as -> by (destruct P as (-> & _); reflexivity). rewrite app_nil_r, <- !app_assoc. rewrite (slash_authority sch sa a ref c LS D SR N'), ES. unfold comps_authority. now rewrite A.
    - assert (sh = []) as ->. { destruct P as [(X & _)|[(_ & y & l & X & _)|(-> & _)]]; [discriminate X|discriminate X|reflexivity]. }
      cbn [app]. rewrite (slash_scheme sch ref c LS SR), ES. unfold comps_authority. rewrite A. split.
      + intros [E D]. pose proof (one_slash ref _ SR N' D) as (X & _). cbn in X. split; [exact E|]. split; [exact X|]. destruct c as [a1 a2 a3 a4 a5 a6]. cbn in X. subst a2. exact D.
      + intros (E & E' & D). split; [exact E|]. destruct c as [a1 a2 a3 a4 a5 a6]. cbn in E'. subst a2. exact D. }
  assert (J : forall r, split_reference sg fuel ref = Ok (Some r) -> p_scheme r = None /\ p_authority r = None
     /\ relative_decomp ref (comps r) /\ join_parts b r strict = without_dots (plus_authority (plus_scheme r (p_scheme b)) (p_authority b))).
  { intros r R. apply split_reference_iff in R as [D U]; [|exact FR]. apply (slash_reference _ _ SR) in D. pose proof (one_slash _ _ SR N' D) as (NA & B1 & NE). pose proof D as (_ & _ & NS & _). cbn in NA, B1, NE, NS.
    apply (comps_no_authority (p_authority r)) in NA. split; [exact NS|]. split; [exact NA|]. split; [exact D|]. rewrite join_loose by exact NS. now rewrite (join_root b r NS NA NE B1). }
  split.
  - intros (r & R & ->). destruct (J r R) as (NS & NA & D & ->). exists (plus_authority (plus_scheme r (p_scheme b)) (p_authority b)). split; [|reflexivity]. apply split_iff; [exact F'|].
    assert (U : unambiguous (comps (plus_authority (plus_scheme r (p_scheme b)) (p_authority b)))) by exact UO. split; [|exact U]. apply (K _ U). split; [reflexivity|]. split; [reflexivity|].
    destruct r as [sc au pa q f]. cbn in NS, NA. subst sc au. exact D.
  - intros (p & P & ->). apply split_iff in P as [D U]; [|exact F']. apply (K _ U) in D as (ES & EA & D).
    assert (R : split_reference sg fuel ref = Ok (Some (plus_authority (plus_scheme p None) None))). { apply split_reference_iff; [exact FR|]. split; [right; exact D|exact I]. }
    exists (plus_authority (plus_scheme p None) None). split; [exact R|]. destruct (J _ R) as (_ & _ & _ & ->). cbn in ES. unfold without_dots, plus_authority, plus_scheme. cbn. rewrite ES.
    assert (p_authority p = p_authority b) as -> by (apply comps_auth; exact EA). reflexivity.
Qed.
Print Assumptions C88_root.

(* --- a path that does not begin with "/" : written after the last "/" of the path of the base --- *)
Theorem C88_from_here sg fuel base b u d x ref r strict : fits fuel base -> fits fuel (u ++ ref) ->
  split sg fuel base = Ok (Some b) -> segments (p_path b) = d ++ [x] -> d <> [] -> split sg fuel u = Ok (Some (up_to b d)) ->
  split_reference sg fuel ref = Ok (Some r) -> from_here r ->
  exists p, split sg fuel (u ++ ref) = Ok (Some p) /\ join sg fuel base ref strict = Ok (Some (without_dots p)).
Proof.
  intros F F' B S N O R (H1 & H2 & H3 & H4).
  exists (mkparts (p_scheme b) (p_authority b) (mkpath (absolute (p_path b)) (d ++ segments (p_path r))) (p_query r) (p_fragment r)). split.
  - apply split_iff in O as [DO UO]; [|exact (fits_begin _ _ _ F')]. apply split_reference_iff in R as [DR _]; [|exact (fits_end _ _ _ F')]. apply split_iff; [exact F'|]. split; [|exact UO].
    refine (onward u (comps (up_to b d)) d ref (comps r) DO eq_refl eq_refl eq_refl (or_introl N) DR H1 _ H3 H4). cbn. now rewrite H2.
  - apply (join_both sg fuel base ref strict b B). exists r. split; [exact R|]. rewrite join_loose by exact H1. rewrite (join_rest b r H1 H2 H3 H4), merge_directory. rewrite (directory_snoc (p_path b) d x S N). rewrite S.
    unfold without_dots. cbn [p_scheme p_authority p_path p_query p_fragment]. f_equal. f_equal. destruct (p_authority b); [|reflexivity]. destruct (d ++ [x]) eqn:Z; [destruct d; discriminate|reflexivity].
Qed.
Print Assumptions C88_from_here.
(* ... after "/" if the base has an authority and no path *)
Theorem C88_from_host sg fuel base b u ref r strict : fits fuel base -> fits fuel (u ++ ss "/" ++ ref) ->
  split sg fuel base = Ok (Some b) -> segments (p_path b) = [] -> p_authority b <> None -> split sg fuel u = Ok (Some (origin b)) ->
  split_reference sg fuel ref = Ok (Some r) -> from_here r ->
  exists p, split sg fuel (u ++ ss "/" ++ ref) = Ok (Some p) /\ join sg fuel base ref strict = Ok (Some (without_dots p)).
Proof.
  intros F F' B S A O R (H1 & H2 & H3 & H4).
  exists (mkparts (p_scheme b) (p_authority b) (mkpath true (segments (p_path r))) (p_query r) (p_fragment r)). split.
  - apply split_iff in O as [DO UO]; [|exact (fits_begin _ _ _ F')]. apply split_reference_iff in R as [DR _]; [|exact (fits_end _ _ _ (fits_end _ _ _ F'))]. apply split_iff; [exact F'|]. split; [|exact UO].
    rewrite app_assoc. assert (A' : comps_authority (p_authority b) <> None) by (now destruct (p_authority b)).
    refine (onward (u ++ ss "/") (mkcomponents (p_scheme b) (comps_authority (p_authority b)) true [[]] None None) [] ref (comps r) _ eq_refl eq_refl eq_refl (or_intror A') DR H1 _ H3 H4); [|cbn; now rewrite H2].
    destruct DO as (sch & sh & st & ES & LS & -> & [(a & sa & sp & E & -> & D & P)|(E & _)] & T); [|elim A'; exact E].
    assert (sp = []) as -> by (destruct P as (-> & _); reflexivity). destruct T as (-> & _). cbn [opt_pre app comps origin p_query p_fragment c_query c_fragment]. rewrite !app_nil_r, <- !app_assoc. exists sch, (ss "//" ++ sa ++ ss "/"), []. split; [exact ES|]. split; [exact LS|]. split; [now rewrite app_nil_r|]. split; [|repeat split].
    left. exists a, sa, (ss "/"). split; [exact E|]. split; [reflexivity|]. split; [exact D|]. split; [reflexivity|]. split; [repeat constructor; exact empty_segment|reflexivity].
  - apply (join_both sg fuel base ref strict b B). exists r. split; [exact R|]. rewrite join_loose by exact H1. rewrite (join_rest b r H1 H2 H3 H4), merge_directory. unfold directory. rewrite S. destruct (p_authority b); [|congruence]. reflexivity.
Qed.
Print Assumptions C88_from_host.
(* ... after ":" if the base has neither *)
Theorem C88_from_scheme sg fuel base b s ref r strict : fits fuel base -> fits fuel (s ++ ss ":" ++ ref) ->
  split sg fuel base = Ok (Some b) -> p_scheme b = Some s -> segments (p_path b) = [] -> p_authority b = None ->
  split_reference sg fuel ref = Ok (Some r) -> from_here r ->
  exists p, split sg fuel (s ++ ss ":" ++ ref) = Ok (Some p) /\ join sg fuel base ref strict = Ok (Some (without_dots p)).
Proof.
  intros F F' B ES S A R (H1 & H2 & H3 & H4). exists (plus_scheme r (Some s)). pose proof R as R'. apply split_reference_iff in R' as [DR UR]; [|exact (fits_end _ _ _ (fits_end _ _ _ F'))].
  pose proof B as B'. apply split_iff in B' as [DB _]; [|exact F]. assert (LS : L scheme s). { destruct DB as (sch & _ & _ & E & LS & _). cbn in E. congruence. } split.
  - apply split_iff; [exact F'|]. split; [|exact UR]. refine (onward_scheme s ref (comps r) LS DR H1 _ H3 H4). cbn. now rewrite H2.
  - apply (join_both sg fuel base ref strict b B). exists r. split; [exact R|]. rewrite join_loose by exact H1. rewrite (join_rest b r H1 H2 H3 H4), merge_directory. unfold directory. rewrite S, A, ES.
    assert (Ab : absolute (p_path b) = false). { destruct DB as (_ & sh & st & _ & _ & _ & [(? & _ & _ & E & _)|(_ & [(_ & _ & [E|(? & ? & E & _)])|[(E & _)|(_ & E & _)]])] & _); cbn in E; rewrite ?A, ?S in E; congruence. }
    rewrite Ab. unfold without_dots, plus_scheme. cbn. rewrite H2. f_equal. f_equal. destruct (p_path r) as [a l]. cbn in H4. now subst a.
Qed.
Print Assumptions C88_from_scheme.

(* --- "?...", "#..." and "" : written after the base without its query and fragment, or without its fragment --- *)
Lemma empty_reference : reference_decomp [] (comps empty_parts).
Proof. right. exists [], []. split; [reflexivity|]. split; [reflexivity|]. split; [|repeat split]. right. split; [reflexivity|]. right; right. repeat split. Qed.
Lemma tail_reference sg fuel q f : fits fuel (tail q f) -> in_opt query q -> in_opt fragment f -> split_reference sg fuel (tail q f) = Ok (Some (with_end empty_parts q f)).
Proof.
  intros F Q G. apply split_reference_iff; [exact F|]. split; [|exact I]. apply (continue_tail [] (comps empty_parts) (tail q f) _ empty_reference eq_refl eq_refl (nohd_tl q f)). exists q, f. auto.
Qed.
Lemma tail_reference_inv sg fuel s r : fits fuel s -> PegLang.nohd (SpecRegex.none_of "?#") s -> split_reference sg fuel s = Ok (Some r) -> exists q f, s = tail q f /\ in_opt query q /\ in_opt fragment f /\ r = with_end empty_parts q f.
Proof.
  intros F N R. apply split_reference_iff in R as [D _]; [|exact F]. apply (continue_tail [] (comps empty_parts) s _ empty_reference eq_refl eq_refl N) in D as (q & f & E & Q & G & C). exists q, f. repeat split; try assumption. now apply comps_same.
Qed.
Theorem C88_query sg fuel base b u x strict t : fits fuel base -> fits fuel (u ++ ss "?" ++ x) ->
  split sg fuel base = Ok (Some b) -> split sg fuel u = Ok (Some (with_end b None None)) ->
  (join sg fuel base (ss "?" ++ x) strict = Ok (Some t) <-> split sg fuel (u ++ ss "?" ++ x) = Ok (Some t)).
Proof.
  intros F F' B O. pose proof (fits_end _ _ _ F') as FR. rewrite (join_both sg fuel base _ strict b B t). apply split_iff in O as [DO UO]; [|exact (fits_begin _ _ _ F')].
  rewrite (split_iff sg fuel _ _ F'). split.
  - intros (r & R & ->). apply tail_reference_inv in R as (q & f & E & Q & G & ->); [|exact FR|reflexivity]. rewrite join_loose by reflexivity. rewrite join_same by reflexivity. cbn [with_end p_query p_fragment].
    destruct q as [q|]; [|destruct f; discriminate E].
    assert (D : reference_decomp (u ++ ss "?" ++ x) (comps (with_end b (Some q) f))). { apply (continue_tail u _ _ _ (or_introl DO) eq_refl eq_refl); [reflexivity|]. exists (Some q), f. auto. }
    split; [|exact UO]. apply (same_kind u _ _ _ (or_introl DO) D eq_refl). exact DO.
  - intros [D U]. pose proof (proj1 (continue_tail u _ (ss "?" ++ x) _ (or_introl DO) eq_refl eq_refl eq_refl) (or_introl D)) as (q & f & E & Q & G & C).
    exists (with_end empty_parts q f). rewrite E in FR |- *. split; [now apply tail_reference|]. rewrite join_loose by reflexivity. rewrite join_same by reflexivity. cbn [with_end p_query p_fragment].
    destruct q as [q|]; [|destruct f; discriminate E]. now apply comps_same.
Qed.
Print Assumptions C88_query.
Theorem C88_fragment sg fuel base b u x strict t : fits fuel base -> fits fuel (u ++ ss "#" ++ x) ->
  split sg fuel base = Ok (Some b) -> split sg fuel u = Ok (Some (with_end b (p_query b) None)) ->
  (join sg fuel base (ss "#" ++ x) strict = Ok (Some t) <-> split sg fuel (u ++ ss "#" ++ x) = Ok (Some t)).
Proof.
  intros F F' B O. pose proof (fits_end _ _ _ F') as FR. rewrite (join_both sg fuel base _ strict b B t). apply split_iff in O as [DO UO]; [|exact (fits_begin _ _ _ F')].
  rewrite (split_iff sg fuel _ _ F'). split.
  - intros (r & R & ->). apply tail_reference_inv in R as (q & f & E & Q & G & ->); [|exact FR|reflexivity]. rewrite join_loose by reflexivity. rewrite join_same by reflexivity. cbn [with_end p_query p_fragment].
    destruct q as [q|]; [discriminate E|]. destruct f as [f|]; [|discriminate E]. injection E as ->.
    assert (D : reference_decomp (u ++ ss "#" ++ f) (comps (with_end b (p_query b) (Some f)))). { apply (continue_fragment u _ f _ (or_introl DO) eq_refl). split; [exact G|reflexivity]. }
    split; [|exact UO]. apply (same_kind u _ _ _ (or_introl DO) D eq_refl). exact DO.
  - intros [D U]. pose proof (proj1 (continue_fragment u _ x _ (or_introl DO) eq_refl) (or_introl D)) as (G & C).
    exists (with_end empty_parts None (Some x)). split; [now apply (tail_reference sg fuel None (Some x))|]. rewrite join_loose by reflexivity. rewrite join_same by reflexivity. now apply comps_same.
Qed.
Print Assumptions C88_fragment.
Theorem C88_empty sg fuel base b strict : split sg fuel base = Ok (Some b) -> fits fuel base ->
  join sg fuel base [] strict = Ok (Some (with_end b (p_query b) None)).
Proof.
  intros B F. apply (join_both sg fuel base _ strict b B). exists empty_parts. split; [|rewrite join_loose by reflexivity; now rewrite join_same by reflexivity].
  apply (tail_reference sg fuel None None); [unfold fits in *; cbn; lia|exact I|exact I].
Qed.
Print Assumptions C88_empty.
(* --- with a scheme: as it stands --- *)
Theorem C88_absolute sg fuel base b ref t : fits fuel ref -> split sg fuel base = Ok (Some b) ->
  (exists p, split sg fuel ref = Ok (Some p)) ->
  (join sg fuel base ref true = Ok (Some t) <-> exists p, split sg fuel ref = Ok (Some p) /\ t = without_dots p).
Proof.
  intros F B (p0 & P0). rewrite (join_both sg fuel base _ true b B t). assert (R : split_reference sg fuel ref = Ok (Some p0)). { apply split_iff in P0 as [D U]; [|exact F]. apply split_reference_iff; [exact F|]. split; [now left|exact U]. }
  assert (S : exists s, p_scheme p0 = Some s). { apply split_iff in P0 as [D U]; [|exact F]. destruct D as (s & _ & _ & E & _). eauto. } destruct S as [s S].
  split.
  - intros (r & R' & ->). rewrite R in R'. injection R' as <-. exists p0. split; [exact P0|]. rewrite (join_scheme b p0 s S). unfold without_dots. now rewrite S.
  - intros (p & P & ->). rewrite P in P0. injection P0 as ->. exists p0. split; [exact R|]. rewrite (join_scheme b p0 s S). unfold without_dots. now rewrite S.
Qed.
Print Assumptions C88_absolute.
(* a base resolved against itself *)
Theorem C88_itself sg fuel base b : fits fuel base -> split sg fuel base = Ok (Some b) -> join sg fuel base base true = Ok (Some (without_dots b)).
Proof. intros F B. apply (C88_absolute sg fuel base b base _ F B); eauto. Qed.
Print Assumptions C88_itself.

(* --- every base has the texts that are spoken of above: they are its beginnings --- *)
Theorem C88_beginnings sg fuel base b : fits fuel base -> split sg fuel base = Ok (Some b) ->
  (exists u v, base = u ++ v /\ split sg fuel u = Ok (Some (origin b)))
  /\ (forall d x, segments (p_path b) = d ++ [x] -> d <> [] ->
        exists u, base = u ++ x ++ opt_pre (ss "?") (p_query b) ++ opt_pre (ss "#") (p_fragment b) /\ split sg fuel u = Ok (Some (up_to b d)))
  /\ (exists u, base = u ++ opt_pre (ss "?") (p_query b) ++ opt_pre (ss "#") (p_fragment b) /\ split sg fuel u = Ok (Some (with_end b None None)))
  /\ (exists u, base = u ++ opt_pre (ss "#") (p_fragment b) /\ split sg fuel u = Ok (Some (with_end b (p_query b) None))).
Proof.
  intros F B. apply split_iff in B as [D U]; [|exact F]. split; [|split; [|split]].
  - destruct (origin_text base _ D) as (u & v & E & D'). exists u, v. split; [exact E|]. subst base. apply split_iff; [exact (fits_begin _ _ _ F)|]. split; [exact D'|exact U].
  - intros d x S N. destruct (up_to_text base _ d x D S N) as (u & E & D'). exists u. split; [exact E|]. rewrite E in F. apply split_iff; [exact (fits_begin _ _ _ F)|]. split; [exact D'|exact U].
  - destruct (stem_ref base _ (or_introl D)) as (m & E & _ & _ & _ & K). exists m. split; [exact E|]. rewrite E in F. apply split_iff; [exact (fits_begin _ _ _ F)|]. split; [|exact U].
    destruct (K None None I I) as [K' _]. unfold tail in K'. cbn in K'. rewrite app_nil_r in K'. exact (K' D).
  - destruct (stem_ref base _ (or_introl D)) as (m & E & _ & Q & _ & K). exists (m ++ opt_pre (ss "?") (p_query b)). rewrite <- app_assoc. split; [exact E|]. unfold tail in E. rewrite app_assoc in E. rewrite E in F. apply split_iff; [exact (fits_begin _ _ _ F)|]. split; [|exact U].
    destruct (K (p_query b) None Q I) as [K' _]. unfold tail in K'. cbn [opt_pre] in K'. rewrite app_nil_r in K'. exact (K' D).
Qed.
Print Assumptions C88_beginnings.

(* the hypotheses hold together, and what the theorems say of RFC 3986's base *)
Example C88_ex : exists b, split true 200 (ss "http://a/b/c/d;p?q#f") = Ok (Some b)
  /\ split true 200 (ss "http://a") = Ok (Some (origin b)) /\ split true 200 (ss "http://a/b/c/") = Ok (Some (up_to b [ss "b"; ss "c"]))
  /\ split true 200 (ss "http://a/b/c/d;p") = Ok (Some (with_end b None None)) /\ split true 200 (ss "http://a/b/c/d;p?q") = Ok (Some (with_end b (p_query b) None))
  /\ (exists r p, split_reference true 200 (ss "../g?y#z") = Ok (Some r) /\ from_here r
       /\ split true 200 (ss "http://a/b/c/" ++ ss "../g?y#z") = Ok (Some p) /\ compose (without_dots p) = ss "http://a/b/g?y#z"
       /\ join true 200 (ss "http://a/b/c/d;p?q#f") (ss "../g?y#z") true = Ok (Some (without_dots p)))
  /\ (exists p, split true 200 (ss "http:" ++ ss "//g/./h") = Ok (Some p) /\ join true 200 (ss "http://a/b/c/d;p?q#f") (ss "//g/./h") true = Ok (Some (without_dots p)) /\ compose (without_dots p) = ss "http://g/h")
  /\ (exists p, split true 200 (ss "http://a" ++ ss "/g/../h") = Ok (Some p) /\ join true 200 (ss "http://a/b/c/d;p?q#f") (ss "/g/../h") false = Ok (Some (without_dots p)) /\ compose (without_dots p) = ss "http://a/h")
  /\ split true 200 (ss "http://a/b/c/d;p" ++ ss "?y#z") = join true 200 (ss "http://a/b/c/d;p?q#f") (ss "?y#z") true
  /\ split true 200 (ss "http://a/b/c/d;p?q" ++ ss "#z") = join true 200 (ss "http://a/b/c/d;p?q#f") (ss "#z") true.
Proof.
  exists (mkparts (Some (ss "http")) (Some (mkauth None (ss "a") None)) (mkpath true [ss "b"; ss "c"; ss "d;p"]) (Some (ss "q")) (Some (ss "f"))).
  split; [vm_compute; reflexivity|]. split; [vm_compute; reflexivity|]. split; [vm_compute; reflexivity|]. split; [vm_compute; reflexivity|]. split; [vm_compute; reflexivity|].
  split. { exists (mkparts None None (mkpath false [ss ".."; ss "g"]) (Some (ss "y")) (Some (ss "z"))), (mkparts (Some (ss "http")) (Some (mkauth None (ss "a") None)) (mkpath true [ss "b"; ss "c"; ss ".."; ss "g"]) (Some (ss "y")) (Some (ss "z"))).
    split; [vm_compute; reflexivity|]. split; [repeat split; discriminate|]. vm_compute. repeat split. }
  split. { exists (mkparts (Some (ss "http")) (Some (mkauth None (ss "g") None)) (mkpath true [ss "."; ss "h"]) None None). vm_compute. repeat split. }
  split. { exists (mkparts (Some (ss "http")) (Some (mkauth None (ss "a") None)) (mkpath true [ss "g"; ss ".."; ss "h"]) None None). vm_compute. repeat split. }
  vm_compute. repeat split.
Qed.
Example C88_ex_host : (exists b, split true 200 (ss "http://a?q") = Ok (Some b) /\ segments (p_path b) = [] /\ p_authority b <> None /\ split true 200 (ss "http://a") = Ok (Some (origin b)))
  /\ (exists t, join true 200 (ss "http://a?q") (ss "g/h") true = Ok (Some t) /\ compose t = ss "http://a/g/h")
  /\ (exists b, split true 200 (ss "a:?q") = Ok (Some b) /\ p_scheme b = Some (ss "a") /\ segments (p_path b) = [] /\ p_authority b = None)
  /\ (exists t, join true 200 (ss "a:?q") (ss "g/h") true = Ok (Some t) /\ compose t = ss "a:g/h").
Proof.
  split. { exists (mkparts (Some (ss "http")) (Some (mkauth None (ss "a") None)) (mkpath false []) (Some (ss "q")) None). split; [vm_compute; reflexivity|]. split; [reflexivity|]. split; [discriminate|vm_compute; reflexivity]. }
  split. { exists (mkparts (Some (ss "http")) (Some (mkauth None (ss "a") None)) (mkpath true [ss "g"; ss "h"]) None None). vm_compute. repeat split. }
  split. { exists (mkparts (Some (ss "a")) None (mkpath false []) (Some (ss "q")) None). vm_compute. repeat split. }
  exists (mkparts (Some (ss "a")) None (mkpath false [ss "g"; ss "h"]) None None). vm_compute. repeat split.
Qed.
(* not for a base whose path is one segment: written out, "g" after "http://a/" is "http://a/g" *)
Theorem C88_one_segment_refuted : ~ (forall base b u d x ref r strict, split true 200 base = Ok (Some b) -> segments (p_path b) = d ++ [x] -> split true 200 u = Ok (Some (up_to b d)) ->
  split_reference true 200 ref = Ok (Some r) -> from_here r ->
  exists p, split true 200 (u ++ ref) = Ok (Some p) /\ join true 200 base ref strict = Ok (Some (without_dots p))).
Proof.
  intros H. destruct (H (ss "http://a/b") (mkparts (Some (ss "http")) (Some (mkauth None (ss "a") None)) (mkpath true [ss "b"]) None None) (ss "http://a/") [] (ss "b") (ss "g")
    (mkparts None None (mkpath false [ss "g"]) None None) true) as (p & P & J); [vm_compute; reflexivity|reflexivity|vm_compute; reflexivity|vm_compute; reflexivity|repeat split; discriminate|].
  assert (E : split true 200 (ss "http://a/" ++ ss "g") = Ok (Some (mkparts (Some (ss "http")) (Some (mkauth None (ss "a") None)) (mkpath true [ss "g"]) None None))) by (vm_compute; reflexivity).
  rewrite E in P. injection P as <-.
  assert (E' : join true 200 (ss "http://a/b") (ss "g") true = Ok (Some (mkparts (Some (ss "http")) (Some (mkauth None (ss "a") None)) (mkpath true [ss "b"; ss "g"]) None None))) by (vm_compute; reflexivity).
  rewrite E' in J. discriminate J.
Qed.
Print Assumptions C88_one_segment_refuted.
(* a base resolved against itself without strict: the directory is doubled *)
Theorem C88_itself_loose_refuted : ~ (forall base b, split true 200 base = Ok (Some b) -> join true 200 base base false = Ok (Some (without_dots b))).
Proof.
  intros H. specialize (H (ss "a:b/c") (mkparts (Some (ss "a")) None (mkpath false [ss "b"; ss "c"]) None None)).
  assert (E' : join true 200 (ss "a:b/c") (ss "a:b/c") false = Ok (Some (mkparts (Some (ss "a")) None (mkpath false [ss "b"; ss "b"; ss "c"]) None None))) by (vm_compute; reflexivity).
  rewrite E' in H. discriminate (H ltac:(vm_compute; reflexivity)).
Qed.
Print Assumptions C88_itself_loose_refuted.
