(* References written out: proofs for C88. *)
From Verif Require Import Base ModelUri Rfc3986 SpecHost SpecUri SpecParts SpecRegex SpecPath SpecConfine SpecContinue SpecWritten Peg PegLang PegUri UriHost UriSplit RegexUri PropSplitFacts
  SpecSteps PathFacts StepsFacts InfluenceFacts ContinueFacts.
From Coq Require Import Lia.
Local Open Scope list_scope.

Lemma join_loose b r strict : p_scheme r = None -> join_parts b r strict = join_parts b r true.
Proof. intros E. rewrite !join_eff. unfold eff. rewrite E. now destruct (negb strict && _), (negb true && _). Qed.

(* --- texts that begin with "/" --- *)
Definition slash_head (s : str) : Prop := hd_error s = Some "/"%char.
Lemma first_noslash first x y : (first = segment_nz \/ first = segment_nz_nc) -> L first x -> ~ slash_head (x ++ y).
Proof.
  intros Fi X. destruct (to_segment first x Fi X) as [S N]. apply segment_free in S. destruct x as [|d x]; [congruence|]. intros E. injection E as ->. apply Forall_inv in S. discriminate S.
Qed.
Lemma tail_noslash st c : tail_decomp st c -> ~ slash_head st.
Proof. intros (-> & _). destruct (c_query c); [discriminate|]. destruct (c_fragment c); discriminate. Qed.
Lemma hier_swap first first' sh st c : (first = segment_nz \/ first = segment_nz_nc) -> slash_head (sh ++ st) -> tail_decomp st c -> hier_decomp first sh c -> hier_decomp first' sh c.
Proof.
  intros Fi S T [H|(A & [H|[H|H]])]; [now left|right; split; auto..].
  - destruct H as (_ & x & rest & _ & -> & X & _). elim (first_noslash first x (slashed rest ++ st) Fi X). now rewrite app_assoc.
Qed.
Definition set_scheme (c : components) (s : option str) : components := mkcomponents s (c_authority c) (c_absolute c) (c_segments c) (c_query c) (c_fragment c).
Lemma hier_scheme first sh c s : hier_decomp first sh c -> hier_decomp first sh (set_scheme c s). Proof. exact (fun H => H). Qed.
Lemma tail_scheme st c s : tail_decomp st c -> tail_decomp st (set_scheme c s). Proof. exact (fun H => H). Qed.
Lemma scheme_cut s s' x x' : L scheme s -> L scheme s' -> s ++ ss ":" ++ x = s' ++ ss ":" ++ x' -> s = s' /\ x = x'.
Proof.
  intros A B E. apply scheme_free_chars in A as [_ A]. apply scheme_free_chars in B as [_ B].
  assert (s = s') as <- by (eapply (cut_at (none_of ":/?#")); [exact A|exact B| | |exact E]; reflexivity).
  split; [reflexivity|]. apply app_inv_head in E. now injection E.
Qed.
Lemma slash_reference ref c : slash_head ref -> reference_decomp ref c <-> relative_decomp ref c.
Proof.
  intros S. split; [|now right]. intros [(sch & sh & st & _ & LS & -> & _)|D]; [|exact D]. apply scheme_free_chars in LS as [N F]. destruct sch as [|d sch]; [congruence|]. injection S as ->. apply Forall_inv in F. discriminate F.
Qed.
Lemma slash_scheme s ref c : L scheme s -> slash_head ref ->
  URI_decomp (s ++ ss ":" ++ ref) c <-> c_scheme c = Some s /\ relative_decomp ref (set_scheme c None).
Proof.
  intros LS S. split.
  - intros (sch & sh & st & ES & LS' & E & H & T). apply (scheme_cut _ _ _ _ LS LS') in E as [-> ->]. split; [exact ES|].
    exists sh, st. split; [reflexivity|]. split; [reflexivity|]. split; [|exact T]. exact (hier_swap segment_nz segment_nz_nc sh st c (or_introl eq_refl) S T H).
  - intros (ES & sh & st & _ & -> & H & T). exists s, sh, st. split; [exact ES|]. split; [exact LS|]. split; [reflexivity|]. split; [|exact T].
    exact (hier_swap segment_nz_nc segment_nz sh st (set_scheme c None) (or_intror eq_refl) S T H).
Qed.
Lemma two_slashes x c : relative_decomp (ss "//" ++ x) c -> c_authority c <> None.
Proof.
  intros (sh & st & _ & E & [(a & _ & _ & -> & _)|(A & [H|[H|H]])] & T); [discriminate|exfalso..].
  - destruct H as (_ & -> & [Z|(y & rest & Z & Y & _)]); rewrite Z in E.
    + cbn in E. injection E as E. apply tail_noslash in T. rewrite <- E in T. now elim T.
    + destruct (to_segment segment_nz y (or_introl eq_refl) Y) as [S N]. apply segment_free in S. destruct y as [|d y]; [congruence|]. injection E as E _. subst d. apply Forall_inv in S. discriminate S.
  - destruct H as (_ & y & rest & _ & -> & Y & _). elim (first_noslash segment_nz_nc y (slashed rest ++ st) (or_intror eq_refl) Y). now rewrite app_assoc, <- E.
  - destruct H as (-> & _). cbn [app] in E. apply tail_noslash in T. rewrite <- E in T. now elim T.
Qed.
Lemma one_slash ref c : slash_head ref -> (forall x, ref <> ss "//" ++ x) -> relative_decomp ref c -> c_authority c = None /\ c_absolute c = true /\ c_segments c <> [].
Proof.
  intros S N (sh & st & _ & -> & [(a & sa & sp & _ & -> & _)|(A & [H|[H|H]])] & T).
  - elim (N ((sa ++ sp) ++ st)). now rewrite <- !app_assoc.
  - destruct H as (B & _ & [E|(y & rest & E & _)]); rewrite E; repeat split; try assumption; discriminate.
  - destruct H as (_ & y & rest & _ & -> & Y & _). elim (first_noslash segment_nz_nc y (slashed rest ++ st) (or_intror eq_refl) Y). now rewrite app_assoc.
  - destruct H as (-> & _). apply tail_noslash in T. now elim T.
Qed.
(* a path from the root after an authority *)
Definition set_authority (c : components) a : components := mkcomponents (c_scheme c) a (c_absolute c) (c_segments c) (c_query c) (c_fragment c).
Lemma empty_segment : L segment [].
Proof. exists []. cbn. repeat split; auto; lia. Qed.
Lemma seg_nz x : L segment x -> x <> [] -> L segment_nz x.
Proof. intros (l & E & G & _ & _) N. exists l. split; [exact E|]. split; [exact G|]. split; [destruct l; [cbn in E; congruence|cbn; lia]|exact I]. Qed.
Lemma slash_authority s sa a ref c : L scheme s -> authority_decomp sa a -> slash_head ref -> (forall x, ref <> ss "//" ++ x) ->
  URI_decomp (s ++ ss ":" ++ ss "//" ++ sa ++ ref) c <-> c_scheme c = Some s /\ c_authority c = Some a /\ relative_decomp ref (set_authority (set_scheme c None) None).
Proof.
  intros LS A S N. rewrite (slash_scheme s (ss "//" ++ sa ++ ref) c LS eq_refl). split.
  - intros [ES D]. pose proof (two_slashes _ _ D) as NA. destruct D as (sh & st & _ & E & [(a' & sa' & sp & EA & -> & A' & P)|(NA' & _)] & T); [|congruence].
    rewrite <- !app_assoc in E. apply app_inv_head in E. destruct P as (-> & F & B).
    pose proof (proj2 (authority_free _ _ A)) as C. pose proof (proj2 (authority_free _ _ A')) as C'. cbn [set_scheme c_segments c_authority c_absolute] in *.
    assert (sa = sa') as <-.
    { eapply (cut_at (none_of "/?#")); [exact C|exact C'| | |exact E].
      - destruct ref as [|d ref]; [discriminate S|]. injection S as ->. reflexivity.
      - destruct (slashed_head (c_segments c)) as [->|[y ->]]; [|reflexivity]. cbn [app]. destruct T as (-> & _). cbn. destruct (c_query c); [reflexivity|]. destruct (c_fragment c); [reflexivity|exact I]. }
    apply app_inv_head in E.
    assert (EA' : a = a').
    { assert (K : forall a, authority_decomp sa a -> reference_decomp (ss "//" ++ sa) (mkcomponents None (Some a) false [] None None)).
      { intros z Z. right. exists (ss "//" ++ sa), []. split; [reflexivity|]. split; [now rewrite app_nil_r|]. split; [|repeat split]. left. exists z, sa, []. split; [reflexivity|]. split; [now rewrite app_nil_r|]. split; [exact Z|]. repeat split. constructor. }
      pose proof (reference_unique _ _ _ (K a A) (K a' A')) as Q. now injection Q. }
    split; [exact ES|]. split; [now rewrite EA'|]. exists (slashed (c_segments c)), st. split; [reflexivity|]. split; [exact E|]. split; [|exact T].
    right. split; [reflexivity|]. left. cbn [set_authority set_scheme c_absolute c_segments]. subst ref. destruct (c_segments c) as [|y rest] eqn:EQ.
    { exfalso. cbn in S. now apply tail_noslash in T. }
    split; [exact B|]. split; [reflexivity|]. destruct y as [|d y].
    + left. destruct rest as [|z rest]; [reflexivity|]. exfalso. apply (N (z ++ slashed rest ++ st)). cbn. now rewrite <- app_assoc.
    + right. exists (d :: y), rest. split; [reflexivity|]. split; [|exact (Forall_inv_tail F)]. apply seg_nz; [exact (Forall_inv F)|discriminate].
  - intros (ES & EA & D). pose proof (one_slash _ _ S N D) as (_ & B & NE). split; [exact ES|].
    destruct D as (sh & st & _ & -> & [(a' & _ & _ & X & _)|(_ & H)] & T); [discriminate X|].
    exists (ss "//" ++ sa ++ sh), st. split; [reflexivity|]. split; [now rewrite <- !app_assoc|]. split; [|exact T]. left. exists a, sa, sh. split; [exact EA|]. split; [reflexivity|]. split; [exact A|].
    destruct H as [(_ & -> & H)|[(X & _)|(_ & X & _)]]; [|cbn in B, X; congruence..]. split; [reflexivity|]. cbn [set_authority set_scheme c_absolute c_segments] in *. split.
    + destruct H as [->|(y & rest & -> & Y & R)]; [repeat constructor; exact empty_segment|]. constructor; [apply (to_segment segment_nz y (or_introl eq_refl) Y)|exact R].
    + rewrite B. now destruct (c_segments c).
Qed.

(* --- a path that continues after the last "/" --- *)
Definition set_segments (c : components) l : components := mkcomponents (c_scheme c) (c_authority c) (c_absolute c) l (c_query c) (c_fragment c).
Lemma slashed_app l l' : slashed (l ++ l') = slashed l ++ slashed l'.
Proof. unfold slashed. now rewrite map_app, List.concat_app. Qed.
Lemma slashed_cons x l : slashed (x :: l) = ss "/" ++ x ++ slashed l. Proof. reflexivity. Qed.
Lemma hier_onward first sh c d x rest : (first = segment_nz \/ first = segment_nz_nc) -> hier_decomp first sh c -> c_segments c = d ++ [[]] -> d <> [] \/ c_authority c <> None ->
  Forall (L segment) (x :: rest) -> hier_decomp first (sh ++ x ++ slashed rest) (set_segments c (d ++ x :: rest)).
Proof.
  intros Fi H S N F. assert (T : slashed (d ++ [[]]) ++ x ++ slashed rest = slashed (d ++ x :: rest)).
  { rewrite !slashed_app, slashed_cons, <- app_assoc. reflexivity. }
  destruct H as [(a & sa & sp & A & -> & D & (-> & G & B))|(A & [P|[P|P]])].
  - left. exists a, sa, (slashed (d ++ x :: rest)). split; [exact A|]. split; [rewrite S, <- T; now rewrite <- !app_assoc|]. split; [exact D|]. split; [reflexivity|].
    rewrite S in G. apply Forall_app in G as [G _]. split; [apply Forall_app; split; assumption|]. cbn [set_segments c_absolute c_segments]. rewrite B, S. now destruct d.
  - destruct N as [N|N]; [|congruence]. right. split; [exact A|]. left. destruct P as (B & -> & P). split; [exact B|]. split; [now rewrite S, T|]. right. cbn [set_segments c_segments]. rewrite S in P.
    destruct d as [|y d]; [congruence|]. destruct P as [P|(z & l & P & Z & G)]; [destruct d; discriminate P|]. injection P as -> <-. exists z, (d ++ x :: rest). split; [reflexivity|]. split; [exact Z|].
    apply Forall_app in G as [G _]. apply Forall_app. split; assumption.
  - destruct N as [N|N]; [|congruence]. right. split; [exact A|]. right; left. destruct P as (B & z & l & P & -> & Z & G). rewrite S in P. destruct d as [|y d]; [congruence|]. injection P as -> <-. split; [exact B|].
    exists z, (d ++ x :: rest). cbn [set_segments c_segments]. split; [reflexivity|]. split; [rewrite <- app_assoc; f_equal; rewrite !slashed_app, slashed_cons, <- app_assoc; reflexivity|]. split; [exact Z|].
    apply Forall_app in G as [G _]. apply Forall_app. split; assumption.
  - destruct P as (_ & _ & P). rewrite S in P. destruct d; discriminate P.
Qed.
Lemma relative_from_here ref c : reference_decomp ref c -> c_scheme c = None -> c_authority c = None -> c_segments c <> [] -> c_absolute c = false ->
  exists x rest st, ref = (x ++ slashed rest) ++ st /\ c_segments c = x :: rest /\ L segment_nz_nc x /\ Forall (L segment) (x :: rest) /\ tail_decomp st c.
Proof.
  intros [(sch & _ & _ & S & _)|(sh & st & _ & -> & [(a & _ & _ & A & _)|(_ & [P|[P|P]])] & T)] ES EA N B; try congruence.
  - destruct P. congruence.
  - destruct P as (_ & x & rest & E & -> & X & F). exists x, rest, st. split; [reflexivity|]. split; [exact E|]. split; [exact X|]. split; [|exact T]. constructor; [apply (to_segment segment_nz_nc x (or_intror eq_refl) X)|exact F].
  - destruct P as (_ & _ & P). congruence.
Qed.
Lemma onward u cu d ref c : URI_decomp u cu -> c_query cu = None -> c_fragment cu = None -> c_segments cu = d ++ [[]] -> d <> [] \/ c_authority cu <> None ->
  reference_decomp ref c -> c_scheme c = None -> c_authority c = None -> c_segments c <> [] -> c_absolute c = false ->
  URI_decomp (u ++ ref) (mkcomponents (c_scheme cu) (c_authority cu) (c_absolute cu) (d ++ c_segments c) (c_query c) (c_fragment c)).
Proof.
  intros (sch & sh & st & ES & LS & -> & H & T) Q F S N D D1 D2 D3 D4. destruct (relative_from_here ref c D D1 D2 D3 D4) as (x & rest & st' & -> & S' & X & G & T').
  destruct T as (-> & _). rewrite Q, F, S'. cbn [opt_pre app]. rewrite app_nil_r. exists sch, (sh ++ x ++ slashed rest), st'. split; [exact ES|]. split; [exact LS|]. split; [now rewrite <- !app_assoc|].
  split; [|exact T']. exact (hier_onward segment_nz sh cu d x rest (or_introl eq_refl) H S N G).
Qed.
Lemma nc_nz x : L segment_nz_nc x -> L segment_nz x.
Proof. intros X. destruct (to_segment segment_nz_nc x (or_intror eq_refl) X). now apply seg_nz. Qed.
Lemma onward_scheme s ref c : L scheme s -> reference_decomp ref c -> c_scheme c = None -> c_authority c = None -> c_segments c <> [] -> c_absolute c = false ->
  URI_decomp (s ++ ss ":" ++ ref) (set_scheme c (Some s)).
Proof.
  intros LS D D1 D2 D3 D4. destruct (relative_from_here ref c D D1 D2 D3 D4) as (x & rest & st' & -> & S' & X & G & T'). exists s, (x ++ slashed rest), st'.
  split; [reflexivity|]. split; [exact LS|]. split; [reflexivity|]. split; [|exact T']. right. split; [exact D2|]. right; left. split; [exact D4|]. exists x, rest. split; [exact S'|]. split; [reflexivity|]. split; [now apply nc_nz|]. exact (Forall_inv_tail G).
Qed.

(* --- the text of a URI cut at the end of its origin and at its last "/" --- *)
Lemma origin_text s c : URI_decomp s c -> exists u v, s = u ++ v /\ URI_decomp u (mkcomponents (c_scheme c) (c_authority c) false [] None None).
Proof.
  intros (sch & sh & st & ES & LS & -> & H & T).
  destruct H as [(a & sa & sp & A & -> & D & _)|(A & _)].
  - exists (sch ++ ss ":" ++ ss "//" ++ sa), (sp ++ st). split; [now rewrite <- !app_assoc|]. exists sch, (ss "//" ++ sa), []. split; [exact ES|]. split; [exact LS|]. split; [now rewrite app_nil_r|]. split; [|repeat split].
    left. exists a, sa, []. split; [exact A|]. split; [now rewrite app_nil_r|]. split; [exact D|]. repeat split. constructor.
  - exists (sch ++ ss ":"), (sh ++ st). split; [now rewrite <- !app_assoc|]. exists sch, [], []. split; [exact ES|]. split; [exact LS|]. split; [reflexivity|]. split; [|repeat split]. right. split; [exact A|]. right; right. repeat split.
Qed.
Lemma up_to_text s c d x : URI_decomp s c -> c_segments c = d ++ [x] -> d <> [] ->
  exists u, s = u ++ x ++ tail (c_query c) (c_fragment c) /\ URI_decomp u (mkcomponents (c_scheme c) (c_authority c) (c_absolute c) (d ++ [[]]) None None).
Proof.
  intros (sch & sh & st & ES & LS & -> & H & T) S N. destruct T as (-> & _). fold (tail (c_query c) (c_fragment c)). generalize (tail (c_query c) (c_fragment c)) as t. intros t.
  assert (K : forall first, hier_decomp first sh c -> exists v, sh = v ++ x /\ hier_decomp first v (mkcomponents (c_scheme c) (c_authority c) (c_absolute c) (d ++ [[]]) None None)).
  { intros first [(a & sa & sp & A & -> & D & (-> & G & B))|(A & [P|[P|P]])].
    - exists (ss "//" ++ sa ++ slashed (d ++ [[]])). split; [rewrite S, !slashed_app, !slashed_cons; cbn [app]; unfold slashed; cbn [map List.concat]; rewrite !app_nil_r, <- !app_assoc; reflexivity|].
      left. exists a, sa, (slashed (d ++ [[]])). split; [exact A|]. split; [reflexivity|]. split; [exact D|]. split; [reflexivity|]. rewrite S in G, B. apply Forall_app in G as [G _]. split; [apply Forall_app; split; [exact G|repeat constructor; exact empty_segment]|].
      cbn [c_absolute c_segments]. rewrite B. now destruct d.
    - destruct P as (B & -> & P). rewrite S in *. destruct d as [|y d]; [congruence|]. destruct P as [P|(z & l & P & Z & G)]; [destruct d; discriminate P|]. injection P as -> <-.
      exists (slashed ((z :: d) ++ [[]])). split; [rewrite !slashed_app, !slashed_cons; cbn [app]; unfold slashed; cbn [map List.concat]; rewrite !app_nil_r, <- !app_assoc; reflexivity|].
      right. split; [exact A|]. left. split; [exact B|]. split; [reflexivity|]. right. exists z, (d ++ [[]]). split; [reflexivity|]. split; [exact Z|]. apply Forall_app in G as [G _]. apply Forall_app. split; [exact G|repeat constructor; exact empty_segment].
    - destruct P as (B & z & l & P & -> & Z & G). rewrite S in P. destruct d as [|y d]; [congruence|]. injection P as -> <-.
      exists (z ++ slashed (d ++ [[]])). split; [rewrite !slashed_app, !slashed_cons; cbn [app]; unfold slashed; cbn [map List.concat]; rewrite !app_nil_r, <- !app_assoc; reflexivity|].
      right. split; [exact A|]. right; left. split; [exact B|]. exists z, (d ++ [[]]). split; [reflexivity|]. split; [reflexivity|]. split; [exact Z|]. apply Forall_app in G as [G _]. apply Forall_app. split; [exact G|repeat constructor; exact empty_segment].
    - destruct P as (_ & _ & P). rewrite S in P. destruct d; discriminate P. }
  destruct (K _ H) as (v & -> & H'). exists (sch ++ ss ":" ++ v). split; [now rewrite <- !app_assoc|]. exists sch, v, []. split; [exact ES|]. split; [exact LS|]. split; [now rewrite app_nil_r|]. split; [exact H'|repeat split].
Qed.
