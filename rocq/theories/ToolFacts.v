From Verif Require Import Base ModelUri SpecHost SpecParts PegUri UriLang UriHost UriSplit UriValid UriProps PropSplitFacts SpecUri Rfc3986 ModelTool SpecTool.
From Coq Require Import Lia.
Local Open Scope list_scope.

Definition clean (s : str) : Prop := ~ In doublequote s /\ ~ In backslash s /\ ~ In newline s /\ ~ In (chr 13) s.
Lemma clean_all f s : f doublequote = false -> f backslash = false -> f newline = false -> f (chr 13) = false -> all f s -> clean s.
Proof. intros A B C D H. rewrite Forall_forall in H. repeat split; intros I; apply H in I; congruence. Qed.
Lemma clean_app a b : clean a -> clean b -> clean (a ++ b).
Proof. unfold clean. rewrite !in_app_iff. tauto. Qed.
Lemma clean_nil : clean [].
Proof. unfold clean. cbn. tauto. Qed.
Lemma clean_slash x : clean x -> clean (ss "/" ++ x).
Proof. intros H. apply clean_app; [|exact H]. repeat split; cbn; intros [E|[]]; discriminate. Qed.
Lemma clean_slashed l : Forall clean l -> clean (slashed l).
Proof. induction 1; unfold slashed in *; cbn [map List.concat]; [apply clean_nil|]. apply clean_app; [apply clean_slash; assumption|assumption]. Qed.
Ltac charset H := eapply clean_all; [| | | |exact H]; reflexivity.
Lemma clean_segment s : L segment s -> clean s.
Proof. intros H. apply segment_chars in H. charset H. Qed.
Lemma clean_segments l : Forall (L segment) l -> Forall clean l.
Proof. intros H. eapply Forall_impl; [|exact H]. exact clean_segment. Qed.
Lemma clean_nz s : L segment_nz s -> clean s.
Proof. intros H. apply segment_nz_chars in H. charset H. Qed.
Definition clean_opt (s : option str) : Prop := match s with Some x => clean x | None => True end.

Lemma clean_comps s c : URI_decomp s c -> Forall (fun e => clean_opt (snd e)) (entries c).
Proof.
  intros (sch & sh & st & Es & Ls & -> & Hh & (-> & Hq & Hf)). unfold entries.
  assert (Q : forall o, in_opt query o -> clean_opt o) by (intros [x|] H; [apply query_chars in H; charset H|exact I]).
  assert (A : match c_authority c with Some (u, h, p) => clean_opt u /\ clean h /\ clean_opt p | None => True end /\ clean (path_text c)).
  { destruct Hh as [(a & sa & sp & Ea & -> & Ha & (-> & Hs & Hb))|(Ea & Hp)].
    - rewrite Ea. destruct a as [[u h] p]. destruct Ha as (-> & Hu & Hh & Hp). split.
      + split; [destruct u as [u|]; [apply userinfo_chars in Hu; charset Hu|exact I]|]. split; [apply host_chars in Hh; charset Hh|].
        destruct p as [p|]; [apply port_chars in Hp; charset Hp|exact I].
      + unfold path_text. rewrite Hb. destruct (c_segments c) as [|x r]; [apply clean_nil|]. apply clean_slashed, clean_segments. exact Hs.
    - rewrite Ea. split; [exact I|]. unfold path_text. destruct Hp as [(Eb & -> & Hp)|[(Eb & x & rest & Ex & -> & Hx & Hr)|(-> & Eb & Ex)]]; rewrite Eb.
      + destruct Hp as [->|(x & rest & -> & Hx & Hr)].
        * apply clean_slashed. repeat constructor; cbn; tauto.
        * apply clean_slashed. constructor; [apply clean_nz; exact Hx|apply clean_segments; exact Hr].
      + rewrite Ex. apply clean_app; [apply clean_nz; exact Hx|apply clean_slashed, clean_segments; exact Hr].
      + rewrite Ex. apply clean_nil. }
  destruct A as [A P]. repeat apply Forall_cons; try apply Forall_nil; cbn [snd].
  - rewrite Es. apply scheme_chars in Ls as [Ls _]. charset Ls.
  - destruct (c_authority c) as [[[u h] p]|]; [apply A|exact I].
  - destruct (c_authority c) as [[[u h] p]|]; [apply A|exact I].
  - destruct (c_authority c) as [[[u h] p]|]; [apply A|exact I].
  - exact P.
  - apply Q. exact Hq.
  - apply Q. exact Hf.
Qed.

(* --- reading --- *)
Lemma getline_last l : ~ In newline l -> getline l = (l, []).
Proof.
  induction l as [|c l IH]; intros H; [reflexivity|]. cbn [getline]. change lf with newline. destruct (Ascii.eqb_spec c newline) as [->|_]; [exfalso; apply H; left; reflexivity|].
  rewrite IH by (intros X; apply H; right; exact X). reflexivity.
Qed.
Lemma getline_line l s : ~ In newline l -> getline (l ++ newline :: s) = (l, s).
Proof.
  induction l as [|c l IH]; intros H; [reflexivity|]. cbn [getline app]. change lf with newline. destruct (Ascii.eqb_spec c newline) as [->|_]; [exfalso; apply H; left; reflexivity|].
  rewrite IH by (intros X; apply H; right; exact X). reflexivity.
Qed.
Lemma quoted_clean s : clean s -> quoted s = show (Some s).
Proof.
  intros (A & B & _). unfold quoted, show. cbn [app]. change dq with doublequote. f_equal. f_equal. induction s as [|c s IH]; [reflexivity|]. cbn [flat_map].
  destruct (Ascii.eqb_spec c doublequote) as [->|_]; [exfalso; apply A; left; reflexivity|]. destruct (Ascii.eqb_spec c backslash) as [->|_]; [exfalso; apply B; left; reflexivity|].
  cbn [orb app]. f_equal. apply IH; intros X; [apply A|apply B]; right; exact X.
Qed.
Lemma path_text_string p : path_string (p_path p) = path_text (comps p).
Proof.
  destruct p as [sc a [b segs] q f]. cbn [p_path]. rewrite path_string_eq. unfold path_text, comps. cbn. destruct b; reflexivity.
Qed.
Lemma report_description s p : URI_decomp s (comps p) -> report p = description (comps p).
Proof.
  intros D. assert (C : clean (path_text (comps p))).
  { apply clean_comps in D. rewrite Forall_forall in D. apply (D ("path"%string, Some (path_text (comps p)))). cbn. tauto. }
  unfold report. rewrite path_text_string, (quoted_clean _ C). unfold description, entries. cbn [flat_map fst snd].
  change value_or_none with show. change [lf] with [newline]. destruct p as [sc a pa q f]. cbn [comps p_scheme p_authority p_query p_fragment c_scheme c_authority c_query c_fragment].
  destruct a as [[u h po]|]; cbn [userinfo host port]; rewrite <- ?app_assoc; reflexivity.
Qed.
Lemma lines_length s ls : has_lines s ls -> (length ls <= length s)%nat.
Proof. induction 1; cbn; try lia; [destruct l; [contradiction|cbn; lia]|rewrite app_length; cbn; lia]. Qed.
Lemma lines_fun s ls : has_lines s ls -> forall ls', has_lines s ls' -> ls = ls'.
Proof.
  induction 1 as [|l Hl Hn|l s ls Hn H IH]; intros ls' H'.
  - inversion H' as [|l' Hl'|l' s' ls2 Hn' H2 E]; [reflexivity|contradiction|destruct l'; discriminate].
  - inversion H' as [E|l' Hl' Hn'|l' s' ls2 Hn' H2 E]; subst; [contradiction|reflexivity|]. exfalso. apply Hn. rewrite in_app_iff. right. left. reflexivity.
  - remember (l ++ newline :: s) as t eqn:Et. destruct H' as [|l' Hl' Hn'|l' s' ls2 Hn' H2].
    + destruct l; discriminate.
    + exfalso. apply Hn'. rewrite Et, in_app_iff. right. left. reflexivity.
    + assert (E : getline (l' ++ newline :: s') = getline (l ++ newline :: s)) by now rewrite Et. rewrite !getline_line in E by assumption. injection E as -> ->. f_equal. apply IH. exact H2.
Qed.
Lemma lines_total s : exists ls, has_lines s ls.
Proof.
  assert (G : forall n s, (length s <= n)%nat -> exists ls, has_lines s ls).
  { induction n as [|n IH]; intros t Ht; [destruct t; [exists []; constructor|cbn in Ht; lia]|].
    destruct t as [|c t]; [exists []; constructor|]. destruct (in_dec ascii_dec newline (c :: t)) as [I|NI].
    - apply in_split in I as (a & b & E). 
      assert (X : exists l r, c :: t = l ++ newline :: r /\ ~ In newline l).
      { clear - E. revert E. generalize (c :: t). intros u E. revert a b u E. induction a as [|x a IHa]; intros b u E.
        - exists [], b. cbn in *. auto.
        - destruct (ascii_dec x newline) as [->|N]; [exists [], (a ++ newline :: b); cbn in *; auto|].
          destruct u as [|y u]; [discriminate|]. injection E as -> E. destruct (IHa b u E) as (l & r & -> & Hl). exists (x :: l), r. split; [reflexivity|]. intros [X|X]; [contradiction|exact (Hl X)]. }
      destruct X as (l & r & Er & Hl). rewrite Er in *. destruct (IH r) as (ls & H); [rewrite app_length in Ht; cbn in Ht; lia|]. exists (l :: ls). constructor; assumption.
    - exists [c :: t]. constructor; [discriminate|exact NI]. }
  apply (G (length s) s). lia.
Qed.

Section Run.
Variables (sg : bool) (fuel : nat).
Definition readable (l : str) : Prop := fits fuel l /\ ctype_safe sg l.
Lemma split_line l : readable l -> (exists p, split sg fuel l = Ok (Some p) /\ takes l (comps p)) \/ (split sg fuel l = Ok None /\ ~ exists c, takes l c).
Proof.
  intros [F C]. destruct (split_terminates sg fuel l F) as [[[p|] E]|[N _]]; [| |contradiction].
  - left. exists p. split; [exact E|]. apply split_iff in E; [|exact F]. exact E.
  - right. split; [exact E|]. intros (c & D & U). exact (proj1 (split_rejects sg fuel l F C) E c D U).
Qed.
Lemma stream_run n : forall s ls, has_lines s ls -> (length s <= n)%nat -> Forall readable ls ->
  exists out ok, read_stream sg fuel n s = Ok (out, ok) /\ written_about ls out ok.
Proof.
  induction n as [|n IH]; intros s ls H L F.
  - assert (s = []) as -> by (destruct s; [reflexivity|cbn in L; lia]). inversion H as [|l Hl|l s' ls' Hn H' E]; subst; [|contradiction|destruct l; discriminate].
    exists [], true. split; [reflexivity|constructor].
  - assert (Go : forall l r ls', s <> [] -> getline s = (l, r) -> (length r <= n)%nat -> has_lines r ls' -> ls = l :: ls' ->
      exists out ok, read_stream sg fuel (S n) s = Ok (out, ok) /\ written_about ls out ok).
    { intros l r ls' N G Lr Hr ->. inversion F as [|? ? Fl Fr]; subst. assert (U : read_stream sg fuel (S n) s = (let head := ss "URI: " ++ l ++ [lf] in do r0 <- split sg fuel l;
        match r0 with None => Ok (head, false) | Some p => do (out, ok) <- read_stream sg fuel n r; Ok (head ++ report p ++ out, ok) end)).
      { cbn [read_stream]. destruct s; [contradiction|]. rewrite G. reflexivity. }
      rewrite U. cbv zeta. destruct (split_line l Fl) as [(p & -> & D)|[-> D]]; cbn [bind].
      - destruct (IH r ls' Hr Lr Fr) as (out & ok & -> & W). cbn [bind]. do 2 eexists. split; [reflexivity|]. rewrite (report_description l p (proj1 D)). constructor; assumption.
      - do 2 eexists. split; [reflexivity|]. constructor. exact D. }
    destruct H as [|l Hl Hn|l s ls Hn H].
    + exists [], true. split; [reflexivity|constructor].
    + apply (Go l [] []); [exact Hl|apply getline_last; exact Hn|cbn; lia|constructor|reflexivity].
    + apply (Go l s ls); [destruct l; discriminate|apply getline_line; exact Hn|rewrite app_length in L; cbn in L; lia|exact H|reflexivity].
Qed.
Lemma about_ok ls out ok : written_about ls out ok -> (ok = true <-> Forall (fun l => exists c, takes l c) ls).
Proof.
  induction 1 as [|l ls c out ok T W IH|l ls N].
  - split; [constructor|reflexivity].
  - rewrite IH. split; [intros F; constructor; eauto|]. intros F. inversion F; assumption.
  - split; [discriminate|]. intros F. inversion F; contradiction.
Qed.
Definition good_file (f : option str) : Prop := exists s ls, f = Some s /\ has_lines s ls /\ Forall (fun l => exists c, takes l c) ls.
Definition file_readable (f : option str) : Prop := match f with Some s => forall ls, has_lines s ls -> Forall readable ls | None => True end.
Lemma files_run files : Forall file_readable files -> exists out ok, read_files sg fuel files = Ok (out, ok) /\ written_about_files files out ok /\ (ok = true <-> Forall good_file files).
Proof.
  induction 1 as [|f files Hf H IH].
  - exists [], true. split; [reflexivity|]. split; [constructor|]. split; [constructor|reflexivity].
  - destruct f as [s|]; cbn [read_files].
    + destruct (lines_total s) as (ls & Hs). destruct (stream_run (length s) s ls Hs (le_n _) (Hf ls Hs)) as (out & ok & -> & W). cbn [bind]. pose proof W as W0. apply about_ok in W.
      destruct ok.
      * destruct IH as (out' & ok' & -> & Wf & K). cbn [bind]. do 2 eexists. split; [reflexivity|]. split; [eapply files_good; eassumption|]. rewrite K. split.
        -- intros G. constructor; [exists s, ls; split; [reflexivity|]; split; [exact Hs|]; apply W; reflexivity|exact G].
        -- intros G. inversion G; assumption.
      * do 2 eexists. split; [reflexivity|]. split; [eapply files_bad; eassumption|]. split; [discriminate|]. intros G. inversion G as [|? ? (s' & ls' & E & Hs' & T) _]; subst. injection E as <-.
        rewrite (lines_fun _ _ Hs _ Hs') in W. apply W. exact T.
    + do 2 eexists. split; [reflexivity|]. split; [constructor|]. split; [discriminate|]. intros G. inversion G as [|? ? (s' & ls' & E & _) _]; discriminate.
Qed.
End Run.

(* --- the description determines the components --- *)
Lemma show_inj a b x y : clean_opt a -> clean_opt b -> show a ++ newline :: x = show b ++ newline :: y -> a = b /\ x = y.
Proof.
  assert (G : forall u v x y, ~ In doublequote u -> ~ In doublequote v -> u ++ doublequote :: x = v ++ doublequote :: y -> u = v /\ x = y).
  { induction u as [|c u IH]; intros [|d v] x0 y0 U V E; cbn in E.
    - injection E as ->. auto.
    - injection E as E _. exfalso. apply V. left. now symmetry.
    - injection E as E _. exfalso. apply U. left. exact E.
    - injection E as -> E. apply IH in E as [-> ->]; auto; intros I; [apply U|apply V]; right; exact I. }
  destruct a as [a|], b as [b|]; cbn [show clean_opt app].
  - intros (A & _) (B & _) E. injection E as E. rewrite <- !app_assoc in E. cbn [app] in E. apply G in E as [-> E]; auto. injection E as ->. auto.
  - discriminate.
  - discriminate.
  - intros _ _ E. injection E as ->. auto.
Qed.
Lemma entries_inj (l m : list (string * option str)) : map fst l = map fst m -> Forall (fun e => clean_opt (snd e)) l -> Forall (fun e => clean_opt (snd e)) m ->
  flat_map (fun e => ss " " ++ ss (fst e) ++ ss ": " ++ show (snd e) ++ [newline]) l = flat_map (fun e => ss " " ++ ss (fst e) ++ ss ": " ++ show (snd e) ++ [newline]) m -> l = m.
Proof.
  revert m. induction l as [|[n a] l IH]; intros [|[n' b] m] N L M E; try discriminate; [reflexivity|]. cbn [map fst] in N. injection N as <- N. inversion L as [|? ? La Ll]; subst. inversion M as [|? ? Mb Mm]; subst.
  cbn [flat_map fst snd] in *. rewrite <- !app_assoc in E. apply app_inv_head in E. apply app_inv_head in E. apply app_inv_head in E. cbn [app] in E.
  apply show_inj in E as [-> E]; auto. f_equal. apply IH; assumption.
Qed.
Lemma decomp_text s c : URI_decomp s c -> s = opt_post (c_scheme c) (ss ":")
  ++ (match c_authority c with Some (u, h, p) => ss "//" ++ opt_post u (ss "@") ++ h ++ opt_pre (ss ":") p | None => [] end)
  ++ path_text c ++ opt_pre (ss "?") (c_query c) ++ opt_pre (ss "#") (c_fragment c).
Proof.
  intros (sch & sh & st & -> & _ & -> & Hh & (-> & _ & _)). cbn [opt_post].
  assert (E : sh = (match c_authority c with Some (u, h, p) => ss "//" ++ opt_post u (ss "@") ++ h ++ opt_pre (ss ":") p | None => [] end) ++ path_text c).
  { unfold path_text. destruct Hh as [(a & sa & sp & -> & -> & Ha & (-> & _ & Hb))|(-> & Hp)].
    - destruct a as [[u h] p]. destruct Ha as (-> & _). rewrite Hb. destruct (c_segments c); rewrite <- ?app_assoc; reflexivity.
    - destruct Hp as [(-> & -> & _)|[(-> & x & rest & -> & -> & _)|(-> & -> & ->)]]; reflexivity. }
  rewrite E at 1. rewrite <- !app_assoc. reflexivity.
Qed.
Lemma description_inj s s' c c' : URI_decomp s c -> URI_decomp s' c' -> description c = description c' -> s = s' /\ c = c'.
Proof.
  intros D D' E. apply entries_inj in E; [|reflexivity|eapply clean_comps; eassumption|eapply clean_comps; eassumption].
  assert (X : s = s').
  { rewrite (decomp_text s c D), (decomp_text s' c' D'). unfold entries in E. injection E as Es Eu Eh Ep Et Eq Ef. rewrite Es, Et, Eq, Ef. f_equal. f_equal.
    destruct (c_authority c) as [[[u h] p]|], (c_authority c') as [[[u' h'] p']|]; try discriminate; [|reflexivity]. congruence. }
  split; [exact X|]. subst s'. eapply URI_unique; eassumption.
Qed.
(* nor does a URI hold a quote, backslash, newline or carriage return *)
Lemma clean_line s c : URI_decomp s c -> clean s.
Proof.
  intros D. pose proof (clean_comps s c D) as E. rewrite (decomp_text s c D). unfold entries in E. rewrite !Forall_cons_iff in E. cbn [snd] in E. destruct E as (Es & Eu & Eh & Ep & Et & Eq & Ef & _).
  assert (K : forall (pre : str) o, clean pre -> clean_opt o -> clean (opt_pre pre o) /\ clean (opt_post o pre)) by (intros pre [x|] P O; cbn; split; try apply clean_nil; apply clean_app; assumption).
  assert (C1 : forall a, a <> doublequote -> a <> backslash -> a <> newline -> a <> chr 13 -> clean [a]) by (intros a A1 A2 A3 A4; repeat split; intros [X|[]]; congruence).
  assert (C2 : clean (ss "//")) by (apply (clean_app (ss "/") (ss "/")); apply C1; discriminate).
  apply clean_app; [apply K; [apply C1; discriminate|exact Es]|]. apply clean_app.
  - destruct (c_authority c) as [[[u h] p]|]; [|apply clean_nil]. apply clean_app; [exact C2|]. apply clean_app; [apply K; [apply C1; discriminate|exact Eu]|]. apply clean_app; [exact Eh|]. apply K; [apply C1; discriminate|exact Ep].
  - apply clean_app; [exact Et|]. apply clean_app; (apply K; [apply C1; discriminate|assumption]).
Qed.
