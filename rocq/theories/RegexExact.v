(* Scanners for the authority, and URIs recognised by their pieces *)
From Verif Require Import Base Peg PegLang UriHost UriStruct UriSplit JoinFacts Rfc3986 PartsProps SpecRegex RegexFacts RegexUri RegexAuth.
Local Open Scope nat_scope.

Lemma cut_first_some c (a b : str) : ~ In c a -> cut_first c (a ++ c :: b) = Some (a, b).
Proof.
  induction a as [|d a IH]; intros N; cbn [app cut_first]; [now rewrite Ascii.eqb_refl|].
  destruct (Ascii.eqb_spec c d) as [->|]; [destruct N; now left|]. rewrite IH; [reflexivity|]. intros I. apply N. now right.
Qed.
Lemma cut_first_none c (s : str) : ~ In c s -> cut_first c s = None.
Proof.
  induction s as [|d s IH]; intros N; cbn [cut_first]; [reflexivity|].
  destruct (Ascii.eqb_spec c d) as [->|]; [destruct N; now left|]. rewrite IH; [reflexivity|]. intros I. apply N. now right.
Qed.
Lemma cut_last_some c (a b : str) : ~ In c b -> cut_last c (a ++ c :: b) = Some (a, b).
Proof.
  intros N. unfold cut_last. rewrite rev_app_distr. cbn [rev]. rewrite <- app_assoc. cbn [app]. rewrite cut_first_some by now rewrite <- in_rev.
  cbn [option_map fst snd]. now rewrite !rev_involutive.
Qed.
Lemma cut_last_none c (s : str) : ~ In c s -> cut_last c s = None.
Proof. intros N. unfold cut_last. rewrite cut_first_none by now rewrite <- in_rev. reflexivity. Qed.

Lemma not_bracket (h r : str) : ~ In "["%char h -> nohd (fun c => Ascii.eqb c "[") r ->
  host_port_left (h ++ r) = match cut_first ":" (h ++ r) with Some (x, p) => (x, Some p) | None => (h ++ r, None) end.
Proof.
  intros N R. assert (H : nohd (fun c => Ascii.eqb c "[") (h ++ r)).
  { apply nohd_app; [|auto]. destruct h as [|c h]; [exact I|]. cbn. apply Ascii.eqb_neq. intros ->. apply N. now left. }
  destruct (h ++ r) as [|c t]; [reflexivity|]. cbn [nohd] in H. unfold host_port_left. destruct c as [[] [] [] [] [] [] [] []]; try reflexivity. discriminate H.
Qed.
Lemma left_host_port h (p : option str) : L host h -> in_opt port p -> host_port_left (h ++ opt_pre (ss ":") p) = (h, p).
Proof.
  intros H P. apply host_shape in H as [(x & -> & X)|(Hc & Hl & Hr)].
  - rewrite <- !app_assoc. change (host_port_left ("["%char :: x ++ "]"%char :: opt_pre (ss ":") p) = (("["%char :: x) ++ ss "]", p)).
    unfold host_port_left. change ("["%char :: x ++ "]"%char :: opt_pre (ss ":") p) with (("["%char :: x) ++ "]"%char :: opt_pre (ss ":") p).
    rewrite cut_first_some by (intros [K|K]; [discriminate|now apply X]). destruct p; reflexivity.
  - rewrite not_bracket; [|exact Hl|destruct p; [reflexivity|exact I]]. destruct p as [p|]; cbn [opt_pre].
    + change (ss ":" ++ p) with (":"%char :: p). now rewrite cut_first_some.
    + rewrite app_nil_r. now rewrite cut_first_none.
Qed.
Lemma right_host_port h (p : option str) : L host h -> in_opt port p -> host_port_right (h ++ opt_pre (ss ":") p) = (h, p).
Proof.
  intros H P. unfold host_port_right. destruct p as [p|]; cbn [opt_pre].
  - cbn in P. apply port_free in P. change (ss ":" ++ p) with (":"%char :: p). rewrite cut_last_some by (apply (none_not_in _ _ _ P); reflexivity).
    destruct (existsb (Ascii.eqb "]") p) eqn:E; [|reflexivity]. apply existsb_exists in E as (c & I & K). apply Ascii.eqb_eq in K. subst c.
    exfalso. revert I. apply (none_not_in _ _ _ P). reflexivity.
  - rewrite app_nil_r. apply host_shape in H as [(x & -> & X)|(Hc & Hl & Hr)]; [|now rewrite cut_last_none].
    destruct (cut_last ":" (ss "[" ++ x ++ ss "]")) as [[a b]|] eqn:E; [|reflexivity].
    assert (B : existsb (Ascii.eqb "]") b = true); [|now rewrite B].
    unfold cut_last in E. rewrite !rev_app_distr in E. cbn [ss list_ascii_of_string rev app] in E. cbn [cut_first] in E.
    change (Ascii.eqb ":" "]") with false in E. cbv iota in E. destruct (cut_first ":" (rev x ++ ["["%char])) as [[y z]|]; [|discriminate]. cbn [option_map fst snd rev] in E.
    injection E as _ <-. apply existsb_exists. exists "]"%char. split; [|reflexivity]. apply in_or_app. right. now left.
Qed.
Lemma scanners s a : authority_decomp s a -> from_left s = a /\ from_right s = a.
Proof.
  intros D. pose proof (authority_sensible s a D) as S. destruct a as [[u h] p]. destruct D as (-> & U & H & P). destruct S as (_ & NH & _ & NP).
  assert (T : ~ In "@"%char (h ++ opt_pre (ss ":") p)).
  { rewrite in_app_iff. intros [K|K]; [now apply NH|]. destruct p as [p|]; [|destruct K]. destruct K as [K|K]; [discriminate|]. now apply NP. }
  unfold from_left, from_right. destruct u as [u|]; cbn [opt_post app].
  - rewrite <- app_assoc. change (ss "@" ++ h ++ opt_pre (ss ":") p) with ("@"%char :: h ++ opt_pre (ss ":") p).
    apply userinfo_free in U. rewrite cut_first_some by (apply (none_not_in _ _ _ U); reflexivity). rewrite cut_last_some by exact T.
    now rewrite left_host_port, right_host_port.
  - rewrite cut_first_none, cut_last_none by exact T. now rewrite left_host_port, right_host_port.
Qed.

(* --- the pieces of what is a URI --- *)
Lemma hier_text first m c : (first = segment_nz \/ first = segment_nz_nc) -> hier_decomp first m c ->
  match option_map authority_text (c_authority c) with
  | Some a => L authority a /\ L path_abempty (path_text (c_absolute c) (c_segments c))
  | None => L path_absolute (path_text (c_absolute c) (c_segments c))
            \/ L (Cat first (Rep 0 None (Cat (Lit "/") segment))) (path_text (c_absolute c) (c_segments c))
            \/ L path_empty (path_text (c_absolute c) (c_segments c)) end.
Proof.
  intros HF [(a & sa & sp & -> & _ & A & P)|(-> & [H|[H|H]])]; cbn [option_map].
  - pose proof (authority_free _ _ A) as [E _]. split; [apply L_authority; exists a; now rewrite <- E|]. apply L_abempty. exists (c_absolute c), (c_segments c).
    destruct P as (-> & S & X). split; [|auto]. rewrite X. destruct (c_segments c); reflexivity.
  - left. apply L_absolute. exists (c_segments c). destruct H as (-> & -> & H). repeat split; auto.
  - right. left. apply (L_rootless first). exists (c_segments c). destruct H as (-> & x & rest & -> & E & H). split; [reflexivity|]. exists x, rest. auto.
  - right. right. apply L_empty. destruct H as (_ & -> & ->). reflexivity.
Qed.
Lemma recompose_of sh c first : (first = segment_nz \/ first = segment_nz_nc) -> hier_decomp first sh c ->
  recompose (pieces_of c) = opt_post (c_scheme c) (ss ":") ++ sh ++ opt_pre (ss "?") (c_query c) ++ opt_pre (ss "#") (c_fragment c).
Proof. intros HF H. apply (hier_pieces first) in H as (-> & _); [|exact HF]. unfold recompose, pieces_of. cbn [r_scheme r_authority r_path r_query r_fragment opt_pre app]. now rewrite <- app_assoc. Qed.
Lemma URI_by_pieces s : L URI s <-> exists r, by_regex s = Some r /\ recompose r = s /\ URI_pieces r.
Proof.
  split.
  - intros H. apply L_URI in H as [c D]. exists (pieces_of c). split; [now apply regex_URI|]. destruct D as (sch & sh & st & ES & LS & -> & H & (-> & Q & F)).
    split; [rewrite (recompose_of sh c segment_nz); auto; rewrite ES; cbn [opt_post]; now rewrite <- app_assoc|].
    split; [now exists sch|]. split; [|split; assumption]. eexists. split; [reflexivity|]. apply (hier_text segment_nz sh c); auto.
  - intros (r & _ & <- & (sch & ES & LS) & (x & EX & LX) & Q & F). unfold recompose. rewrite ES, EX. cbn [opt_post]. rewrite <- app_assoc.
    exists sch, (ss ":" ++ opt_pre (ss "//") (r_authority r) ++ opt_pre [] (Some x) ++ opt_pre (ss "?") (r_query r) ++ opt_pre (ss "#") (r_fragment r)). split; [reflexivity|]. split; [exact LS|].
    eexists _, _. split; [reflexivity|]. split; [now apply lit_c|]. exists (opt_pre (ss "//") (r_authority r) ++ x), (opt_pre (ss "?") (r_query r) ++ opt_pre (ss "#") (r_fragment r)).
    split; [now rewrite <- app_assoc|]. split.
    + destruct (r_authority r) as [a|]; cbn [opt_pre app].
      * left; left; left. rewrite <- app_assoc. exists (ss "//"), (a ++ x). split; [reflexivity|]. split; [now apply lit_ss|]. exists a, x. auto.
      * destruct LX as [X|[X|X]]; [left; left; right|left; right|right]; exact X.
    + apply (proj2 (L_tail _)). exists (mkcomponents None None false [] (r_query r) (r_fragment r)). split; [reflexivity|]. auto.
Qed.
Lemma relative_by_pieces s : L relative_ref s <-> exists r, by_regex s = Some r /\ recompose r = s /\ relative_pieces r.
Proof.
  split.
  - intros H. apply L_relative_ref in H as [c D]. exists (pieces_of c). split; [now apply regex_relative|]. destruct D as (sh & st & ES & -> & H & (-> & Q & F)).
    split; [rewrite (recompose_of sh c segment_nz_nc); auto; rewrite ES; reflexivity|].
    split; [exact ES|]. split; [|split; assumption]. eexists. split; [reflexivity|]. apply (hier_text segment_nz_nc sh c); auto.
  - intros (r & _ & <- & ES & (x & EX & LX) & Q & F). unfold recompose. rewrite ES, EX. cbn [opt_post].
    exists (opt_pre (ss "//") (r_authority r) ++ x), (opt_pre (ss "?") (r_query r) ++ opt_pre (ss "#") (r_fragment r)).
    split; [now rewrite <- app_assoc|]. split.
    + destruct (r_authority r) as [a|]; cbn [opt_pre app].
      * left; left; left. rewrite <- app_assoc. exists (ss "//"), (a ++ x). split; [reflexivity|]. split; [now apply lit_ss|]. exists a, x. auto.
      * destruct LX as [X|[X|X]]; [left; left; right|left; right|right]; exact X.
    + apply (proj2 (L_tail _)). exists (mkcomponents None None false [] (r_query r) (r_fragment r)). split; [reflexivity|]. auto.
Qed.
