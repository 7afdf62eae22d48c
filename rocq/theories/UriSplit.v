(* split and split_reference against RFC 3986 *)
From Verif Require Import Base ModelRule ModelUri Peg PegUri PegLang UriLang UriIPv6 SpecHost UriHost UriStruct SpecParts.
From Verif Require Rfc3986.
Import Rfc3986 (L, abnf, Rng, Lit, Cat, Alt, Rep, lower, components, mkcomponents, c_scheme, c_authority,
  c_absolute, c_segments, c_query, c_fragment, opt_pre, opt_post, in_opt, slashed, authority_decomp,
  abempty_decomp, absolute_decomp, rootless_decomp, empty_decomp, hier_decomp, tail_decomp, URI_decomp,
  relative_decomp, reference_decomp).
From Coq Require Import ZifyBool ZifyNat ZifyN.
Local Notation concat := List.concat.
Local Notation parser := (Peg.parser action).

Definition parts_of (c : components) : parts :=
  mkparts (c_scheme c) (match c_authority c with Some (u, h, p) => Some (mkauth u h p) | None => None end)
    (mkpath (c_absolute c) (c_segments c)) (c_query c) (c_fragment c).
Lemma comps_parts_of c : comps (parts_of c) = c.
Proof. destruct c as [s [[[u h] p]|] ab sg q f]; reflexivity. Qed.
Lemma parts_of_comps p : parts_of (comps p) = p.
Proof. destruct p as [s [[u h p]|] [ab sg] q f]; reflexivity. Qed.

(* --- running the acceptors -------------------------------------------------- *)
Notation run := (run_accs run_action).
Lemma run_app l1 l2 st : run (l1 ++ l2) st = bind (run l1 st) (run l2).
Proof.
  revert st. induction l1 as [|[g s] l1 IH]; intros st; cbn; auto.
  destruct (run_action g s st); cbn; auto.
Qed.
Lemma run_segs b segs p :
  run (segs_acts b segs) p =
  Ok (set_path p (mkpath (absolute (p_path p) || (b && match segs with [] => false | _ => true end))
                         (segments (p_path p) ++ segs))).
Proof.
  revert p. induction segs as [|x segs IH]; intros p.
  - cbn. rewrite app_nil_r, andb_false_r, orb_false_r. destruct p as [? ? [? ?] ? ?]; reflexivity.
  - cbn [segs_acts map concat seg_acts app]. cbn [run_accs run_action bind set_path p_path segments absolute].
    unfold set_back. destruct (segments (p_path p) ++ [[]]) eqn:E.
    { destruct (segments (p_path p)); discriminate. }
    rewrite <- E. rewrite removelast_last. cbn [bind]. fold (segs_acts b segs). rewrite IH. cbn [p_path absolute segments set_path].
    rewrite <- app_assoc. cbn [app]. unfold set_path. cbn [p_scheme p_authority p_path p_query p_fragment absolute segments].
    destruct b, (absolute (p_path p)), segs; reflexivity.
Qed.
Lemma run_auth u h pt p : p_authority p = None ->
  run (auth_acts u h pt) p = Ok (set_authority p (mkauth u h pt)).
Proof.
  intros H. unfold auth_acts. destruct p as [s a pa q f]. cbn in H. subst a. destruct u, pt; reflexivity.
Qed.
(* the shape guaranteed by the decomposition *)
Lemma run_hier first s c p : hier_decomp first s c -> p_authority p = None -> p_path p = empty_path ->
  run (hier_acts c) p = Ok (mkparts (p_scheme p) (p_authority (parts_of c)) (p_path (parts_of c)) (p_query p) (p_fragment p)).
Proof.
  intros H Ha Hp. destruct p as [sc a pa q f]. cbn in Ha, Hp. subst a pa.
  destruct H as [(au & sa & sp & Ea & _ & _ & (_ & _ & Hab))|[Ea H]]; unfold hier_acts; cbn [parts_of p_authority p_path]; rewrite Ea.
  - destruct au as [[u h] pt]. rewrite run_app, run_auth by reflexivity. cbn [bind]. rewrite run_segs. cbn. rewrite Hab. reflexivity.
  - destruct H as [(Eb & _ & Hs)|[(Eb & x & rest & Es & _)|(_ & Eb & Es)]].
    + rewrite Eb. destruct Hs as [->|(x & rest & -> & Hx & _)]; [reflexivity|].
      apply segment_nz_cons in Hx. unfold absolute_acts. destruct x as [|d x]; [congruence|].
      cbn [run_accs run_action bind set_path p_path empty_path segments absolute set_back app removelast].
      rewrite run_segs. reflexivity.
    + rewrite Eb, Es. cbn [run_accs run_action bind set_path p_path empty_path segments absolute app].
      rewrite run_segs. reflexivity.
    + rewrite Eb, Es. reflexivity.
Qed.
Lemma run_tail c p : p_query p = None -> p_fragment p = None ->
  run (tail_acts c) p = Ok (mkparts (p_scheme p) (p_authority p) (p_path p) (c_query c) (c_fragment c)).
Proof.
  destruct p as [s a pa q f]. cbn. intros -> ->. unfold tail_acts. destruct (c_query c), (c_fragment c); reflexivity.
Qed.
Lemma run_uri s c : reference_decomp s c -> run (uri_acts c) empty_parts = Ok (parts_of c).
Proof.
  intros H. unfold uri_acts. rewrite !run_app.
  assert (E : exists first sh, hier_decomp first sh c).
  { destruct H as [(sch & sh & st & _ & _ & _ & Hh & _)|(sh & st & _ & _ & Hh & _)]; eauto. }
  destruct E as (first & sh & Hh).
  assert (E : run match c_scheme c with Some s => [(SetScheme, s)] | None => [] end empty_parts
     = Ok (mkparts (c_scheme c) None empty_path None None)) by (destruct (c_scheme c); reflexivity).
  etransitivity; [apply (f_equal (fun o => bind o (run (hier_acts c ++ tail_acts c)))); exact E|].
  cbn [bind]. rewrite run_app, (run_hier _ _ _ _ Hh) by reflexivity. cbn [bind].
  rewrite run_tail by reflexivity. reflexivity.
Qed.

(* --- uniqueness of the RFC decomposition --------------------------------------- *)
Lemma wf_host_rfc : wf _ g_host_rfc.
Proof. apply wf_alts. repeat (apply Forall_cons || apply Forall_nil); [apply (i_ip_literal true 0)|apply (i_reg_name true 0)]. Qed.
Lemma c_host_rfc' : complete g_host_rfc (fun m a => a = [] /\ L Rfc3986.host m /\ True) (nohd fl_host).
Proof. intros m a r (-> & H & _). now apply c_host_rfc. Qed.
Lemma unamb_True c : unamb (fun _ => True) c.
Proof. unfold unamb. destruct (c_authority c) as [[[u h] p]|]; exact I. Qed.
Lemma decomp_unique s c1 c2 : reference_decomp s c1 -> reference_decomp s c2 -> c1 = c2.
Proof.
  intros H1 H2.
  pose proof (c_reference g_host_rfc (fun _ => True) c_host_rfc' wf_host_rfc s (uri_acts c1) []) as E1.
  pose proof (c_reference g_host_rfc (fun _ => True) c_host_rfc' wf_host_rfc s (uri_acts c2) []) as E2.
  rewrite E1 in E2.
  - assert (E : uri_acts c1 = uri_acts c2).
    { enough (Some (s, uri_acts c1, @nil ascii) = Some (s, uri_acts c2, [])) by congruence. apply E2; auto.
      exists c2. auto using unamb_True. }
    apply run_uri in H1, H2. rewrite E in H1. rewrite <- (comps_parts_of c1), <- (comps_parts_of c2). congruence.
  - exists c1. auto using unamb_True.
  - reflexivity.
Qed.

(* --- the grammar as a language --------------------------------------------------- *)
Lemma L_opt_pre x g m : (forall s, L (Lit x) s <-> s = ss x) ->
  L (Rep 0 (Some 1) (Cat (Lit x) g)) m <-> exists o, m = opt_pre (ss x) o /\ in_opt g o.
Proof.
  intros Hx. rewrite L_maybe. split.
  - intros [->|(a & b & -> & Ha & Hb)]; [exists None; cbn; auto|]. apply (proj1 (Hx _)) in Ha. subst. exists (Some b). cbn; auto.
  - intros ([y|] & -> & Hy); [right|left; reflexivity]. exists (ss x), y. split; auto. split; auto. now apply Hx.
Qed.
Lemma L_opt_post x g m : (forall s, L (Lit x) s <-> s = ss x) ->
  L (Rep 0 (Some 1) (Cat g (Lit x))) m <-> exists o, m = opt_post o (ss x) /\ in_opt g o.
Proof.
  intros Hx. rewrite L_maybe. split.
  - intros [->|(a & b & -> & Ha & Hb)]; [exists None; cbn; auto|]. apply (proj1 (Hx _)) in Hb. subst. exists (Some a). cbn; auto.
  - intros ([y|] & -> & Hy); [right|left; reflexivity]. exists y, (ss x). split; auto. split; auto. now apply Hx.
Qed.
Lemma lit1 n x : (n <? 256)%N = true -> same_cls (Lit (String x EmptyString)) (ch n) = true -> chr n = x ->
  forall s, L (Lit (String x EmptyString)) s <-> s = ss (String x EmptyString).
Proof. intros Hn Hs E s. rewrite (L_lit1 n x s Hn Hs), E. reflexivity. Qed.
Lemma lit_q s : L (Lit "?") s <-> s = ss "?". Proof. now apply (lit1 63). Qed.
Lemma lit_h s : L (Lit "#") s <-> s = ss "#". Proof. now apply (lit1 35). Qed.
Lemma lit_c s : L (Lit ":") s <-> s = ss ":". Proof. now apply (lit1 58). Qed.
Lemma lit_at s : L (Lit "@") s <-> s = ss "@". Proof. now apply (lit1 64). Qed.
Lemma lit_s s : L (Lit "/") s <-> s = ss "/". Proof. now apply (lit1 47). Qed.
Lemma lit_ss s : L (Lit "//") s <-> s = ss "//".
Proof.
  cbn. split; [|now intros ->]. destruct s as [|c [|d [|e s]]]; cbn; try discriminate. intros H. inversion H as [[H1 H2]].
  assert (E : forall x, lower x = "/"%char -> x = "/"%char).
  { intros x Hx. pose proof (sweep (fun c => implb (Ascii.eqb (lower c) "/") (Ascii.eqb c "/")) eq_refl x) as Hs. cbn -[lower] in Hs.
    rewrite Hx in Hs. apply Ascii.eqb_eq in Hs. exact Hs. }
  rewrite H1 in H2. now rewrite (E _ H1), (E _ H2).
Qed.
Lemma L_slashed m : L (Rep 0 None (Cat (Lit "/") Rfc3986.segment)) m <-> exists segs, m = slashed segs /\ Forall (L Rfc3986.segment) segs.
Proof.
  split.
  - intros (l & -> & Hl & _). induction Hl as [|x l (a & b & -> & Ha & Hb) _ (segs & E & Hs)]; [exists []; auto|].
    apply (proj1 (lit_s _)) in Ha. subst a. exists (b :: segs). split; auto. cbn [concat]. rewrite E. reflexivity.
  - intros (segs & -> & Hs). exists (map (fun x => ss "/" ++ x) segs). repeat split; auto; [|lia].
    induction Hs; cbn; constructor; auto. exists (ss "/"), x. repeat split; auto.
Qed.
Lemma L_authority m : L Rfc3986.authority m <-> exists a, authority_decomp m a.
Proof.
  split.
  - intros (x & t & -> & Hx & h & y & -> & Hh & Hy). apply (L_opt_post "@" _ _ lit_at) in Hx. apply (L_opt_pre ":" _ _ lit_c) in Hy.
    destruct Hx as (u & -> & Hu), Hy as (p & -> & Hp). exists (u, h, p). repeat split; auto.
  - intros ([[u h] p] & -> & Hu & Hh & Hp). exists (opt_post u (ss "@")), (h ++ opt_pre (ss ":") p). split; auto. split.
    + apply (L_opt_post "@" _ _ lit_at); eauto.
    + exists h, (opt_pre (ss ":") p). split; auto. split; auto. apply (L_opt_pre ":" _ _ lit_c); eauto.
Qed.
Lemma L_abempty m : L Rfc3986.path_abempty m <-> exists b segs, abempty_decomp m b segs.
Proof.
  unfold Rfc3986.path_abempty. rewrite L_slashed. split.
  - intros (segs & -> & Hs). eexists _, segs. split; [reflexivity|]. split; auto.
  - intros (b & segs & -> & Hs & _). eauto.
Qed.
Lemma L_absolute m : L Rfc3986.path_absolute m <-> exists segs, absolute_decomp m true segs.
Proof.
  split.
  - intros (a & t & -> & Ha & Ht). apply (proj1 (lit_s _)) in Ha. subst a. apply L_maybe in Ht. destruct Ht as [->|(x & y & -> & Hx & Hy)].
    + exists [[]]. repeat split; auto.
    + apply L_slashed in Hy. destruct Hy as (rest & -> & Hr). exists (x :: rest). split; auto. split; [reflexivity|]. right. eauto.
  - intros (segs & _ & -> & H). destruct H as [->|(x & rest & -> & Hx & Hr)].
    + exists (ss "/"), []. split; auto. split; [now apply lit_s|]. apply L_maybe. auto.
    + exists (ss "/"), (x ++ slashed rest). split; [reflexivity|]. split; [now apply lit_s|]. apply L_maybe. right.
      exists x, (slashed rest). split; auto. split; auto. apply L_slashed. eauto.
Qed.
Lemma L_rootless first m : L (Cat first (Rep 0 None (Cat (Lit "/") Rfc3986.segment))) m <->
  exists segs, rootless_decomp first m false segs.
Proof.
  split.
  - intros (x & y & -> & Hx & Hy). apply L_slashed in Hy. destruct Hy as (rest & -> & Hr). exists (x :: rest). split; auto. exists x, rest. auto.
  - intros (segs & _ & x & rest & -> & -> & Hx & Hr). exists x, (slashed rest). split; auto. split; auto. apply L_slashed. eauto.
Qed.
Lemma L_empty m : L Rfc3986.path_empty m <-> m = [].
Proof.
  split; [|intros ->; exists []; repeat split; auto]. intros (l & -> & _ & _ & H). destruct l; [reflexivity|cbn in H; lia].
Qed.
Lemma L_hier first m :
  L (Alt (Alt (Alt (Cat (Lit "//") (Cat Rfc3986.authority Rfc3986.path_abempty)) Rfc3986.path_absolute)
     (Cat first (Rep 0 None (Cat (Lit "/") Rfc3986.segment)))) Rfc3986.path_empty) m <-> exists c, hier_decomp first m c.
Proof.
  assert (A : forall a b s, L (Alt a b) s <-> L a s \/ L b s) by (intros; reflexivity).
  rewrite !A, L_absolute, L_rootless, L_empty. split.
  - intros [[[H|(segs & H)]|(segs & H)]| ->].
    + destruct H as (a & t & -> & Ha & x & y & -> & Hx & Hy). apply (proj1 (lit_ss _)) in Ha. subst a. apply L_authority in Hx. apply L_abempty in Hy.
      destruct Hx as (au & Hx), Hy as (b & segs & Hy). exists (mkcomponents None (Some au) b segs None None). left. exists au, x, y. auto.
    + exists (mkcomponents None None true segs None None). right; auto.
    + exists (mkcomponents None None false segs None None). right; auto.
    + exists (mkcomponents None None false [] None None). right. split; auto. right; right. repeat split.
  - intros (c & [(a & sa & sp & Ea & -> & Ha & Hp)|[Ea [H|[H|H]]]]).
    + left; left; left. exists (ss "//"), (sa ++ sp). split; auto. split; [now apply lit_ss|]. exists sa, sp. split; auto.
      split; [apply L_authority|apply L_abempty]; eauto.
    + left; left; right. pose proof H as (Eb & _). rewrite Eb in H. eauto.
    + left; right. pose proof H as (Eb & _). rewrite Eb in H. eauto.
    + right. apply H.
Qed.
Lemma L_tail m : L (Cat (Rep 0 (Some 1) (Cat (Lit "?") Rfc3986.query)) (Rep 0 (Some 1) (Cat (Lit "#") Rfc3986.fragment))) m <->
  exists c, tail_decomp m c.
Proof.
  split.
  - intros (x & y & -> & Hx & Hy). apply (L_opt_pre "?" _ _ lit_q) in Hx. apply (L_opt_pre "#" _ _ lit_h) in Hy.
    destruct Hx as (q & -> & Hq), Hy as (f & -> & Hf). exists (mkcomponents None None false [] q f). split; auto.
  - intros (c & -> & Hq & Hf). exists (opt_pre (ss "?") (c_query c)), (opt_pre (ss "#") (c_fragment c)). split; auto. split.
    + apply (L_opt_pre "?" _ _ lit_q); eauto. + apply (L_opt_pre "#" _ _ lit_h); eauto.
Qed.
Definition with_tail (sch : option str) (c d : components) : components :=
  mkcomponents sch (c_authority c) (c_absolute c) (c_segments c) (c_query d) (c_fragment d).
Lemma L_URI s : L Rfc3986.URI s <-> exists c, URI_decomp s c.
Proof.
  split.
  - intros (sch & t & -> & Hs & c & t2 & -> & Hc & sh & st & -> & Hh & Ht). apply (proj1 (lit_c _)) in Hc. subst c.
    apply L_hier in Hh. apply L_tail in Ht. destruct Hh as (c1 & H1), Ht as (c2 & H2).
    exists (with_tail (Some sch) c1 c2), sch, sh, st. repeat split; auto; apply H2.
  - intros (c & sch & sh & st & _ & Hs & -> & Hh & Ht). exists sch, (ss ":" ++ sh ++ st). split; auto. split; auto.
    exists (ss ":"), (sh ++ st). split; auto. split; [now apply lit_c|]. exists sh, st. split; auto.
    split; [apply L_hier; eauto|apply L_tail; eauto].
Qed.
Lemma L_relative_ref s : L Rfc3986.relative_ref s <-> exists c, relative_decomp s c.
Proof.
  split.
  - intros (sh & st & -> & Hh & Ht). apply L_hier in Hh. apply L_tail in Ht. destruct Hh as (c1 & H1), Ht as (c2 & H2).
    exists (with_tail None c1 c2), sh, st. repeat split; auto; apply H2.
  - intros (c & sh & st & _ & -> & Hh & Ht). exists sh, st. split; auto.
    split; [apply L_hier; eauto|apply L_tail; eauto].
Qed.
Lemma L_URI_reference s : L Rfc3986.URI_reference s <-> exists c, reference_decomp s c.
Proof.
  change (L Rfc3986.URI_reference s) with (L Rfc3986.URI s \/ L Rfc3986.relative_ref s).
  rewrite L_URI, L_relative_ref. unfold reference_decomp.
  split; [intros [[c H]|[c H]]; exists c; auto|intros [c [H|H]]; [left|right]; exists c; exact H].
Qed.

(* --- no high bytes in RFC strings ---------------------------------------------------- *)
Definition low (c : ascii) : bool := negb (high c).
Lemma low_bad {T} sg s (o : outcome T) : all low s -> ~ bad sg s o.
Proof.
  intros H (_ & He & _). apply Exists_exists in He. destruct He as (c & Hin & Hc). rewrite Forall_forall in H.
  apply H in Hin. unfold low in Hin. rewrite Hc in Hin. discriminate.
Qed.
Lemma all_opt_pre f x o : all f (ss x) -> (forall y, o = Some y -> all f y) -> all f (opt_pre (ss x) o).
Proof. intros H1 H2. destruct o; cbn; auto. apply Forall_app; auto. Qed.
Lemma segs_low segs : Forall (L Rfc3986.segment) segs -> all low (slashed segs).
Proof.
  induction 1 as [|x l Hx _ IH]; [constructor|]. cbn. constructor; [reflexivity|]. apply Forall_app; split; auto.
  apply segment_chars in Hx. revert Hx. apply all_imp. vm_compute. reflexivity.
Qed.
Ltac to_low H := revert H; apply all_imp; vm_compute; reflexivity.
Lemma auth_low m a : authority_decomp m a -> all low m.
Proof.
  destruct a as [[u h] p]. intros (-> & Hu & Hh & Hp). repeat (apply Forall_app; split).
  - destruct u as [u|]; [|constructor]. apply Forall_app; split; [|repeat constructor]. apply userinfo_chars in Hu. to_low Hu.
  - apply host_chars in Hh. to_low Hh.
  - destruct p as [p|]; [|constructor]. cbn. constructor; [reflexivity|]. apply port_chars in Hp. to_low Hp.
Qed.
Lemma hier_low first m c : (forall x, L first x -> all low x) -> hier_decomp first m c -> all low m.
Proof.
  intros Hf [(a & sa & sp & Ea & -> & Ha & (-> & Hp & _))|[Ea [(_ & -> & H)|[(_ & x & rest & _ & -> & Hx & Hr)|(-> & _)]]]].
  - repeat (apply Forall_app; split); [repeat constructor|eapply auth_low; eauto|now apply segs_low].
  - destruct H as [->|(x & rest & -> & Hx & Hr)]; [repeat constructor|]. cbn. constructor; [reflexivity|].
    apply Forall_app; split; [|now apply segs_low]. apply segment_nz_chars in Hx. to_low Hx.
  - apply Forall_app; split; [auto|now apply segs_low].
  - constructor.
Qed.
Lemma tail_low m c : tail_decomp m c -> all low m.
Proof.
  intros (-> & Hq & Hf). apply Forall_app; split; apply all_opt_pre; try (repeat constructor);
   intros y E; [rewrite E in Hq; apply query_chars in Hq; to_low Hq|rewrite E in Hf; apply query_chars in Hf; to_low Hf].
Qed.
Lemma decomp_low s c : reference_decomp s c -> all low s.
Proof.
  intros [(sch & sh & st & _ & Hs & -> & Hh & Ht)|(sh & st & _ & -> & Hh & Ht)].
  - apply scheme_chars in Hs. destruct Hs as [Hs _]. repeat (apply Forall_app; split); [to_low Hs|repeat constructor| |eapply tail_low; eauto].
    eapply hier_low; [|eauto]. intros x Hx. apply segment_nz_chars in Hx. to_low Hx.
  - apply Forall_app; split; [|eapply tail_low; eauto].
    eapply hier_low; [|eauto]. intros x Hx. apply segment_nz_nc_chars in Hx. to_low Hx.
Qed.

(* --- parse_done ------------------------------------------------------------------------ *)
Definition finish (o : Peg.res action) : outcome (option parts) :=
  match o with
  | Some (_, a, []) => do p <- run a empty_parts; Ok (Some p)
  | _ => Ok None
  end.
Lemma parse_done_spec sg fuel f p s : impl action sg fuel f p -> fits fuel s ->
  parse_done f s = finish (p s) \/ bad sg s (parse_done f s).
Proof.
  intros Hi Hf. unfold parse_done. destruct (chain_concat0 action sg fuel s f p Hf Hi) as [_ [E|(B1 & B2 & B3)]]; cbn [bind] in *.
  - left. rewrite E. cbn [bind]. unfold finish. destruct (p s) as [[[m a] r]|]; cbn; auto.
    destruct r; cbn; auto. unfold done. cbn. destruct (run a empty_parts); reflexivity.
  - right. rewrite B3. repeat split; auto.
Qed.

(* --- split and split_reference ------------------------------------------------------------ *)
Lemma unamb_eq c : unamb host_unambiguous c <-> unambiguous c.
Proof. reflexivity. Qed.
Lemma finish_URI s p : finish (g_URI s) = Ok (Some p) <-> URI_decomp s (comps p) /\ unambiguous (comps p).
Proof.
  split.
  - unfold finish. destruct (g_URI s) as [[[m a] [|d r]]|] eqn:E; try discriminate.
    assert (W : wf _ g_URI) by apply (i_URI true 0). pose proof (W _ _ _ _ E) as Es. rewrite app_nil_r in Es. subst m.
    apply (s_URI g_host host_unambiguous s_host) in E. destruct E as (c & Hc & Hu & ->).
    rewrite (run_uri s c) by (left; auto). cbn [bind]. intros H; inv H. rewrite comps_parts_of. auto.
  - intros [Hd Hu]. unfold finish.
    pose proof (c_URI g_host host_unambiguous c_host s (uri_acts (comps p)) []) as E. rewrite app_nil_r in E.
    rewrite g_URI_eq, E; [|exists (comps p); auto|reflexivity].
    rewrite (run_uri s (comps p)) by (left; auto). cbn [bind]. now rewrite parts_of_comps.
Qed.
Lemma finish_URI_total s : exists o, finish (g_URI s) = Ok o.
Proof.
  unfold finish. destruct (g_URI s) as [[[m a] [|d r]]|] eqn:E; eauto.
  apply (s_URI g_host host_unambiguous s_host) in E. destruct E as (c & Hc & Hu & ->).
  rewrite (run_uri m c) by (left; auto). cbn. eauto.
Qed.
Lemma wf_g_host : wf _ g_host.
Proof. apply (i_host true 0). Qed.
Lemma finish_reference s p : finish (g_URI_reference s) = Ok (Some p) <-> reference_decomp s (comps p) /\ unambiguous (comps p).
Proof.
  split.
  - unfold finish. destruct (g_URI_reference s) as [[[m a] [|d r]]|] eqn:E; try discriminate.
    assert (W : wf _ g_URI_reference) by apply (i_URI_reference true 0). pose proof (W _ _ _ _ E) as Es. rewrite app_nil_r in Es. subst m.
    apply (s_reference g_host host_unambiguous s_host) in E. destruct E as (c & Hc & Hu & ->).
    rewrite (run_uri s c) by auto. cbn [bind]. intros H; inv H. rewrite comps_parts_of. auto.
  - intros [Hd Hu]. unfold finish.
    pose proof (c_reference g_host host_unambiguous c_host wf_g_host s (uri_acts (comps p)) []) as E. rewrite app_nil_r in E.
    rewrite g_URI_reference_eq, E; [|exists (comps p); auto|reflexivity].
    rewrite (run_uri s (comps p)) by auto. cbn [bind]. now rewrite parts_of_comps.
Qed.
Lemma finish_reference_total s : exists o, finish (g_URI_reference s) = Ok o.
Proof.
  unfold finish. destruct (g_URI_reference s) as [[[m a] [|d r]]|] eqn:E; eauto.
  apply (s_reference g_host host_unambiguous s_host) in E. destruct E as (c & Hc & Hu & ->).
  rewrite (run_uri m c) by auto. cbn. eauto.
Qed.

Lemma split_iff sg fuel s p : fits fuel s ->
  split sg fuel s = Ok (Some p) <-> URI_decomp s (comps p) /\ unambiguous (comps p).
Proof.
  intros Hf. rewrite <- finish_URI.
  destruct (parse_done_spec sg fuel _ _ s (i_URI sg fuel) Hf) as [E|B]; [unfold split; now rewrite E|].
  split; [destruct B as (_ & _ & B); unfold split; rewrite B; discriminate|].
  intros H. apply finish_URI in H. destruct H as [H _]. exfalso. eapply low_bad; [|exact B]. eapply decomp_low. left; eauto.
Qed.
Lemma split_reference_iff sg fuel s p : fits fuel s ->
  split_reference sg fuel s = Ok (Some p) <-> reference_decomp s (comps p) /\ unambiguous (comps p).
Proof.
  intros Hf. rewrite <- finish_reference.
  destruct (parse_done_spec sg fuel _ _ s (i_URI_reference sg fuel) Hf) as [E|B]; [unfold split_reference; now rewrite E|].
  split; [destruct B as (_ & _ & B); unfold split_reference; rewrite B; discriminate|].
  intros H. apply finish_reference in H. destruct H as [H _]. exfalso. eapply low_bad; [|exact B]. eapply decomp_low. eauto.
Qed.
(* totality *)
Lemma split_total sg fuel s : fits fuel s ->
  (exists o, split sg fuel s = Ok o) \/ bad sg s (split sg fuel s).
Proof.
  intros Hf. destruct (parse_done_spec sg fuel _ _ s (i_URI sg fuel) Hf) as [E|B]; [left|right; auto].
  unfold split. rewrite E. apply finish_URI_total.
Qed.
Lemma split_reference_total sg fuel s : fits fuel s ->
  (exists o, split_reference sg fuel s = Ok o) \/ bad sg s (split_reference sg fuel s).
Proof.
  intros Hf. destruct (parse_done_spec sg fuel _ _ s (i_URI_reference sg fuel) Hf) as [E|B]; [left|right; auto].
  unfold split_reference. rewrite E. apply finish_reference_total.
Qed.

(* --- valid () of single components --------------------------------------------------------- *)
Lemma matches_spec sg fuel f p s : impl action sg fuel f p -> fits fuel s ->
  (forall m a r, p s = Some (m, a, r) -> a = []) ->
  matches f s = Ok (match p s with Some (_, _, []) => true | _ => false end) \/ bad sg s (matches f s).
Proof.
  intros Hi Hf Ha. unfold matches. destruct (chain_concat0 action sg fuel s f p Hf Hi) as [_ [E|(B1 & B2 & B3)]]; cbn [bind] in *.
  - left. rewrite E. cbn [bind]. destruct (p s) as [[[m a] r]|]; cbn; auto.
    rewrite (Ha _ _ _ eq_refl). destruct r; reflexivity.
  - right. rewrite B3. repeat split; auto.
Qed.
