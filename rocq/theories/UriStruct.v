(* authority, paths, hier-part, URI, relative-ref: soundness and completeness, with the action lists *)
From Verif Require Import Base ModelRule ModelUri Peg PegUri PegLang UriLang UriIPv6 SpecHost UriHost.
From Verif Require Rfc3986.
Import Rfc3986 (L, abnf, Rng, Lit, Cat, Alt, Rep, lower, components, mkcomponents, c_scheme, c_authority,
  c_absolute, c_segments, c_query, c_fragment, opt_pre, opt_post, in_opt, slashed, authority_decomp,
  abempty_decomp, absolute_decomp, rootless_decomp, empty_decomp, hier_decomp, tail_decomp, URI_decomp,
  relative_decomp, reference_decomp).
From Coq Require Import ZifyBool ZifyNat ZifyN.
Local Notation concat := List.concat.
Local Notation parser := (Peg.parser action).
Local Notation pseq := (Peg.pseq action).
Local Notation popt := (Peg.popt action).
Local Notation pact := (Peg.pact action).
Local Notation palts := (Peg.palts action).
Local Notation pchr := (Peg.pchr action).
Local Notation pstar := (Peg.pstar action).

Notation SL := "/"%char.

(* one literal character *)
Definition is1 (c : ascii) : rel := fun m a => m = [c] /\ a = [].
Lemma s_is1 n : (n <? 256)%N = true -> sound (g_ch n) (is1 (chr n)).
Proof.
  intros Hn s m a r H. apply chr1 in H. destruct H as (x & -> & -> & Hx). apply ch_spec in Hx; auto. now subst.
Qed.
Lemma c_is1 n : (n <? 256)%N = true -> complete (g_ch n) (is1 (chr n)) any.
Proof.
  intros Hn m a r [-> ->] _. cbn. replace (ch n (chr n)) with true; auto. symmetry. now apply ch_spec.
Qed.
Lemma hd_sep f n x r : f (chr n) = false -> nohd f ((chr n :: x) ++ r).
Proof. cbn. auto. Qed.

Lemma nohd_app f m r : m <> [] -> nohd f m -> nohd f (m ++ r).
Proof. destruct m; [congruence|auto]. Qed.

(* --- "/" segment sequences ------------------------------------------------- *)
Definition seg_acts (b : bool) (x : str) : acts := [(AppendDir b, [SL]); (AppendSegment, x)].
Definition segs_acts b (segs : list str) : acts := concat (map (seg_acts b) segs).
Definition Rseg b : rel := fun m a => exists x, m = SL :: x /\ L Rfc3986.segment x /\ a = seg_acts b x.
Definition Rsegs b : rel := fun m a => exists segs, m = slashed segs /\ Forall (L Rfc3986.segment) segs /\ a = segs_acts b segs.

Lemma s_slash_seg b : sound (g_slash_seg b) (Rseg b).
Proof.
  eapply sound_imp; [apply sound_seq; [apply sound_act, (s_is1 47); reflexivity|apply sound_act, s_segment]|].
  intros m a (m1 & m2 & a1 & a2 & -> & -> & (b1 & [-> ->] & ->) & (b2 & [H ->] & ->)). exists m2. auto.
Qed.
Lemma c_slash_seg b : complete (g_slash_seg b) (Rseg b) (nohd fl_auth).
Proof.
  eapply complete_imp.
  - apply complete_seq with (F1 := any) (F2 := nohd fl_auth); [apply complete_act, (c_is1 47); reflexivity| |intros; exact I].
    eapply complete_imp; [apply complete_act, c_segment|intros m a H; exact H|].
    intros r. apply nohd_imp_b. vm_compute. reflexivity.
  - intros m a (x & -> & Hx & ->). exists [SL], x, [(AppendDir b, [SL])], [(AppendSegment, x)]. split; auto. split; auto. split.
    + exists []. repeat split; auto. + exists []. repeat split; auto.
  - auto.
Qed.
Lemma star_segs b m a : rstar 0 None (Rseg b) m a <-> Rsegs b m a.
Proof.
  split.
  - intros (l & -> & -> & Hl & _). induction Hl as [|[m a] l (x & E1 & Hx & E2) _ (segs & I1 & I2 & I3)].
    + exists []. repeat split; auto.
    + cbn in *. subst. exists (x :: segs). repeat split; auto.
      * cbn. unfold slashed in I1. now rewrite I1. * cbn. unfold segs_acts in *. now rewrite I3.
  - intros (segs & -> & Hs & ->). exists (map (fun x => (SL :: x, seg_acts b x)) segs).
    unfold slashed, segs_acts. rewrite !map_map. repeat split; auto; [|lia].
    induction Hs; cbn; constructor; auto. exists x. auto.
Qed.
Lemma s_slash_segs b : sound (pstar 0 None (g_slash_seg b)) (Rsegs b).
Proof. eapply sound_imp; [apply sound_star, s_slash_seg|]. intros m a. apply star_segs. Qed.
Lemma slash_seg_fail b r : nohd (ch 47) r -> g_slash_seg b r = None.
Proof.
  intros H. unfold g_slash_seg, Peg.pseq, oseq, Peg.pact. unfold g_slash, g_ch. now rewrite fail_chr.
Qed.
Lemma c_slash_segs b : complete (pstar 0 None (g_slash_seg b)) (Rsegs b) (nohd fl_path).
Proof.
  intros m a r Hm Hr. apply star_segs in Hm. destruct Hm as (l & -> & -> & Hl & _). unfold Peg.pstar.
  rewrite (complete_prep (g_slash_seg b) (Rseg b) (nohd fl_auth)); auto.
  - apply c_slash_seg.
  - intros m a r' (x & -> & _). reflexivity.
  - revert Hr. apply nohd_imp_b. vm_compute. reflexivity.
  - left. apply slash_seg_fail. revert Hr. apply nohd_imp_b. vm_compute. reflexivity.
  - rewrite app_length. pose proof (concat_length_ge (Rseg b) l) as H. assert (length l <= length (concat (map fst l))); [|lia].
    apply H; auto. intros m a (x & -> & _). discriminate.
Qed.

(* --- paths ------------------------------------------------------------------- *)
Definition Rabempty : rel := fun m a =>
  exists abs segs, abempty_decomp m abs segs /\ a = segs_acts true segs.
Lemma s_abempty : sound g_abempty Rabempty.
Proof.
  eapply sound_imp; [apply s_slash_segs|]. intros m a (segs & -> & Hs & ->).
  eexists _, segs. split; [split; [reflexivity|split; auto]|reflexivity].
Qed.
Lemma c_abempty : complete g_abempty Rabempty (nohd fl_path).
Proof.
  eapply complete_imp; [apply c_slash_segs| |auto]. intros m a (abs & segs & (-> & Hs & _) & ->). exists segs. auto.
Qed.
Definition absolute_acts (segs : list str) : acts :=
  (AppendDir true, [SL]) ::
  match segs with
  | x :: rest => match x with [] => [] | _ => (AppendSegment, x) :: segs_acts false rest end
  | [] => []
  end.
Definition Rabsolute : rel := fun m a =>
  exists segs, absolute_decomp m true segs /\ a = absolute_acts segs.
Lemma segment_nz_cons x : L Rfc3986.segment_nz x -> x <> [].
Proof.
  intros (l & -> & Hl & Hn & _). destruct l as [|y l]; [cbn in Hn; lia|]. inv Hl.
  apply (proj1 (proj2 e_pchar)) in H1. apply elemL_nonempty in H1. cbn. destruct y; [congruence|discriminate].
Qed.
Lemma segment_nz_nc_cons x : L Rfc3986.segment_nz_nc x -> x <> [].
Proof.
  intros (l & -> & Hl & Hn & _). destruct l as [|y l]; [cbn in Hn; lia|]. inv Hl.
  apply (proj1 (proj2 e_nchar)) in H1. apply elemL_nonempty in H1. cbn. destruct y; [congruence|discriminate].
Qed.
Lemma s_absolute : sound g_absolute Rabsolute.
Proof.
  eapply sound_imp; [apply sound_seq; [apply sound_act, (s_is1 47); reflexivity|
    apply sound_opt, sound_seq; [apply sound_act, s_segment_nz|apply s_slash_segs]]|].
  intros m a (m1 & m2 & a1 & a2 & -> & -> & (b1 & [-> ->] & ->) & [H|[-> ->]]).
  - destruct H as (m3 & m4 & a3 & a4 & -> & -> & (b3 & [H3 ->] & ->) & (rest & -> & Hr & ->)).
    pose proof (segment_nz_cons _ H3). exists (m3 :: rest). split.
    + split; auto. split; [reflexivity|]. right. exists m3, rest. auto.
    + cbn. destruct m3; [congruence|reflexivity].
  - exists [[]]. split; [split; auto|reflexivity].
Qed.
Lemma segment_nz_fail r : nohd (efirst f_p) r -> g_segment_nz r = None.
Proof.
  intros H. unfold g_segment_nz, Peg.pstar. destruct (length r); cbn [Peg.prep]; [reflexivity|].
  rewrite (proj1 e_pchar), fail_elem by auto. reflexivity.
Qed.
Lemma slash_ok r : g_ch 47 (SL :: r) = Some ([SL], [], r).
Proof. reflexivity. Qed.
Lemma cpl_absolute : complete g_absolute Rabsolute (nohd fl_path).
Proof.
  intros m a r (segs & (_ & -> & Hs) & ->) Hr.
  assert (Hp : nohd (efirst f_p) r) by (revert Hr; apply nohd_imp_b; vm_compute; reflexivity).
  unfold g_absolute, Peg.pseq at 1, oseq at 1, Peg.pact at 1, g_slash.
  destruct Hs as [->|(x & rest & -> & Hx & Hrest)].
  - cbn [slashed concat map app ss list_ascii_of_string]. rewrite slash_ok.
    unfold Peg.popt, Peg.pseq, oseq, Peg.pact. rewrite segment_nz_fail by auto. reflexivity.
  - replace (slashed (x :: rest) ++ r) with (SL :: x ++ slashed rest ++ r) by (cbn; now rewrite <- app_assoc).
    rewrite slash_ok.
    pose proof (segment_nz_cons _ Hx) as Hn.
    assert (E : pseq (pact g_segment_nz AppendSegment) g_slash_segs (x ++ slashed rest ++ r)
                = Some (x ++ slashed rest, (AppendSegment, x) :: segs_acts false rest, r)).
    { unfold Peg.pseq, oseq, Peg.pact. rewrite (c_segment_nz x []); [|split; auto|].
      - unfold g_slash_segs. rewrite (c_slash_segs false (slashed rest) (segs_acts false rest) r); auto.
        exists rest. auto.
      - destruct rest as [|y rest]; [cbn; auto|reflexivity]. }
    unfold Peg.popt. rewrite E. unfold absolute_acts. destruct x; [congruence|reflexivity].
Qed.
Definition Rrootless first : rel := fun m a =>
  exists x rest, rootless_decomp first m false (x :: rest) /\ a = (RecordInitialSegment, x) :: segs_acts false rest.
Lemma s_rootless_gen first p : sound p (rlang first) ->
  sound (pseq (pact p RecordInitialSegment) g_slash_segs) (Rrootless first).
Proof.
  intros Hp. eapply sound_imp; [apply sound_seq; [apply sound_act, Hp|apply s_slash_segs]|].
  intros m a (m1 & m2 & a1 & a2 & -> & -> & (b1 & [H ->] & ->) & (rest & -> & Hr & ->)).
  exists m1, rest. split; auto. split; auto. exists m1, rest. auto.
Qed.
Lemma c_rootless_gen first p : complete p (rlang first) (nohd fl_auth) ->
  complete (pseq (pact p RecordInitialSegment) g_slash_segs) (Rrootless first) (nohd fl_path).
Proof.
  intros Hp. eapply complete_imp.
  - apply complete_seq with (F1 := nohd fl_auth) (F2 := nohd fl_path); [apply complete_act, Hp|apply c_slash_segs|].
    intros m a r (rest & -> & _) Hr. destruct rest as [|y rest]; [|reflexivity]. cbn. revert Hr.
    apply nohd_imp_b. vm_compute. reflexivity.
  - intros m a (x & rest & (_ & y & rest' & E & -> & Hx & Hr) & ->). inversion E; subst y rest'.
    exists x, (slashed rest), [(RecordInitialSegment, x)], (segs_acts false rest). split; auto. split; auto. split.
    + exists []. repeat split; auto. + exists rest. auto.
  - auto.
Qed.

(* --- authority ---------------------------------------------------------------- *)
Definition auth_acts (u : option str) (h : str) (p : option str) : acts :=
  (match u with Some u => [(SetUserinfo, u)] | None => [] end) ++ [(SetHost, h)]
  ++ (match p with Some p => [(SetPort, p)] | None => [] end).

Section Auth.
Variable hostp : parser.
Variable Rh : str -> Prop.
Definition a_auth := pseq (popt g_userinfo_at) (pseq (pact hostp SetHost) (popt g_colon_port)).
Definition a_auth_abempty := pseq g_slash (pseq g_slash (pseq a_auth g_abempty)).
Definition a_hier (rl : parser) := palts [a_auth_abempty; g_absolute; rl; g_empty].
Definition a_tail := pseq (popt g_question_query) (popt g_hash_fragment).
Definition a_URI := pseq (pact g_scheme SetScheme) (pseq g_colon (pseq (a_hier g_rootless) a_tail)).
Definition a_relative := pseq (a_hier g_noscheme) a_tail.
Definition a_reference := palts [a_URI; a_relative].

Definition Rauth : rel := fun m a =>
  exists u h p, authority_decomp m (u, h, p) /\ Rh h /\ a = auth_acts u h p.
Definition hier_acts (c : components) : acts :=
  match c_authority c with
  | Some (u, h, p) => auth_acts u h p ++ segs_acts true (c_segments c)
  | None =>
    if c_absolute c then absolute_acts (c_segments c)
    else match c_segments c with
         | [] => []
         | x :: rest => (RecordInitialSegment, x) :: segs_acts false rest
         end
  end.
Definition tail_acts (c : components) : acts :=
  (match c_query c with Some q => [(SetQuery, q)] | None => [] end)
  ++ (match c_fragment c with Some f => [(SetFragment, f)] | None => [] end).
Definition unamb (c : components) : Prop :=
  match c_authority c with Some (_, h, _) => Rh h | None => True end.
Definition Rhier first : rel := fun m a => exists c, hier_decomp first m c /\ unamb c /\ a = hier_acts c.
Definition Rtail : rel := fun m a => exists c, tail_decomp m c /\ a = tail_acts c.
Definition uri_acts (c : components) : acts :=
  (match c_scheme c with Some s => [(SetScheme, s)] | None => [] end) ++ hier_acts c ++ tail_acts c.
Definition RURI : rel := fun m a => exists c, URI_decomp m c /\ unamb c /\ a = uri_acts c.
Definition Rrelative : rel := fun m a => exists c, relative_decomp m c /\ unamb c /\ a = uri_acts c.
Definition Rreference : rel := fun m a => exists c, reference_decomp m c /\ unamb c /\ a = uri_acts c.

Section Sound.
Hypothesis s_hp : sound hostp (fun m a => a = [] /\ L Rfc3986.host m /\ Rh m).

Lemma s_colon_port : sound g_colon_port (fun m a => exists p, m = ":"%char :: p /\ L Rfc3986.port p /\ a = [(SetPort, p)]).
Proof.
  eapply sound_imp; [apply sound_seq; [apply (s_is1 58); reflexivity|apply sound_act, s_port]|].
  intros m a (m1 & m2 & a1 & a2 & -> & -> & [-> ->] & (b2 & [H ->] & ->)). exists m2. auto.
Qed.
Lemma s_userinfo_at : sound g_userinfo_at
  (fun m a => exists u, m = u ++ ["@"%char] /\ L Rfc3986.userinfo u /\ a = [(SetUserinfo, u)]).
Proof.
  eapply sound_imp; [apply sound_seq; [apply sound_act, s_userinfo|apply (s_is1 64); reflexivity]|].
  intros m a (m1 & m2 & a1 & a2 & -> & -> & (b2 & [H ->] & ->) & [-> ->]). exists m1. auto.
Qed.
Lemma s_auth : sound a_auth Rauth.
Proof.
  eapply sound_imp; [apply sound_seq; [apply sound_opt, s_userinfo_at|apply sound_seq;
     [apply sound_act, s_hp|apply sound_opt, s_colon_port]]|].
  intros m a (m1 & m2 & a1 & a2 & -> & -> & H1 & m3 & m4 & a3 & a4 & -> & -> & (b3 & (-> & H3 & Hu) & ->) & H4).
  assert (E1 : exists u, m1 = opt_post u (ss "@") /\ in_opt Rfc3986.userinfo u /\
     a1 = match u with Some u => [(SetUserinfo, u)] | None => [] end).
  { destruct H1 as [(u & -> & Hu1 & ->)|[-> ->]]; [exists (Some u)|exists None]; repeat split; auto. }
  assert (E4 : exists p, m4 = opt_pre (ss ":") p /\ in_opt Rfc3986.port p /\
     a4 = match p with Some p => [(SetPort, p)] | None => [] end).
  { destruct H4 as [(p & -> & Hp1 & ->)|[-> ->]]; [exists (Some p)|exists None]; repeat split; auto. }
  destruct E1 as (u & -> & U1 & ->), E4 as (p & -> & P1 & ->).
  exists u, m3, p. repeat split; auto.
Qed.
Lemma s_auth_abempty : sound a_auth_abempty (fun m a => exists c, hier_decomp Rfc3986.segment_nz m c
   /\ hier_decomp Rfc3986.segment_nz_nc m c /\ unamb c /\ a = hier_acts c).
Proof.
  eapply sound_imp; [apply sound_seq; [apply (s_is1 47); reflexivity|apply sound_seq; [apply (s_is1 47); reflexivity|
    apply sound_seq; [apply s_auth|apply s_abempty]]]|].
  intros m a (m1 & m2 & a1 & a2 & -> & -> & [-> ->] & m3 & m4 & a3 & a4 & -> & -> & [-> ->] &
    m5 & m6 & a5 & a6 & -> & -> & (u & h & p & Ha & Hu & ->) & (abs & segs & Hp & ->)).
  exists (mkcomponents None (Some (u, h, p)) abs segs None None). split; [|split]; [left; exists (u, h, p), m5, m6; cbn; auto..|].
  split; [exact Hu|reflexivity].
Qed.
Lemma s_hier first rl : sound rl (Rrootless first) ->
  (forall m c, hier_decomp Rfc3986.segment_nz m c -> hier_decomp Rfc3986.segment_nz_nc m c -> hier_decomp first m c) ->
  sound (a_hier rl) (Rhier first).
Proof.
  intros Hrl Hf. apply sound_alts. repeat (apply Forall_cons || apply Forall_nil).
  - eapply sound_imp; [apply s_auth_abempty|]. intros m a (c & H1 & H2 & H3 & H4). exists c. auto.
  - eapply sound_imp; [apply s_absolute|]. intros m a (segs & H & ->).
    exists (mkcomponents None None true segs None None). split; [right; auto|]. split; [exact I|reflexivity].
  - eapply sound_imp; [apply Hrl|]. intros m a (x & rest & H & ->).
    exists (mkcomponents None None false (x :: rest) None None). split; [right; auto|]. split; [exact I|reflexivity].
  - intros s m a r H. unfold g_empty, Peg.pstar in H. cbn in H. inv H.
    exists (mkcomponents None None false [] None None). split; [right; split; auto; right; right; split; auto|].
    split; [exact I|reflexivity].
Qed.
Lemma s_tail : sound a_tail Rtail.
Proof.
  eapply sound_imp; [apply sound_seq; apply sound_opt; (apply sound_seq; [|apply sound_act, s_query]);
    [apply (s_is1 63); reflexivity|apply (s_is1 35); reflexivity]|].
  intros m a (m1 & m2 & a1 & a2 & -> & -> & H1 & H2).
  assert (E1 : exists q, m1 = opt_pre (ss "?") q /\ in_opt Rfc3986.query q /\
     a1 = match q with Some q => [(SetQuery, q)] | None => [] end).
  { destruct H1 as [(x & y & ax & ay & -> & -> & [-> ->] & (b & [Hq ->] & ->))|[-> ->]];
     [exists (Some y)|exists None]; repeat split; auto. }
  assert (E2 : exists q, m2 = opt_pre (ss "#") q /\ in_opt Rfc3986.fragment q /\
     a2 = match q with Some q => [(SetFragment, q)] | None => [] end).
  { destruct H2 as [(x & y & ax & ay & -> & -> & [-> ->] & (b & [Hq ->] & ->))|[-> ->]];
     [exists (Some y)|exists None]; repeat split; auto. }
  destruct E1 as (q & -> & Q1 & ->), E2 as (f & -> & F1 & ->).
  exists (mkcomponents None None false [] q f). split; [split; auto|reflexivity].
Qed.
Lemma s_URI : sound a_URI RURI.
Proof.
  eapply sound_imp; [apply sound_seq; [apply sound_act, s_scheme|apply sound_seq; [apply (s_is1 58); reflexivity|
     apply sound_seq; [apply (s_hier Rfc3986.segment_nz); [apply s_rootless_gen, s_segment_nz|auto]|apply s_tail]]]|].
  intros m a (m1 & m2 & a1 & a2 & -> & -> & (b1 & [H1 ->] & ->) & m3 & m4 & a3 & a4 & -> & -> & [-> ->] &
    m5 & m6 & a5 & a6 & -> & -> & (c1 & C1 & U1 & ->) & (c2 & C2 & ->)).
  exists (mkcomponents (Some m1) (c_authority c1) (c_absolute c1) (c_segments c1) (c_query c2) (c_fragment c2)).
  split; [exists m1, m5, m6; repeat split; auto; apply C2|]. split; [exact U1|reflexivity].
Qed.
Lemma s_relative : sound a_relative Rrelative.
Proof.
  eapply sound_imp; [apply sound_seq; [apply (s_hier Rfc3986.segment_nz_nc); [apply s_rootless_gen, s_segment_nz_nc|auto]|apply s_tail]|].
  intros m a (m5 & m6 & a5 & a6 & -> & -> & (c1 & C1 & U1 & ->) & (c2 & C2 & ->)).
  exists (mkcomponents None (c_authority c1) (c_absolute c1) (c_segments c1) (c_query c2) (c_fragment c2)).
  split; [exists m5, m6; repeat split; auto; apply C2|]. split; [exact U1|reflexivity].
Qed.
Lemma s_reference : sound a_reference Rreference.
Proof.
  apply sound_alts. repeat (apply Forall_cons || apply Forall_nil).
  - eapply sound_imp; [apply s_URI|]. intros m a (c & H & U & ->). exists c. split; [left; auto|auto].
  - eapply sound_imp; [apply s_relative|]. intros m a (c & H & U & ->). exists c. split; [right; auto|auto].
Qed.
End Sound.

Section Complete.
Hypothesis c_hp : complete hostp (fun m a => a = [] /\ L Rfc3986.host m /\ Rh m) (nohd fl_host).

(* a separator x that cannot occur in b, preceded only by characters outside "/", "?", "#" *)
Lemma no_sep n (a x b r : str) : (n <? 256)%N = true -> all (fun c => fl_auth c) a -> fl_auth (chr n) = true ->
  all (fun c => negb (ch n c)) b -> nohd fl_auth r -> a ++ chr n :: x <> b ++ r.
Proof.
  intros Hn Ha Hf Hb Hr E. revert b E Hb. induction Ha as [|c a Hc _ IH]; intros b E Hb.
  - destruct b as [|d b]; cbn in E.
    + subst r. cbn in Hr. congruence.
    + inversion E; subst. inv Hb. assert (ch n (chr n) = true) by now apply ch_spec. rewrite H in H1. discriminate.
  - destruct b as [|d b]; cbn in E.
    + subst r. cbn in Hr. congruence.
    + inversion E; subst. inv Hb. eapply IH; eauto.
Qed.
Lemma c_colon_port : complete g_colon_port (fun m a => exists p, m = ":"%char :: p /\ L Rfc3986.port p /\ a = [(SetPort, p)]) (nohd fl_auth).
Proof.
  eapply complete_imp.
  - apply complete_seq with (F1 := any) (F2 := nohd b_digit); [apply (c_is1 58); reflexivity|apply complete_act, c_port|intros; exact I].
  - intros m a (p & -> & Hp & ->). exists [":"%char], p, [], [(SetPort, p)]. split; auto. split; auto. split; [split; auto|].
    exists []. split; [split; auto|auto].
  - intros r. apply nohd_imp_b. vm_compute. reflexivity.
Qed.
Lemma chr_fail_seq n q r : nohd (ch n) r -> pseq (g_ch n) q r = None.
Proof. intros H. unfold Peg.pseq, oseq, g_ch. now rewrite fail_chr. Qed.
Lemma userinfo_at_fail b r : all (fun c => negb (ch 64 c)) b -> nohd fl_auth r -> g_userinfo_at (b ++ r) = None.
Proof.
  intros Hb Hr. destruct (g_userinfo_at (b ++ r)) as [[[m a] r']|] eqn:E; auto. exfalso.
  assert (W : wf _ g_userinfo_at) by apply (i_userinfo_at true 0). pose proof (W _ _ _ _ E) as Eq.
  apply s_userinfo_at in E. destruct E as (u & -> & Hu & _). rewrite <- app_assoc in Eq. symmetry in Eq. revert Eq.
  apply (no_sep 64); auto. apply userinfo_chars in Hu. revert Hu. apply all_imp. vm_compute. reflexivity.
Qed.
Lemma auth_no_at h p : L Rfc3986.host h -> in_opt Rfc3986.port p -> all (fun c => negb (ch 64 c)) (h ++ opt_pre (ss ":") p).
Proof.
  intros Hh Hp. apply Forall_app; split.
  - apply host_chars in Hh. revert Hh. apply all_imp. vm_compute. reflexivity.
  - destruct p as [p|]; cbn; constructor; [reflexivity|]. apply port_chars in Hp. revert Hp. apply all_imp. vm_compute. reflexivity.
Qed.
Lemma c_auth : complete a_auth Rauth (nohd fl_auth).
Proof.
  intros m a r (u & h & p & (-> & Hu & Hh & Hp) & HR & ->) Hr.
  assert (E2 : pseq (pact hostp SetHost) (popt g_colon_port) ((h ++ opt_pre (ss ":") p) ++ r)
     = Some (h ++ opt_pre (ss ":") p, [(SetHost, h)] ++ match p with Some p => [(SetPort, p)] | None => [] end, r)).
  { apply (complete_seq (pact hostp SetHost) (popt g_colon_port)
      (ract (fun m a => a = [] /\ L Rfc3986.host m /\ Rh m) SetHost)
      (ropt (fun m a => exists p, m = ":"%char :: p /\ L Rfc3986.port p /\ a = [(SetPort, p)])) (nohd fl_host) (nohd fl_auth)); auto.
    - apply complete_act, c_hp.
    - apply complete_opt; [apply c_colon_port|]. intros r' Hr'. apply chr_fail_seq. revert Hr'. apply nohd_imp_b. vm_compute. reflexivity.
    - intros m' a' r' [(p' & -> & _)|[-> ->]] Hr'; [reflexivity|]. cbn. revert Hr'. apply nohd_imp_b. vm_compute. reflexivity.
    - exists h, (opt_pre (ss ":") p), [(SetHost, h)], (match p with Some p => [(SetPort, p)] | None => [] end).
      split; auto. split; auto. split; [exists []; auto|]. destruct p as [p|]; [left; exists p; auto|right; auto]. }
  unfold a_auth, Peg.pseq at 1, oseq at 1.
  assert (E1 : popt g_userinfo_at ((opt_post u (ss "@") ++ h ++ opt_pre (ss ":") p) ++ r)
    = Some (opt_post u (ss "@"), match u with Some u => [(SetUserinfo, u)] | None => [] end, (h ++ opt_pre (ss ":") p) ++ r)).
  { unfold Peg.popt. destruct u as [u|]; cbn [opt_post].
    - rewrite <- !app_assoc. unfold g_userinfo_at, Peg.pseq, oseq, Peg.pact.
      rewrite (c_userinfo u []); [|split; auto|reflexivity]. cbn [ss list_ascii_of_string app]. reflexivity.
    - cbn [app]. rewrite userinfo_at_fail; auto using auth_no_at. }
  rewrite E1, E2. reflexivity.
Qed.
Lemma c_auth_abempty : complete a_auth_abempty (fun m a => exists u h p sa sp abs segs, m = ss "//" ++ sa ++ sp /\
    authority_decomp sa (u, h, p) /\ abempty_decomp sp abs segs /\ Rh h /\ a = auth_acts u h p ++ segs_acts true segs) (nohd fl_path).
Proof.
  eapply complete_imp.
  - apply complete_seq with (F1 := any) (F2 := nohd fl_path); [apply (c_is1 47); reflexivity| |intros; exact I].
    apply complete_seq with (F1 := any) (F2 := nohd fl_path); [apply (c_is1 47); reflexivity| |intros; exact I].
    apply complete_seq with (F1 := nohd fl_auth) (F2 := nohd fl_path); [apply c_auth|apply c_abempty|].
    intros m a r (abs & segs & (-> & _ & _) & _) Hr. destruct segs as [|x segs]; [|reflexivity]. cbn. revert Hr.
    apply nohd_imp_b. vm_compute. reflexivity.
  - intros m a (u & h & p & sa & sp & abs & segs & -> & Ha & Hp & Hh & ->).
    exists [SL], ([SL] ++ sa ++ sp), [], (auth_acts u h p ++ segs_acts true segs). split; auto. split; auto. split; [split; auto|].
    exists [SL], (sa ++ sp), [], (auth_acts u h p ++ segs_acts true segs). split; auto. split; auto. split; [split; auto|].
    exists sa, sp, (auth_acts u h p), (segs_acts true segs). split; auto. split; auto. split.
    + exists u, h, p. auto. + exists abs, segs. auto.
  - auto.
Qed.
Lemma auth_abempty_fail r : (forall r', r = SL :: r' -> nohd (ch 47) r') -> a_auth_abempty r = None.
Proof.
  intros H. unfold a_auth_abempty. destruct r as [|c r]; [reflexivity|].
  destruct (ch 47 c) eqn:E.
  - apply ch_spec in E; [|reflexivity]. subst c. specialize (H r eq_refl).
    assert (E2 : pseq g_slash (pseq a_auth g_abempty) r = None) by (apply (chr_fail_seq 47); exact H).
    change (chr 47) with SL. unfold Peg.pseq at 1, oseq at 1. unfold g_slash at 1. rewrite slash_ok, E2. reflexivity.
  - apply (chr_fail_seq 47). exact E.
Qed.
Lemma absolute_fail r : nohd (ch 47) r -> g_absolute r = None.
Proof. intros H. unfold g_absolute, Peg.pseq, oseq, Peg.pact, g_slash, g_ch. now rewrite fail_chr. Qed.
Lemma segment_nz_slash x : L Rfc3986.segment_nz x -> nohd (ch 47) x.
Proof.
  intros H. apply segment_nz_chars in H. destruct x as [|c x]; cbn; auto. inv H.
  pose proof (sweep (fun c => implb (efull f_p c) (negb (ch 47 c))) eq_refl c) as Hs. cbn -[efull ch] in Hs.
  rewrite H2 in Hs. cbn [implb] in Hs. now destruct (ch 47 c).
Qed.
Lemma segment_nz_nc_slash x : L Rfc3986.segment_nz_nc x -> nohd (ch 47) x.
Proof.
  intros H. apply segment_nz_nc_chars in H. destruct x as [|c x]; cbn; auto. inv H.
  pose proof (sweep (fun c => implb (efull f_n c) (negb (ch 47 c))) eq_refl c) as Hs. cbn -[efull ch] in Hs.
  rewrite H2 in Hs. cbn [implb] in Hs. now destruct (ch 47 c).
Qed.
Lemma c_hier first rl : complete rl (Rrootless first) (nohd fl_path) ->
  (forall x, L first x -> x <> [] /\ nohd (ch 47) x) -> (forall r, nohd fl_path r -> rl r = None) ->
  complete (a_hier rl) (Rhier first) (nohd fl_path).
Proof.
  intros Hrl Hfirst Hrf m a r (c & Hc & Hu & ->) Hr. unfold a_hier. cbn [palts].
  assert (Hr47 : nohd (ch 47) r) by (revert Hr; apply nohd_imp_b; vm_compute; reflexivity).
  destruct Hc as [(au & sa & sp & Ea & -> & Ha & Hp)|[Ea Hc]].
  { destruct au as [[u h] p]. unfold unamb in Hu. rewrite Ea in Hu.
    rewrite (c_auth_abempty _ (hier_acts c) r); [auto| |auto].
    exists u, h, p, sa, sp, (c_absolute c), (c_segments c). unfold hier_acts. rewrite Ea. auto 6. }
  unfold hier_acts. rewrite Ea. destruct Hc as [Hc|[Hc|Hc]].
  - destruct Hc as (Eb & -> & Hs). rewrite Eb. rewrite auth_abempty_fail.
    + rewrite (cpl_absolute _ (absolute_acts (c_segments c)) r); [auto| |auto]. exists (c_segments c). split; [split; auto|auto].
    + destruct Hs as [->|(x & rest & -> & Hx & _)]; cbn; intros r' E'; inversion E'; subst; [auto|]. rewrite <- app_assoc.
      apply nohd_app; [now apply segment_nz_cons|now apply segment_nz_slash].
  - destruct Hc as (Eb & x & rest & Es & -> & Hx & Hrest). rewrite Eb, Es.
    destruct (Hfirst _ Hx) as [Hn H47].
    assert (Hh : nohd (ch 47) ((x ++ slashed rest) ++ r)) by (rewrite <- app_assoc; now apply nohd_app).
    rewrite auth_abempty_fail, absolute_fail; auto.
    + rewrite (Hrl _ ((RecordInitialSegment, x) :: segs_acts false rest) r); [auto| |auto]. exists x, rest. split; auto.
      split; auto. exists x, rest. auto.
    + intros r' E'. rewrite E' in Hh. discriminate.
  - destruct Hc as (-> & Eb & Es). rewrite Eb, Es. cbn [app].
    rewrite auth_abempty_fail, absolute_fail, Hrf; auto.
    intros r' ->. discriminate.
Qed.
Lemma c_tail : complete a_tail Rtail (fun r => r = []).
Proof.
  eapply complete_imp.
  - apply complete_seq with (F1 := nohd fl_query) (F2 := fun r => r = []).
    + apply complete_opt.
      * eapply complete_imp; [apply complete_seq with (F1 := any) (F2 := nohd (efirst f_q));
          [apply (c_is1 63); reflexivity|apply complete_act, UriLang.c_query|intros; exact I]|intros m a H; exact H|].
        intros r. apply nohd_imp_b. vm_compute. reflexivity.
      * intros r H. apply chr_fail_seq. revert H. apply nohd_imp_b. vm_compute. reflexivity.
    + apply complete_opt.
      * eapply complete_imp; [apply complete_seq with (F1 := any) (F2 := nohd (efirst f_q));
          [apply (c_is1 35); reflexivity|apply complete_act, UriLang.c_query|intros; exact I]|intros m a H; exact H|].
        intros r ->. exact I.
      * intros r ->. reflexivity.
    + intros m a r H ->. destruct H as [(m1 & m2 & a1 & a2 & -> & _ & [-> _] & _)|[-> _]]; [reflexivity|exact I].
  - intros m a (c & (-> & Hq & Hf) & ->).
    exists (opt_pre (ss "?") (c_query c)), (opt_pre (ss "#") (c_fragment c)),
      (match c_query c with Some q => [(SetQuery, q)] | None => [] end),
      (match c_fragment c with Some q => [(SetFragment, q)] | None => [] end).
    split; auto. split; auto. split.
    + destruct (c_query c) as [q|]; [left|right; auto]. exists [chr 63], q, [], [(SetQuery, q)]. repeat split; auto.
      exists []. split; [split; auto|auto].
    + destruct (c_fragment c) as [q|]; [left|right; auto]. exists [chr 35], q, [], [(SetFragment, q)]. repeat split; auto.
      exists []. split; [split; auto|auto].
  - auto.
Qed.
Lemma tail_hd m a : Rtail m a -> nohd fl_path m.
Proof.
  intros (c & (-> & _ & _) & _). destruct (c_query c); [reflexivity|]. destruct (c_fragment c); [reflexivity|exact I].
Qed.
Lemma rootless_fail r : nohd fl_path r -> g_rootless r = None.
Proof.
  intros H. unfold g_rootless, Peg.pseq, oseq, Peg.pact. rewrite segment_nz_fail; auto. revert H.
  apply nohd_imp_b. vm_compute. reflexivity.
Qed.
Lemma noscheme_fail r : nohd fl_path r -> g_noscheme r = None.
Proof.
  intros H. unfold g_noscheme, Peg.pseq, oseq, Peg.pact, g_segment_nz_nc, Peg.pstar. destruct (length r); cbn [Peg.prep]; [reflexivity|].
  rewrite (proj1 e_nchar), fail_elem; [reflexivity|]. revert H. apply nohd_imp_b. vm_compute. reflexivity.
Qed.
Lemma c_rootless : complete g_rootless (Rrootless Rfc3986.segment_nz) (nohd fl_path).
Proof.
  apply c_rootless_gen. eapply complete_imp; [apply c_segment_nz|auto|]. intros r. apply nohd_imp_b. vm_compute. reflexivity.
Qed.
Lemma c_noscheme : complete g_noscheme (Rrootless Rfc3986.segment_nz_nc) (nohd fl_path).
Proof.
  apply c_rootless_gen. eapply complete_imp; [apply c_segment_nz_nc|auto|]. intros r. apply nohd_imp_b. vm_compute. reflexivity.
Qed.
Lemma c_URI : complete a_URI RURI (fun r => r = []).
Proof.
  eapply complete_imp with (F := fun r => r = []).
  - apply complete_seq with (F1 := nohd f_s) (R1 := ract (rlang Rfc3986.scheme) SetScheme)
       (R2 := rseq (is1 (chr 58)) (rseq (Rhier Rfc3986.segment_nz) Rtail)); [apply complete_act, UriLang.c_scheme| |].
    + apply complete_seq with (F1 := any); [apply (c_is1 58); reflexivity| |intros; exact I].
      apply complete_seq with (F1 := nohd fl_path); [|apply c_tail|].
      * apply c_hier; auto using c_rootless, rootless_fail, segment_nz_cons, segment_nz_slash.
      * intros m a r H ->. rewrite app_nil_r. eapply tail_hd; eauto.
    + intros m a r (m1 & m2 & a1 & a2 & -> & _ & [-> _] & _) _. reflexivity.
  - intros m a (c & (sch & sh & st & Es & Hs & -> & Hh & Ht) & Hu & ->).
    exists sch, (ss ":" ++ sh ++ st), [(SetScheme, sch)], (hier_acts c ++ tail_acts c). split; auto.
    split; [unfold uri_acts; now rewrite Es|]. split; [exists []; split; [split; auto|auto]|].
    exists (ss ":"), (sh ++ st), [], (hier_acts c ++ tail_acts c). split; auto. split; auto. split; [split; auto|].
    exists sh, st, (hier_acts c), (tail_acts c). split; auto. split; auto. split; exists c; auto.
  - auto.
Qed.
Lemma c_relative : complete a_relative Rrelative (fun r => r = []).
Proof.
  eapply complete_imp with (F := fun r => r = []).
  - apply complete_seq with (F1 := nohd fl_path) (R1 := Rhier Rfc3986.segment_nz_nc) (R2 := Rtail); [|apply c_tail|].
    + apply c_hier; auto using c_noscheme, noscheme_fail, segment_nz_nc_cons, segment_nz_nc_slash.
    + intros m a r H ->. rewrite app_nil_r. eapply tail_hd; eauto.
  - intros m a (c & (sh & st & Es & -> & Hh & Ht) & Hu & ->).
    exists sh, st, (hier_acts c), (tail_acts c). split; auto. split; [unfold uri_acts; now rewrite Es|]. split; exists c; auto.
  - auto.
Qed.
Lemma wf_a_URI : wf _ hostp -> wf _ a_URI.
Proof.
  intros Hw. unfold a_URI, a_hier, a_auth_abempty, a_auth, a_tail.
  repeat first [exact Hw | apply (i_scheme true 0) | apply (i_userinfo_at true 0) | apply (i_colon_port true 0)
   | apply (i_abempty true 0) | apply (i_absolute true 0) | apply (i_rootless true 0) | apply (i_empty true 0)
   | apply (i_question_query true 0) | apply (i_hash_fragment true 0) | apply wf_chr
   | apply wf_seq | apply wf_act | apply wf_opt | apply wf_alts | apply Forall_cons | apply Forall_nil ].
Qed.
(* the URI parser cannot match even a prefix of a relative reference *)
Lemma slashed_hd rest : nohd fl_auth (slashed rest).
Proof. destruct rest; [exact I|reflexivity]. Qed.
Lemma URI_fail_relative s c : wf _ hostp -> (forall s m a r, a_URI s = Some (m, a, r) -> exists sch x, m = sch ++ ":"%char :: x /\ L Rfc3986.scheme sch) ->
  relative_decomp s c -> a_URI s = None.
Proof.
  intros Hw Hs (sh & st & Es & -> & Hh & Ht). destruct (a_URI (sh ++ st)) as [[[m a] r]|] eqn:E; auto. exfalso.
  pose proof (wf_a_URI Hw _ _ _ _ E) as Eq. apply Hs in E. destruct E as (sch & x & -> & Hsch).
  apply scheme_chars in Hsch. destruct Hsch as [Hc Hn].
  rewrite <- app_assoc in Eq. cbn [app] in Eq. symmetry in Eq.
  assert (Ha : all (fun c => fl_auth c) sch) by (revert Hc; apply all_imp; vm_compute; reflexivity).
  assert (Hst : nohd fl_auth st).
  { assert (Hst : nohd fl_path st) by (eapply tail_hd; exists c; eauto). revert Hst. apply nohd_imp_b. vm_compute. reflexivity. }
  assert (Hcase : exists b r', sh ++ st = b ++ r' /\ all (fun c => negb (ch 58 c)) b /\ nohd fl_auth r').
  { destruct Hh as [(au & sa & sp & Ea & -> & _)|[Ea Hh]].
    - exists [], (ss "//" ++ sa ++ sp ++ st). split; [cbn; now rewrite <- app_assoc|]. split; [constructor|reflexivity].
    - destruct Hh as [(_ & -> & Hsegs)|[(_ & y & rest & _ & -> & Hy & _)|(-> & _)]].
      + exists [], (slashed (c_segments c) ++ st). split; auto. split; [constructor|].
        destruct Hsegs as [->|(y & rest & -> & _)]; reflexivity.
      + exists y, (slashed rest ++ st). split; [now rewrite <- app_assoc|]. split.
        * apply segment_nz_nc_chars in Hy. revert Hy. apply all_imp. vm_compute. reflexivity.
        * destruct rest; [exact Hst|reflexivity].
      + exists [], st. split; auto. }
  destruct Hcase as (b & r' & Eb & Hb & Hr'). rewrite Eb in Eq. revert Eq. apply (no_sep 58); auto.
Qed.
Lemma URI_colon : forall s m a r, a_URI s = Some (m, a, r) -> exists sch x, m = sch ++ ":"%char :: x /\ L Rfc3986.scheme sch.
Proof.
  intros s m a r. unfold a_URI, Peg.pseq at 1, oseq at 1, Peg.pact at 1.
  destruct (g_scheme s) as [[[m1 a1] r1]|] eqn:E1; [|discriminate]. apply s_scheme in E1. destruct E1 as [E1 _].
  unfold Peg.pseq at 1, oseq at 1. destruct (g_colon r1) as [[[m2 a2] r2]|] eqn:E2; [|discriminate].
  apply (s_is1 58 eq_refl) in E2. destruct E2 as [-> _].
  destruct (pseq (a_hier g_rootless) a_tail r2) as [[[m3 a3] r3]|]; [|discriminate].
  intros H; inv H. exists m1, m3. auto.
Qed.
Lemma c_reference : wf _ hostp -> complete a_reference Rreference (fun r => r = []).
Proof.
  intros Hw m a r (c & [H|H] & Hu & ->) ->; unfold a_reference; cbn [palts].
  - rewrite (c_URI m (uri_acts c) []); auto. exists c. auto.
  - rewrite app_nil_r. rewrite (URI_fail_relative m c); [|exact Hw|exact URI_colon|exact H].
    pose proof (c_relative m (uri_acts c) []) as E. rewrite app_nil_r in E. rewrite E; auto. exists c. auto.
Qed.
End Complete.
End Auth.

(* the parser of the code *)
Lemma g_URI_eq : g_URI = a_URI g_host. Proof. reflexivity. Qed.
Lemma g_URI_reference_eq : g_URI_reference = a_reference g_host. Proof. reflexivity. Qed.
