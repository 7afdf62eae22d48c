(* C67: which label's error uri::decode reports. *)
From Verif Require Import Base ModelUri ModelAlgo ModelParts SpecPct SpecPuny SpecIcu SpecStore SpecViews SpecError.
From Verif Require Import AlgoFacts PctFacts PunyProps PunyLoop PunyErr PartsHost PartsDec PartsRun PartsEnc PartsDecode PartsProps.
From Verif Require ModelPuny.
Local Open Scope list_scope.

(* --- the decoder ------------------------------------------------------------------------------------- *)
Section Top.
Local Open Scope N_scope.
Lemma start_not_bad b lit u : decoding rfc_initial_n 0 rfc_initial_bias lit b u -> N.of_nat (length lit) + N.of_nat (length b) < p32 ->
  ModelPuny.decode_loop (S (length b)) b ModelPuny.initial_n 0 ModelPuny.initial_bias lit <> Ok (inr ModelPuny.bad_input).
Proof. intros D L. eapply not_bad; [exact D|lia|vm_compute; discriminate|apply N.le_0_l|vm_compute; discriminate|exact L]. Qed.
Lemma start_big b lit : N.of_nat (length lit) + N.of_nat (length b) < p32 ->
  ModelPuny.decode_loop (S (length b)) b ModelPuny.initial_n 0 ModelPuny.initial_bias lit = Ok (inr ModelPuny.overflow) ->
  exists p rest t u c, b = p ++ rest /\ (t = [] \/ t = ["a"%char]) /\ decoding rfc_initial_n 0 rfc_initial_bias lit (p ++ t) u /\ In c u /\ p32 <= c.
Proof.
  intros L E. apply is_big in E; [exact E|lia|vm_compute; discriminate| |vm_compute; discriminate|exact L]. apply N.le_0_l.
Qed.
Lemma reads_hyphen a b u : ~ In hyphen b -> reads (a ++ hyphen :: b) u -> (forall c, In c a -> code c < 0x80) /\ decoding rfc_initial_n 0 rfc_initial_bias (map code a) b u.
Proof.
  intros Hb [(lit & d & [(E & _)|(<- & ->)] & Hnd & Hl & Hd)|(s' & E & Hns & (lit & d & [(-> & _)|(-> & ->)] & _ & _ & Hd))].
  - apply hyphen_split_unique in E as [-> ->]; auto.
  - exfalso. apply Hnd, in_or_app. right; left; reflexivity.
  - exfalso. apply Hns, in_or_app. right; left; reflexivity.
  - apply (hyphen_split_unique a b [] d) in E as [-> ->]; auto. split; [intros c []|exact Hd].
Qed.
Lemma reads_plain s u : ~ In hyphen s -> reads s u -> decoding rfc_initial_n 0 rfc_initial_bias [] s u.
Proof.
  intros Hn [(lit & d & [(-> & _)|(-> & ->)] & _ & _ & Hd)|(s' & -> & _)]; auto.
  - exfalso. apply Hn, in_or_app. right; left; reflexivity.
  - exfalso. apply Hn. left; reflexivity.
Qed.
Lemma to_reads a b u : ~ In hyphen b -> (forall c, In c a -> code c < 0x80) -> decoding rfc_initial_n 0 rfc_initial_bias (map code a) b u -> reads (a ++ hyphen :: b) u.
Proof.
  intros Hb Hbas D. destruct a as [|x a].
  - right. exists b. split; [reflexivity|]. split; [exact Hb|]. exists [], b. split; [right; auto|]. split; [exact Hb|]. split; [intros c []|exact D].
  - left. exists (x :: a), b. split; [left; split; [reflexivity|discriminate]|]. auto.
Qed.
Lemma bad_unreadable s : N.of_nat (length s) < p32 -> ModelPuny.decode s = Ok (inr ModelPuny.bad_input) -> forall u, ~ reads s u.
Proof.
  intros H E u R. destruct (hyphen_split s) as [Hn|(a & b & -> & Hb)].
  - rewrite decode_no_hyphen in E by exact Hn. apply reads_plain in R; [|exact Hn]. exact (start_not_bad s [] u R H E).
  - rewrite decode_hyphen in E by exact Hb. destruct (reads_hyphen a b u Hb R) as [Hbas D].
    rewrite (proj2 (forallb_basic a) Hbas) in E. apply (start_not_bad b (map code a) u D); [|exact E].
    rewrite app_length in H. cbn [length] in H. rewrite map_length. lia.
Qed.
Lemma overflow_big s : N.of_nat (length s) < p32 -> ModelPuny.decode s = Ok (inr ModelPuny.overflow) ->
  exists p rest t u c, s = p ++ rest /\ (t = [] \/ t = ["a"%char]) /\ reads (p ++ t) u /\ In c u /\ p32 <= c.
Proof.
  intros H E. assert (Ha : forall p rest t, (t = [] \/ t = ["a"%char]) -> ~ In hyphen (p ++ rest) -> ~ In hyphen (p ++ t)).
  { intros p rest t Et Hn Hin. apply in_app_or in Hin as [Hin|Hin]; [apply Hn, in_or_app; auto|]. destruct Et as [->| ->]; [destruct Hin|]. destruct Hin as [Hin|[]]. discriminate. }
  destruct (hyphen_split s) as [Hn|(a & b & -> & Hb)].
  - rewrite decode_no_hyphen in E by exact Hn. destruct (start_big s [] H E) as (p & rest & t & u & c & -> & Et & D & Hc & Hb).
    exists p, rest, t, u, c. split; [reflexivity|]. split; [exact Et|]. split; [|auto]. left. exists [], (p ++ t).
    split; [right; auto|]. split; [exact (Ha _ _ _ Et Hn)|]. split; [intros x []|exact D].
  - rewrite decode_hyphen in E by exact Hb. destruct (forallb _ a) eqn:Ea; [|discriminate].
    destruct (start_big b (map code a)) as (p & rest & t & u & c & -> & Et & D & Hc & Hbig); [|exact E|].
    { rewrite app_length in H. cbn [length] in H. rewrite map_length. lia. }
    exists (a ++ hyphen :: p), rest, t, u, c. split; [rewrite <- app_assoc; reflexivity|]. split; [exact Et|]. split; [|auto].
    rewrite <- app_assoc. cbn [app]. apply to_reads; [exact (Ha _ _ _ Et Hb)|apply forallb_basic, Ea|exact D].
Qed.
Lemma big_overflow s u c : N.of_nat (length s) < p32 -> reads s u -> In c u -> p32 <= c -> ModelPuny.decode s = Ok (inr ModelPuny.overflow).
Proof.
  intros H R Hc Hb. destruct (decode_total s H) as ([u'|[]] & E); [|elim (bad_unreadable s H E u R)|exact E].
  exfalso. pose proof (proj1 (decode_iff s u' H) E) as [R' B]. assert (u = u'); [|subst u'; specialize (B c Hc); lia].
  destruct (hyphen_split s) as [Hn|(a & b & -> & Hbb)].
  - eapply decoding_fun; [exact (reads_plain s u Hn R)|exact (reads_plain s u' Hn R')].
  - eapply decoding_fun; [exact (proj2 (reads_hyphen a b u Hbb R))|exact (proj2 (reads_hyphen a b u' Hbb R'))].
Qed.
End Top.

(* --- labels ------------------------------------------------------------------------------------------------ *)
Lemma loop_error : forall ls l fuel out any w e, length ls < fuel -> Forall short_text (l :: ls) -> Forall (fun x => ~ In dot x) (l :: ls) ->
  puny_decoded_loop fuel (joined dot l ls) out any = Ok (w, inr e) ->
  exists before q after, l :: ls = before ++ (xn ++ q) :: after /\ Forall (fun b => exists t, label_decoded b t) before /\ ModelPuny.decode q = Ok (inr e).
Proof.
  induction ls as [|l' ls IH]; intros l [|fuel] out any w e Hf Hs Hd E; try (cbn in Hf; lia);
  cbn [puny_decoded_loop] in E; inversion Hs as [|? ? Hl Hs']; inversion Hd as [|? ? Hdl Hd']; subst;
  rewrite (take_while_joined (fun c => is_not_dot (code c)) dot) in E; try reflexivity; try (apply no_dot; exact Hdl);
  destruct (starts_with Ascii.eqb l idna_prefix) eqn:S.
  - apply starts_xn in S. pose proof S as (q & ->). rewrite skip_xn in E.
    assert (Hq : short_text q) by (apply (short_skip 4) in Hl; exact Hl).
    destruct (decode_total q Hq) as ([u|err] & Ed); rewrite Ed in E; cbn [bind] in E.
    + apply decode_puny_text in Ed; [|exact Hq]. destruct (to_utf8_ok u (proj2 Ed)) as (t & cs & ok & T & _). rewrite T in E. discriminate.
    + injection E as _ ->. exists [], q, []. split; [reflexivity|]. split; [constructor|exact Ed].
  - discriminate.
  - apply starts_xn in S. pose proof S as (q & ->). rewrite skip_xn in E.
    assert (Hq : short_text q) by (apply (short_skip 4) in Hl; exact Hl).
    destruct (decode_total q Hq) as ([u|err] & Ed); rewrite Ed in E; cbn [bind] in E.
    + apply decode_puny_text in Ed; [|exact Hq]. destruct (to_utf8_ok u (proj2 Ed)) as (t & cs & ok & T & R & W). rewrite T in E. cbn [bind] in E.
      apply IH in E; [|cbn in Hf; lia|assumption|assumption]. destruct E as (before & q' & after & -> & B & D).
      exists ((xn ++ q) :: before), q', after. split; [reflexivity|]. split; [|exact D]. constructor; [|exact B]. exists t. right. exists q, u, cs, ok. auto.
    + injection E as _ ->. exists [], q, (l' :: ls). split; [reflexivity|]. split; [constructor|exact Ed].
  - apply IH in E; [|cbn in Hf; lia|assumption|assumption]. destruct E as (before & q' & after & -> & B & D).
    exists (l :: before), q', after. split; [reflexivity|]. split; [|exact D]. constructor; [|exact B]. exists l. left. split; [|reflexivity].
    intros X. apply starts_xn in X. congruence.
Qed.
Lemma host_error s w e : short_text s -> puny_decoded s = Ok (w, inr e) ->
  exists before q after, labels dot s (before ++ (xn ++ q) :: after) /\ Forall (fun b => exists t, label_decoded b t) before /\ ModelPuny.decode q = Ok (inr e).
Proof.
  intros H E. destruct (labels_exist ascii_dec dot s) as (l & ls & L). pose proof L as (l0 & ls0 & E0 & Ee & F). injection E0 as <- <-.
  unfold puny_decoded in E. rewrite Ee in E at 2. apply loop_error in E.
  - destruct E as (before & q & after & X & B & D). exists before, q, after. rewrite <- X. auto.
  - rewrite Ee. apply le_n_S. exact (joined_snoc_length dot ls l).
  - apply Forall_forall. intros x Hx. pose proof (joined_label_length dot ls x l Hx) as J. rewrite <- Ee in J. unfold short_text in *. lia.
  - exact F.
Qed.

Lemma run_error st cl : Forall good cl -> forall needs req n r e vs,
  run (decode_size st) (needs, req, None) (map at_caller cl) = Ok (n, r, Some e, vs) -> exists i s w, In (Host, i, s) cl /\ puny_decoded s = Ok (w, inr e).
Proof.
  induction 1 as [|[[f i] s] cl G Gs IH]; intros needs req n r e vs; [discriminate|]. cbn [map at_caller run].
  assert (X : decodable (f, i, s) \/ (f = Host /\ host_undecodable s)).
  { destruct G as [_ G]. destruct f; try (left; intros K; discriminate K). destruct (undecodable_dec s (G eq_refl)) as [U|U]; [right; auto|left; intros _; exact U]. }
  destruct X as [D|[-> U]].
  - destruct (decode_size_ok st needs req f i s G D) as (n1 & E1 & _). rewrite E1. cbn [bind]. intros E.
    destruct (run (decode_size st) (n1, req + size_of dec_plan f s, None) (map at_caller cl)) as [[s2 vs2]| |] eqn:R; try discriminate.
    cbn [bind] in E. assert (s2 = (n, r, Some e)) by congruence. subst s2. destruct (IH _ _ _ _ _ _ R) as (j & s' & w & Hin & P). exists j, s', w. split; [right; exact Hin|exact P].
  - pose proof (index_good _ G) as X. cbv beta iota in X. pose proof G as [_ Gh].
    unfold decode_size at 1. cbn [not_null assert bind read]. rewrite X. cbn [assert bind]. rewrite host_code. unfold puny_decoded_size.
    destruct (puny_decoded_spec s (Gh eq_refl)) as [(t & b & _ & D & _)|(w & err & P & _)]; [elim (undecodable_not _ _ U D)|]. rewrite P. cbn [bind].
    rewrite decode_after by exact Gs. cbn [bind]. intros E. assert (err = e) by congruence. subst err. exists i, s, w. split; [left; reflexivity|exact P].
Qed.
Lemma parts_error grow store p st e : proper p -> parts_decode grow store p = Ok (st, inr e) ->
  exists a s w, v_authority p = Some a /\ v_host a = Caller s /\ puny_decoded s = Ok (w, inr e).
Proof.
  intros (O & F & S) Ed. pose proof (short_host_short p S) as H. destruct (slots_callers p O F) as (cl & E & ND & G0). pose proof (good_slots p cl H E G0) as G.
  unfold parts_decode in Ed. destruct (decode_sizes (vclear store) cl G (fun _ => false) 0) as [(needs & D & R & B)|(needs & req & e' & _ & R)];
  pose proof (first_pass _ _ _ _ _ E R) as FP; change (@pair (N -> bool) nat) with (@pair bitset nat) in Ed; change (@pair ((N -> bool) * nat) (option ModelPuny.derr)) with (@pair (bitset * nat) (option ModelPuny.derr)) in Ed; rewrite FP in Ed; cbn [bind] in Ed.
  - destruct (parts_strings _ _ p) as [[st2 q]| |]; cbn [bind] in Ed; try discriminate. destruct (assert _); discriminate.
  - assert (e' = e) by congruence. subst e'. destruct (run_error _ _ G _ _ _ _ _ _ R) as (i & s & w & Hin & P).
    assert (X : In (Host, i, Caller s) (slots p)) by (rewrite E; apply (in_map at_caller _ _ Hin)). apply slots_host in X as (a & Ea & Eh). exists a, s, w. auto.
Qed.

Lemma undecoded q e : short_text q -> ModelPuny.decode q = Ok (inr e) -> ~ exists t, label_decoded (xn ++ q) t.
Proof.
  intros H E (t & [[N _]|(q' & u & cs & ok & X & P & _)]); [apply N; exists q; reflexivity|]. apply app_inv_head in X. subst q'.
  apply decode_puny_text in P; [congruence|exact H].
Qed.
Lemma first_unique (R : str -> Prop) : forall before x after before' x' after', before ++ x :: after = before' ++ x' :: after' ->
  Forall R before -> ~ R x -> Forall R before' -> ~ R x' -> x = x'.
Proof.
  induction before as [|b before IH]; intros x after [|b' before'] x' after' E F N F' N'; cbn in E; injection E as E1 E2.
  - exact E1.
  - subst b'. inversion F'; contradiction.
  - subst b. inversion F; contradiction.
  - inversion F; inversion F'; subst. eapply IH; eassumption.
Qed.
Lemma first_bad_fun s q q' : first_bad s q -> first_bad s q' -> q = q'.
Proof.
  intros (b & a & L & F & N) (b' & a' & L' & F' & N'). pose proof (labels_fun _ _ _ _ L L') as E.
  pose proof (first_unique _ _ _ _ _ _ _ E F N F' N') as X. apply app_inv_head in X. exact X.
Qed.
Lemma label_short s ls l : labels dot s ls -> In l ls -> short_text s -> short_text l.
Proof. intros (l0 & ls0 & -> & -> & _) Hl H. pose proof (joined_label_length dot ls0 l l0 Hl) as J. unfold short_text in *. lia. Qed.
Lemma short_q s before q after : labels dot s (before ++ (xn ++ q) :: after) -> short_text s -> short_text q.
Proof.
  intros L H. apply (short_skip 4) with (s := xn ++ q). eapply label_short; [exact L| |exact H]. apply in_or_app. right. left. reflexivity.
Qed.
Lemma parts_reports grow store p a s e : proper p -> v_authority p = Some a -> v_host a = Caller s ->
  ((exists st, parts_decode grow store p = Ok (st, inr e)) <-> exists q, first_bad s q /\ ModelPuny.decode q = Ok (inr e)).
Proof.
  intros P Ea Eh. pose proof P as (O & F & S). pose proof (short_host_short p S a s Ea Eh) as Hs.
  assert (X : forall st e, parts_decode grow store p = Ok (st, inr e) -> exists q, first_bad s q /\ ModelPuny.decode q = Ok (inr e)).
  { intros st e' E. destruct (parts_error grow store p st e' P E) as (a' & s' & w & Ea' & Eh' & D). assert (s' = s) by congruence. subst s'.
    destruct (host_error s w e' Hs D) as (before & q & after & L & B & Dq). exists q. split; [|exact Dq]. exists before, after. split; [exact L|]. split; [exact B|].
    eapply undecoded; [exact (short_q _ _ _ _ L Hs)|exact Dq]. }
  split; [intros (st & E); exact (X st e E)|]. intros (q & B & D).
  assert (U : undecodable p).
  { exists a, s. split; [exact Ea|]. split; [exact Eh|]. destruct B as (before & after & L & _ & N). exists (before ++ (xn ++ q) :: after), (xn ++ q).
    split; [exact L|]. split; [apply in_or_app; right; left; reflexivity|]. split; [exists q; reflexivity|]. intros u Hu. change (skipn 4 (xn ++ q)) with q in Hu.
    apply decode_puny_text in Hu; [congruence|]. exact (short_q _ _ _ _ L Hs). }
  apply (proj1 (c26_decode grow store p P)) in U as (st & e' & E). destruct (X st e' E) as (q' & B' & D'). rewrite (first_bad_fun s q q' B B') in D.
  exists st. congruence.
Qed.
Lemma c67_bad s : (N.of_nat (length s) < 2 ^ 32)%N -> ModelPuny.decode s = Ok (inr ModelPuny.bad_input) -> forall u, ~ reads s u.
Proof. exact (bad_unreadable s). Qed.
Lemma c67_overflow s : (N.of_nat (length s) < 2 ^ 32)%N -> ModelPuny.decode s = Ok (inr ModelPuny.overflow) ->
  exists p rest, s = p ++ rest /\ (too_large p \/ too_large (p ++ ["a"%char])).
Proof.
  intros H E. destruct (overflow_big s H E) as (p & rest & t & u & c & -> & Et & R & Hc & B). exists p, rest. split; [reflexivity|].
  destruct Et as [->| ->]; [left; rewrite app_nil_r in R|right]; exists u, c; auto.
Qed.
Lemma c67_large s : (N.of_nat (length s) < 2 ^ 32)%N -> too_large s -> ModelPuny.decode s = Ok (inr ModelPuny.overflow).
Proof. intros H (u & c & R & Hc & B). exact (big_overflow s u c H R Hc B). Qed.
