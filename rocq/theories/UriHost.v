(* host and authority: soundness and completeness *)
From Verif Require Import Base ModelRule ModelUri Peg PegUri PegLang UriLang UriIPv6 SpecHost.
From Verif Require Rfc3986.
Import Rfc3986 (L, abnf, Rng, Lit, Cat, Alt, Rep, lower).
From Coq Require Import ZifyBool ZifyNat ZifyN.
Local Notation concat := List.concat.
Local Notation parser := (Peg.parser action).
Local Notation pseq := (Peg.pseq action).
Local Notation popt := (Peg.popt action).
Local Notation pact := (Peg.pact action).
Local Notation palts := (Peg.palts action).
Local Notation pchr := (Peg.pchr action).
Local Notation pstar := (Peg.pstar action).

Notation all f s := (Forall (fun c => f c = true) s).

Lemma all_imp (f g : ascii -> bool) s : forallb (fun c => implb (f c) (g c)) all_ascii = true ->
  all f s -> all g s.
Proof.
  intros H. apply Forall_impl. intros c Hc. pose proof (sweep _ H c) as Hs. cbn in Hs. rewrite Hc in Hs. exact Hs.
Qed.

(* every character of a word is in the class *)
Definition efull (f : ascii -> bool) c := f c || ch 0x25 c || b_hex c.
Lemma elem_word_chars g f min max s : (forall m, L g m <-> elemL f m) -> L (Rep min max g) s -> all (efull f) s.
Proof.
  intros Hg (l & -> & Hl & _). induction Hl as [|x l Hx _ IH]; cbn; [constructor|].
  apply Forall_app; split; auto. apply Hg in Hx. unfold efull.
  destruct Hx as [(c & -> & Hc)|(h1 & h2 & -> & H1 & H2)].
  - constructor; auto. now rewrite Hc.
  - repeat constructor; rewrite ?H1, ?H2, ?orb_true_r; reflexivity.
Qed.
Lemma chr_word_chars g f min max s : same_cls g f = true -> L (Rep min max g) s -> all f s.
Proof.
  intros Hg (l & -> & Hl & _). induction Hl as [|x l Hx _ IH]; cbn; [constructor|].
  apply Forall_app; split; auto. apply (L_cls _ _ Hg) in Hx. destruct Hx as (c & -> & Hc). auto.
Qed.
Lemma reg_name_chars s : L Rfc3986.reg_name s -> all (efull f_r) s.
Proof. apply elem_word_chars, (proj1 (proj2 e_rchar)). Qed.
Lemma userinfo_chars s : L Rfc3986.userinfo s -> all (efull f_u) s.
Proof. apply elem_word_chars, (proj1 (proj2 e_uchar)). Qed.
Lemma segment_chars s : L Rfc3986.segment s -> all (efull f_p) s.
Proof. apply elem_word_chars, (proj1 (proj2 e_pchar)). Qed.
Lemma segment_nz_chars s : L Rfc3986.segment_nz s -> all (efull f_p) s.
Proof. apply elem_word_chars, (proj1 (proj2 e_pchar)). Qed.
Lemma segment_nz_nc_chars s : L Rfc3986.segment_nz_nc s -> all (efull f_n) s.
Proof. apply elem_word_chars, (proj1 (proj2 e_nchar)). Qed.
Lemma query_chars s : L Rfc3986.query s -> all (efull f_q) s.
Proof. apply elem_word_chars, (proj1 (proj2 e_qchar)). Qed.
Lemma port_chars s : L Rfc3986.port s -> all b_digit s.
Proof. apply chr_word_chars. vm_compute. reflexivity. Qed.
Lemma scheme_chars s : L Rfc3986.scheme s -> all f_s s /\ s <> [].
Proof.
  intros (a & t & -> & Ha & Ht). apply chr_word_chars with (f := f_s) in Ht; [|vm_compute; reflexivity].
  assert (Hc : same_cls Rfc3986.ALPHA b_alpha = true) by (vm_compute; reflexivity).
  apply (L_cls _ _ Hc) in Ha. destruct Ha as (c & -> & Hac). split; [|discriminate].
  constructor; auto. unfold f_s. now rewrite Hac.
Qed.
Lemma ipvfuture_chars m : L Rfc3986.IPvFuture m -> exists c t, m = c :: t /\ b_v c = true /\ all (fun c => f_u c || b_v c) m.
Proof.
  intros (v & t1 & -> & Hv & h & t2 & -> & Hh & d & t & -> & Hd & Ht).
  assert (Hc : same_cls (Lit "v") b_v = true) by (vm_compute; reflexivity).
  apply (L_cls _ _ Hc) in Hv. destruct Hv as (c & -> & Hcv).
  apply (proj1 (L_dot _)) in Hd. subst d.
  apply chr_word_chars with (f := b_hex) in Hh; [|vm_compute; reflexivity].
  apply chr_word_chars with (f := f_u) in Ht; [|vm_compute; reflexivity].
  exists c. eexists. split; [reflexivity|]. split; auto. cbn [app]. constructor; [now rewrite Hcv, orb_true_r|].
  apply Forall_app; split; [revert Hh; apply all_imp; vm_compute; reflexivity|].
  constructor; [reflexivity|]. revert Ht. apply all_imp. vm_compute. reflexivity.
Qed.

(* IP-literal *)
Definition b_lit c := f_u c || b_v c || ch 91 c || ch 93 c.
Lemma L_lb m : L (Lit "[") m -> m = ["["%char].
Proof. apply (proj1 (L_lit1 91 "[" m eq_refl eq_refl)). Qed.
Lemma L_rb m : L (Lit "]") m -> m = ["]"%char].
Proof. apply (proj1 (L_lit1 93 "]" m eq_refl eq_refl)). Qed.
Lemma ip_literal_chars m : L Rfc3986.IP_literal m -> all b_lit m /\ exists t, m = "["%char :: t.
Proof.
  intros (b & t1 & -> & Hb & x & e & -> & Hx & He). apply L_lb in Hb. apply L_rb in He. subst.
  split; [|cbn; eauto]. constructor; [reflexivity|]. apply Forall_app; split; [|repeat constructor].
  destruct Hx as [Hx|Hx].
  - apply ipv6_chars in Hx. revert Hx. apply all_imp. vm_compute. reflexivity.
  - apply ipvfuture_chars in Hx. destruct Hx as (_ & _ & _ & _ & Hx). revert Hx. apply all_imp. vm_compute. reflexivity.
Qed.
Lemma s_ip_literal : sound g_ip_literal (rlang Rfc3986.IP_literal).
Proof.
  eapply sound_imp; [apply sound_seq; [apply (s_ch 91 "["); vm_compute; reflexivity|apply sound_seq;
    [apply sound_alts with (R := rlang (Alt Rfc3986.IPv6address Rfc3986.IPvFuture))|apply (s_ch 93 "]"); vm_compute; reflexivity]]|].
  - repeat (apply Forall_cons || apply Forall_nil).
    + eapply sound_imp; [apply s_ipv6|]. intros m a. apply rlang_imp. cbn; auto.
    + eapply sound_imp; [apply s_ipvfuture|]. intros m a. apply rlang_imp. cbn; auto.
  - intros m a. apply rlang_cat'. intros m' a'. apply rlang_cat.
Qed.
Lemma ipv6_fail_v c s : b_v c = true -> g_ipv6 (c :: s) = None.
Proof.
  intros Hc. unfold b_v in Hc. 
  assert (E : c = "v"%char \/ c = "V"%char).
  { pose proof (sweep (fun c => implb (b_v c) (Ascii.eqb c "v" || Ascii.eqb c "V")) eq_refl c) as H. cbn in H.
    unfold b_v in H. rewrite Hc in H. cbn in H. apply orb_prop in H. destruct H as [H|H]; apply Ascii.eqb_eq in H; auto. }
  destruct E; subst; reflexivity.
Qed.
Lemma c_ip_literal : complete g_ip_literal (rlang Rfc3986.IP_literal) any.
Proof.
  intros m a r [(b & t1 & -> & Hb & x & e & -> & Hx & He) ->] _. apply L_lb in Hb. apply L_rb in He. subst.
  cbn [app]. rewrite <- app_assoc. cbn [app].
  assert (E : palts [g_ipv6; g_ipvfuture] (x ++ "]"%char :: r) = Some (x, [], "]"%char :: r)).
  { cbn [palts]. destruct Hx as [Hx|Hx].
    - now rewrite c_ipv6.
    - destruct (ipvfuture_chars _ Hx) as (c & t & -> & Hc & _). cbn [app]. rewrite ipv6_fail_v by auto.
      change (c :: t ++ "]"%char :: r) with ((c :: t) ++ "]"%char :: r).
      rewrite (c_ipvfuture (c :: t) []); [auto|split; auto|reflexivity]. }
  unfold g_ip_literal, Peg.pseq, oseq. cbn [g_ch Peg.pchr]. unfold g_ch at 1, Peg.pchr.
  change (ch 91 "["%char) with true. cbn iota. rewrite E. reflexivity.
Qed.
Lemma ip_literal_fail c s : ch 91 c = false -> g_ip_literal (c :: s) = None.
Proof. intros H. unfold g_ip_literal, Peg.pseq, oseq, g_ch, Peg.pchr. now rewrite H. Qed.

(* host *)
Lemma host_chars h : L Rfc3986.host h -> all (fun c => b_lit c || efull f_r c) h.
Proof.
  intros [[H|H]|H].
  - apply ip_literal_chars in H. destruct H as [H _]. revert H. apply all_imp. vm_compute. reflexivity.
  - apply ipv4_chars in H. destruct H as [H _]. revert H. apply all_imp. vm_compute. reflexivity.
  - apply reg_name_chars in H. revert H. apply all_imp. vm_compute. reflexivity.
Qed.
Lemma ipv4_reg_name h : L Rfc3986.IPv4address h -> L Rfc3986.reg_name h.
Proof.
  intros H. apply ipv4_chars in H. destruct H as [H _]. exists (map (fun c => [c]) h). repeat split; [| |lia].
  - clear. induction h; cbn; congruence.
  - induction H; cbn; constructor; auto. apply (proj1 (proj2 e_rchar)). left. exists x. split; auto.
    pose proof (sweep (fun c => implb (b_v4 c) (f_r c)) eq_refl x) as Hs. cbn in Hs. rewrite H in Hs. exact Hs.
Qed.
Lemma ipv4_literal_disj p q : L Rfc3986.IP_literal (p ++ q) -> L Rfc3986.IPv4address p -> False.
Proof.
  intros H1 H2. apply ip_literal_chars in H1. destruct H1 as [_ [t Ht]]. apply ipv4_chars in H2.
  destruct H2 as [H2 Hn]. destruct p as [|c p]; [congruence|]. cbn in Ht. inversion Ht; subst. inv H2.
  vm_compute in H3. discriminate.
Qed.
Lemma wf_g_ip_literal : wf _ g_ip_literal.
Proof. apply (i_ip_literal true 0). Qed.
Lemma wf_g_ipv4 : wf _ g_ipv4.
Proof. apply (i_ipv4 true 0). Qed.
Lemma s_host : sound g_host (fun m a => a = [] /\ L Rfc3986.host m /\ host_unambiguous m).
Proof.
  intros s m a r. unfold g_host. cbn [palts].
  destruct (g_ip_literal s) as [[[m1 a1] r1]|] eqn:E1.
  { intros H; inv H. apply s_ip_literal in E1. destruct E1 as [E1 ->]. split; auto. split; [left; left; auto|].
    right. intros (p & q & -> & Hp). eapply ipv4_literal_disj; eauto. }
  destruct (g_ipv4 s) as [[[m2 a2] r2]|] eqn:E2.
  { intros H; inv H. apply s_ipv4 in E2. destruct E2 as [E2 ->]. split; auto. split; [left; right; auto|]. left; auto. }
  destruct (g_reg_name s) as [[[m3 a3] r3]|] eqn:E3; [|discriminate].
  intros H; inv H. pose proof (s_reg_name _ _ _ _ E3) as [H3 ->]. split; auto. split; [right; auto|].
  right. intros (p & q & -> & Hp).
  assert (W : s = (p ++ q) ++ r) by (revert E3; apply (i_reg_name true 0)). subst s.
  rewrite <- app_assoc in E2. apply (ipv4_any _ _ Hp) in E2. auto.
Qed.
Lemma prefix_chars f (a b x y : str) : a ++ x = b ++ y -> all f a -> nohd f y -> exists z, b = a ++ z.
Proof.
  revert b. induction a as [|c a IH]; intros b E Ha Hy; [exists b; auto|]. inv Ha.
  destruct b as [|d b].
  - cbn in E. subst y. cbn in Hy. congruence.
  - cbn in E. inversion E; subst. destruct (IH b) as [z ->]; auto. exists z. auto.
Qed.
(* what can follow a host, an authority, a path, a query *)
Definition fl_host c := negb (ch 58 c || ch 47 c || ch 63 c || ch 35 c).
Definition fl_auth c := negb (ch 47 c || ch 63 c || ch 35 c).
Definition fl_path c := negb (ch 63 c || ch 35 c).
Definition fl_query c := negb (ch 35 c).

Lemma no_lit m r : L Rfc3986.reg_name m -> nohd fl_host r -> g_ip_literal (m ++ r) = None.
Proof.
  intros Hm Hr. destruct m as [|c m].
  - destruct r as [|d r]; [reflexivity|]. apply ip_literal_fail. cbn in Hr.
    pose proof (sweep (fun c => fl_host c || negb (ch 91 c)) eq_refl d) as H.
    cbn -[fl_host ch] in H. rewrite Hr in H. cbn [orb] in H. now destruct (ch 91 d).
  - apply reg_name_chars in Hm. inv Hm. apply ip_literal_fail.
    pose proof (sweep (fun c => implb (efull f_r c) (negb (ch 91 c))) eq_refl c) as H.
    cbn -[efull ch] in H. rewrite H1 in H. cbn [implb] in H. now destruct (ch 91 c).
Qed.
Lemma host_reg_or_lit m : L Rfc3986.host m -> L Rfc3986.IP_literal m \/ L Rfc3986.reg_name m.
Proof. intros [[H|H]|H]; auto using ipv4_reg_name. Qed.
Lemma c_host : complete g_host (fun m a => a = [] /\ L Rfc3986.host m /\ host_unambiguous m) (nohd fl_host).
Proof.
  intros m a r (-> & Hm & Hu) Hr. unfold g_host. cbn [palts].
  assert (Hd : nohd b_digit r) by (revert Hr; apply nohd_imp_b; vm_compute; reflexivity).
  assert (Hf : nohd (efirst f_r) r) by (revert Hr; apply nohd_imp_b; vm_compute; reflexivity).
  assert (Hv : nohd b_v4 r) by (revert Hr; apply nohd_imp_b; vm_compute; reflexivity).
  destruct (host_reg_or_lit _ Hm) as [Hl|Hreg].
  { rewrite (c_ip_literal m [] r); [auto|split; auto|exact I]. }
  rewrite no_lit by auto.
  destruct Hu as [Hu|Hu].
  { rewrite (c_ipv4 m [] r); [auto|split; auto|auto]. }
  destruct (g_ipv4 (m ++ r)) as [[[m2 a2] r2]|] eqn:E2.
  - exfalso. apply Hu. pose proof (wf_g_ipv4 _ _ _ _ E2) as W. apply s_ipv4 in E2. destruct E2 as [E2 _].
    destruct (prefix_chars b_v4 m2 m r2 r) as [z ->]; auto. 2:{ exists m2, z. auto. }
    apply ipv4_chars in E2. tauto.
  - rewrite (c_reg_name m [] r); [auto|split; auto|auto].
Qed.

(* a host parser without the IPv4 alternative recognises exactly the RFC's hosts *)
Definition g_host_rfc := palts [g_ip_literal; g_reg_name].
Lemma c_host_rfc : complete g_host_rfc (fun m a => a = [] /\ L Rfc3986.host m) (nohd fl_host).
Proof.
  intros m a r (-> & Hm) Hr. unfold g_host_rfc. cbn [palts].
  assert (Hf : nohd (efirst f_r) r) by (revert Hr; apply nohd_imp_b; vm_compute; reflexivity).
  destruct (host_reg_or_lit _ Hm) as [Hl|Hreg].
  { rewrite (c_ip_literal m [] r); [auto|split; auto|exact I]. }
  rewrite no_lit by auto. rewrite (c_reg_name m [] r); [auto|split; auto|auto].
Qed.
