(* The grammar of uri.cpp as pure PEG parsers, and the proof that the model's match functions
   compute them (up to the <cctype> domain fault). *)
From Verif Require Import Base ModelRule ModelUri Peg.
From Coq Require Import ZifyBool ZifyNat ZifyN.
Local Open Scope N_scope.

Definition inr (lo hi : N) (c : ascii) : bool := (lo <=? code c) && (code c <=? hi).
Definition ch (n : N) (c : ascii) : bool := (code c =? n).
Definition b_alpha c := inr 65 90 c || inr 97 122 c.
Definition b_digit c := inr 48 57 c.
Definition b_hex c := b_digit c || inr 65 70 c || inr 97 102 c.
Definition b_unres c := b_alpha c || b_digit c || ch 0x2D c || ch 0x2E c || ch 0x5F c || ch 0x7E c.
Definition b_v c := ch 0x76 c || ch 0x56 c.

Local Notation parser := (parser action).
Local Notation pchr := (pchr action).
Local Notation pnot := (pnot action).
Local Notation pseq := (pseq action).
Local Notation pact := (pact action).
Local Notation popt := (popt action).
Local Notation palts := (palts action).
Local Notation pstar := (pstar action).

Definition g_ch (n : N) : parser := pchr (ch n).
Definition g_hex := pchr b_hex.
Definition g_digit := pchr b_digit.
Definition g_alpha := pchr b_alpha.
Definition g_unres := pchr b_unres.
Definition g_sub := pchr is_sub_delim.
Definition g_colon := g_ch 0x3A.
Definition g_at := g_ch 0x40.
Definition g_slash := g_ch 0x2F.
Definition g_dot := g_ch 0x2E.
Definition g_pct := pseq (g_ch 0x25) (pseq g_hex g_hex).
Definition g_pchar := palts [g_unres; g_pct; g_sub; g_colon; g_at].
Definition g_uchar := palts [g_unres; g_pct; g_sub; g_colon].
Definition g_rchar := palts [g_unres; g_pct; g_sub].
Definition g_schar := palts [g_alpha; g_digit; g_ch 0x2B; g_ch 0x2D; g_dot].
Definition g_nchar := palts [g_unres; g_pct; g_sub; g_at].
Definition g_fchar := palts [g_unres; g_sub; g_colon].
Definition g_qchar := palts [g_pchar; g_slash; g_ch 0x3F].
Definition g_userinfo := pstar 0 None g_uchar.
Definition g_scheme := pseq g_alpha (pstar 0 None g_schar).
Definition g_reg_name := pstar 0 None g_rchar.
Definition g_dec_octet := palts
  [pseq (g_ch 0x32) (pseq (g_ch 0x35) (pchr (inr 48 53)));
   pseq (g_ch 0x32) (pseq (pchr (inr 48 52)) g_digit);
   pseq (g_ch 0x31) (pseq g_digit g_digit);
   pseq (pchr (inr 49 57)) g_digit;
   g_digit].
Definition g_ipv4 := pseq g_dec_octet (pseq g_dot (pseq g_dec_octet (pseq g_dot
                      (pseq g_dec_octet (pseq g_dot g_dec_octet))))).
Definition g_h16 := pstar 1 (Some 4%nat) g_hex.
Definition g_single_colon := pseq g_colon (pnot (ch 0x3A)).
Definition g_h16c := pseq g_h16 g_single_colon.
Definition g_cc := pseq g_colon g_colon.
Definition g_ls32 := palts [pseq g_h16 (pseq g_colon g_h16); g_ipv4].
Definition g_upto (k : nat) := pseq (pstar 0 (Some k) g_h16c) g_h16.
Definition g_times (k : nat) := pstar k (Some k) g_h16c.
Definition g_ipv6 := palts
  [pseq (g_times 6) g_ls32;
   pseq g_cc (pseq (g_times 5) g_ls32);
   pseq (popt g_h16) (pseq g_cc (pseq (g_times 4) g_ls32));
   pseq (popt (g_upto 1)) (pseq g_cc (pseq (g_times 3) g_ls32));
   pseq (popt (g_upto 2)) (pseq g_cc (pseq (g_times 2) g_ls32));
   pseq (popt (g_upto 3)) (pseq g_cc (pseq g_h16c g_ls32));
   pseq (popt (g_upto 4)) (pseq g_cc g_ls32);
   pseq (popt (g_upto 5)) (pseq g_cc g_h16);
   pseq (popt (g_upto 6)) g_cc].
Definition g_ipvfuture := pseq (pchr b_v) (pseq (pstar 1 None g_hex) (pseq g_dot (pstar 1 None g_fchar))).
Definition g_ip_literal := pseq (g_ch 0x5B) (pseq (palts [g_ipv6; g_ipvfuture]) (g_ch 0x5D)).
Definition g_host := palts [g_ip_literal; g_ipv4; g_reg_name].
Definition g_host_rule := pact g_host SetHost.
Definition g_userinfo_at := pseq (pact g_userinfo SetUserinfo) g_at.
Definition g_port := pstar 0 None g_digit.
Definition g_colon_port := pseq g_colon (pact g_port SetPort).
Definition g_authority := pseq (popt g_userinfo_at) (pseq g_host_rule (popt g_colon_port)).
Definition g_segment := pstar 0 None g_pchar.
Definition g_segment_nz := pstar 1 None g_pchar.
Definition g_segment_nz_nc := pstar 1 None g_nchar.
Definition g_slash_seg (b : bool) := pseq (pact g_slash (AppendDir b)) (pact g_segment AppendSegment).
Definition g_abempty := pstar 0 None (g_slash_seg true).
Definition g_slash_segs := pstar 0 None (g_slash_seg false).
Definition g_absolute := pseq (pact g_slash (AppendDir true))
  (popt (pseq (pact g_segment_nz AppendSegment) g_slash_segs)).
Definition g_noscheme := pseq (pact g_segment_nz_nc RecordInitialSegment) g_slash_segs.
Definition g_empty := pstar 0 (Some 0%nat) g_pchar.
Definition g_rootless := pseq (pact g_segment_nz RecordInitialSegment) g_slash_segs.
Definition g_auth_abempty := pseq g_slash (pseq g_slash (pseq g_authority g_abempty)).
Definition g_relative_part := palts [g_auth_abempty; g_absolute; g_noscheme; g_empty].
Definition g_query := pstar 0 None g_qchar.
Definition g_question_query := pseq (g_ch 0x3F) (pact g_query SetQuery).
Definition g_hash_fragment := pseq (g_ch 0x23) (pact g_query SetFragment).
Definition g_relative_ref := pseq g_relative_part (pseq (popt g_question_query) (popt g_hash_fragment)).
Definition g_hier_part := palts [g_auth_abempty; g_absolute; g_rootless; g_empty].
Definition g_URI := pseq (pact g_scheme SetScheme) (pseq g_colon (pseq g_hier_part
  (pseq (popt g_question_query) (popt g_hash_fragment)))).
Definition g_URI_reference := palts [g_URI; g_relative_ref].

(* well-formedness and progress *)
Create HintDb peg.
#[global] Hint Resolve wf_chr wf_not wf_seq wf_act wf_opt wf_star prog_chr prog_seq_l prog_act prog_star1 : peg.
Ltac wf_tac :=
  repeat first [ solve [auto with peg nocore] | apply wf_seq | apply wf_act | apply wf_opt | apply wf_star | apply wf_chr
               | apply wf_not
               | apply wf_alts; repeat constructor ].

Lemma wf_pct : wf _ g_pct. Proof. unfold g_pct; wf_tac. Qed.
Lemma prog_pct : prog _ g_pct. Proof. apply prog_seq_l, prog_chr. Qed.
#[global] Hint Resolve wf_pct prog_pct : peg.
Ltac unf := unfold g_pchar, g_uchar, g_rchar, g_schar, g_nchar, g_fchar, g_qchar, g_unres, g_sub,
   g_colon, g_at, g_slash, g_dot, g_hex, g_digit, g_alpha, g_ch.
Lemma wf_pchar : wf _ g_pchar. Proof. unf; wf_tac. Qed.
Lemma wf_uchar : wf _ g_uchar. Proof. unf; wf_tac. Qed.
Lemma wf_rchar : wf _ g_rchar. Proof. unf; wf_tac. Qed.
Lemma wf_schar : wf _ g_schar. Proof. unf; wf_tac. Qed.
Lemma wf_nchar : wf _ g_nchar. Proof. unf; wf_tac. Qed.
Lemma wf_fchar : wf _ g_fchar. Proof. unf; wf_tac. Qed.
#[global] Hint Resolve wf_pchar wf_uchar wf_rchar wf_schar wf_nchar wf_fchar : peg.
Ltac prog_tac := apply prog_alts; repeat (constructor; [solve [auto with peg nocore]|]); try constructor.
Lemma prog_pchar : prog _ g_pchar. Proof. unf; prog_tac. Qed.
Lemma prog_uchar : prog _ g_uchar. Proof. unf; prog_tac. Qed.
Lemma prog_rchar : prog _ g_rchar. Proof. unf; prog_tac. Qed.
Lemma prog_schar : prog _ g_schar. Proof. unf; prog_tac. Qed.
Lemma prog_nchar : prog _ g_nchar. Proof. unf; prog_tac. Qed.
Lemma prog_fchar : prog _ g_fchar. Proof. unf; prog_tac. Qed.
#[global] Hint Resolve prog_pchar prog_uchar prog_rchar prog_schar prog_nchar prog_fchar : peg.
Lemma wf_qchar : wf _ g_qchar. Proof. unfold g_qchar, g_slash, g_ch; wf_tac. Qed.
Lemma prog_qchar : prog _ g_qchar. Proof. unfold g_qchar, g_slash, g_ch; prog_tac. Qed.
Lemma prog_h16c : prog _ g_h16c. Proof. apply prog_seq_l, prog_star1, prog_chr. Qed.
Lemma prog_slash_seg b : prog _ (g_slash_seg b). Proof. apply prog_seq_l, prog_act, prog_chr. Qed.
Lemma prog_hex : prog _ g_hex. Proof. apply prog_chr. Qed.
Lemma prog_digit : prog _ g_digit. Proof. apply prog_chr. Qed.
#[global] Hint Resolve wf_qchar prog_qchar prog_h16c prog_slash_seg prog_hex prog_digit : peg.

Definition chr_agree (sg : bool) (f : ascii -> outcome bool) (g : ascii -> bool) : bool :=
  forallb (fun c => match f c with
                    | Ok b => Bool.eqb b (g c)
                    | Fault ctype_domain => sg && high c
                    | _ => false end) all_ascii.

Section Impl.
Variable sg : bool.
Variable fuel : nat.
Local Notation impl := (impl action sg fuel).

Lemma impl_chr' f g : chr_agree sg f g = true -> impl (single_char_p f) (pchr g).
Proof.
  intros H. apply impl_chr. intros c. pose proof (sweep _ H c) as Hc.
  cbn in Hc. destruct (f c) as [b|[]|]; try discriminate.
  - left. f_equal. now apply eqb_prop.
  - right. apply andb_prop in Hc. tauto.
Qed.
Lemma impl_ch n : (n <? 128) = true -> chr_agree sg
   (fun d => bind (c_tolower (as_int sg (chr n))) (fun c2 =>
             bind (c_tolower (as_int sg d)) (fun d2 => Ok (Z.eqb c2 d2)))) (ch n) = true ->
  impl (single_code_point sg n) (g_ch n).
Proof.
  intros Hn H. assert (Hc : exists c2, c_tolower (as_int sg (chr n)) = Ok c2).
  { unfold c_tolower, as_int, code, chr. rewrite N_ascii_embedding by lia.
    replace (sg && (128 <=? Z.of_N n)%Z) with false by (destruct sg; lia).
    unfold ctype_dom. replace ((Z.of_N n =? -1)%Z || (0 <=? Z.of_N n)%Z && (Z.of_N n <=? 255)%Z) with true by lia.
    eauto. }
  destruct Hc as [c2 Hc].
  assert (E : impl (single_char_p (fun d => bind (c_tolower (as_int sg d)) (fun d2 => Ok (Z.eqb c2 d2)))) (g_ch n)).
  { apply impl_chr'. rewrite Hc in H. exact H. }
  destruct E as [E1 E2]. split; auto. intros s Hs.
  unfold single_code_point, single_char. rewrite Hc. apply E2; auto.
Qed.

Ltac chr_tac := apply impl_ch; [reflexivity|destruct sg; vm_compute; reflexivity].
Lemma i_at : impl (commercial_at sg) g_at. Proof. chr_tac. Qed.
Lemma i_colon : impl (colon sg) g_colon. Proof. chr_tac. Qed.
Lemma i_hash : impl (hash sg) (g_ch 0x23). Proof. chr_tac. Qed.
Lemma i_plus : impl (plus sg) (g_ch 0x2B). Proof. chr_tac. Qed.
Lemma i_minus : impl (minus sg) (g_ch 0x2D). Proof. chr_tac. Qed.
Lemma i_slash : impl (solidus sg) g_slash. Proof. chr_tac. Qed.
Lemma i_question : impl (question_mark sg) (g_ch 0x3F). Proof. chr_tac. Qed.
Lemma i_dot : impl (full_stop sg) g_dot. Proof. chr_tac. Qed.
Lemma i_lsb : impl (left_square_bracket sg) (g_ch 0x5B). Proof. chr_tac. Qed.
Lemma i_rsb : impl (right_square_bracket sg) (g_ch 0x5D). Proof. chr_tac. Qed.
Lemma i_percent : impl (percent_sign sg) (g_ch 0x25). Proof. chr_tac. Qed.
Lemma i_one : impl (digit_one sg) (g_ch 0x31). Proof. chr_tac. Qed.
Lemma i_two : impl (digit_two sg) (g_ch 0x32). Proof. chr_tac. Qed.
Lemma i_five : impl (digit_five sg) (g_ch 0x35). Proof. chr_tac. Qed.
Lemma i_v : impl (latin_small_letter_v sg) (pchr b_v).
Proof.
  assert (E : impl (single_char_p (fun d => bind (c_tolower (as_int sg d)) (fun d2 => Ok (Z.eqb 118 d2)))) (pchr b_v))
    by (apply impl_chr'; destruct sg; vm_compute; reflexivity).
  destruct E as [E1 E2]. split; auto. intros s Hs. specialize (E2 s Hs).
  unfold latin_small_letter_v, single_code_point, single_char.
  replace (c_tolower (as_int sg (chr 118))) with (@Ok Z 118%Z) by (destruct sg; reflexivity). exact E2.
Qed.
Lemma i_range a b : (a <? 65) && (b <? 65) = true -> impl (code_point_range sg a b) (pchr (inr a b)).
Proof.
  intros H. apply andb_prop in H. destruct H as [Ha Hb].
  assert (Hl : forall n, (n <? 65) = true -> c_tolower (as_int sg (chr n)) = Ok (Z.of_N n)).
  { intros n Hn. unfold c_tolower, as_int, code, chr. rewrite N_ascii_embedding by lia.
    replace (sg && (128 <=? Z.of_N n)%Z) with false by (destruct sg; lia).
    unfold ctype_dom. replace ((Z.of_N n =? -1)%Z || (0 <=? Z.of_N n)%Z && (Z.of_N n <=? 255)%Z) with true by lia.
    unfold c_isupper. replace ((65 <=? Z.of_N n)%Z && (Z.of_N n <=? 90)%Z) with false by lia. reflexivity. }
  assert (E : impl (single_char_p (fun c => bind (c_tolower (as_int sg c))
              (fun cl => Ok ((Z.of_N a <=? cl)%Z && (cl <=? Z.of_N b)%Z)))) (pchr (inr a b))).
  { apply impl_chr. intros c. unfold c_tolower, as_int, inr, high.
    assert (code c < 256) by (pose proof (N_ascii_bounded c); unfold code; lia).
    destruct (sg && (128 <=? Z.of_N (code c))%Z) eqn:E1.
    - unfold ctype_dom. destruct (Z.of_N (code c) - 256 =? -1)%Z eqn:E2.
      + left. cbn [orb bind]. f_equal. unfold c_isupper.
        replace ((65 <=? Z.of_N (code c) - 256)%Z && (Z.of_N (code c) - 256 <=? 90)%Z) with false by lia.
        lia.
      + right. destruct ((0 <=? Z.of_N (code c) - 256)%Z) eqn:E3; [lia|]. cbn.
        split; [destruct sg; auto; discriminate|]. split; [lia|reflexivity].
    - left. unfold ctype_dom. destruct ((Z.of_N (code c) =? -1)%Z || (0 <=? Z.of_N (code c))%Z && (Z.of_N (code c) <=? 255)%Z) eqn:E2; [|lia].
      cbn [bind]. f_equal. unfold c_isupper.
      destruct ((65 <=? Z.of_N (code c))%Z && (Z.of_N (code c) <=? 90)%Z) eqn:E3; lia. }
  destruct E as [E1 E2]. split; auto. intros s Hs. specialize (E2 s Hs).
  unfold code_point_range, char_range. rewrite !Hl by assumption. exact E2.
Qed.
Ltac chrp_tac := apply impl_chr'; destruct sg; vm_compute; reflexivity.
Lemma i_alpha : impl (alpha sg) g_alpha. Proof. chrp_tac. Qed.
Lemma i_digit : impl (digit sg) g_digit. Proof. chrp_tac. Qed.
Lemma i_hex : impl (hexdig sg) g_hex. Proof. chrp_tac. Qed.
Lemma i_unres : impl (unreserved sg) g_unres. Proof. chrp_tac. Qed.
Lemma i_sub : impl sub_delims g_sub. Proof. chrp_tac. Qed.
Lemma i_not_colon : impl not_colon (pnot (ch 0x3A)).
Proof.
  split; [apply wf_not|]. intros [|c s] _; left; [reflexivity|]. unfold not_colon; cbn.
  assert (E : Ascii.eqb c ":" = ch 58 c).
  { apply eqb_prop. apply (sweep (fun c => Bool.eqb (Ascii.eqb c ":") (ch 58 c))). vm_compute. reflexivity. }
  rewrite E. now destruct (ch 58 c).
Qed.
Hint Resolve i_at i_colon i_hash i_plus i_minus i_slash i_question i_dot i_lsb i_rsb i_percent i_one i_two
  i_five i_v i_alpha i_digit i_hex i_unres i_sub i_not_colon : impl.

Ltac side := first [ exact eq_refl | reflexivity | (split; [reflexivity|]; first [exact I | lia | reflexivity]) | (unfold uint_max; lia) ].
Ltac leaf := solve [ eauto with impl nocore | apply i_range; reflexivity | auto with peg nocore ].
Ltac chain_step Hs :=
  lazymatch goal with
  | |- chain _ _ _ (bind (Ok _) (concat _)) _ => eapply chain_concat0; [exact Hs|]
  | |- chain _ _ _ (bind (Ok _) (concat_a _ _)) _ => eapply chain_concat_a0; [exact Hs|]
  | |- chain _ _ _ (bind (Ok _) (optional _)) _ => eapply chain_optional0; [exact Hs|]
  | |- chain _ _ _ (bind (Ok _) (alternative _)) _ => eapply chain_alternative0; [exact Hs|repeat (apply Forall2_cons || apply Forall2_nil)]
  | |- chain _ _ _ (bind (Ok _) (star _ _ _ _)) _ => eapply chain_star0; [exact Hs| | |cbn|split;cbn]
  | |- chain _ _ _ (bind _ (concat _)) _ => eapply chain_concat; [exact Hs| |]
  | |- chain _ _ _ (bind _ (concat_a _ _)) _ => eapply chain_concat_a; [exact Hs| |]
  | |- chain _ _ _ (bind _ (optional _)) _ => eapply chain_optional; [exact Hs| |]
  | |- chain _ _ _ (bind _ (star _ _ _ _)) _ => eapply chain_star; [exact Hs| | | |cbn|split;cbn]
  end.
Ltac impl_tac :=
  lazymatch goal with
  | |- Peg.impl _ _ _ _ _ =>
    first [ leaf | eapply impl_chain;
      [ solve [wf_tac]
      | let s := fresh "s" in let Hs := fresh "Hs" in intros s Hs; rewrite <- ?pseq_assoc;
        repeat chain_step Hs; try leaf; try solve [lia | reflexivity | exact I | assumption | split; [reflexivity|assumption] | split; [reflexivity|cbn; unfold uint_max; lia] ];
        impl_tac ] ]
  end.
Lemma i_pct : impl (pct_encoded sg) g_pct.
Proof. unfold pct_encoded, g_pct. impl_tac. Qed.
Hint Resolve i_pct : impl.
Lemma i_pchar : impl (pchar sg) g_pchar.
Proof. unfold pchar, g_pchar. impl_tac. Qed.
Hint Resolve i_pchar : impl.
Lemma i_userinfo : impl (userinfo_r sg fuel) g_userinfo.
Proof. unfold userinfo_r, g_userinfo, g_uchar. impl_tac. Qed.
Lemma i_scheme : impl (scheme sg fuel) g_scheme.
Proof. unfold scheme, g_scheme, g_schar. impl_tac. Qed.
Lemma i_reg_name : impl (reg_name sg fuel) g_reg_name.
Proof. unfold reg_name, g_reg_name, g_rchar. impl_tac. Qed.
Lemma i_dec_octet : impl (dec_octet sg) g_dec_octet.
Proof. unfold dec_octet, g_dec_octet. impl_tac. Qed.
Hint Resolve i_userinfo i_scheme i_reg_name i_dec_octet : impl.
Lemma i_ipv4 : impl (ipv4address sg) g_ipv4.
Proof. unfold ipv4address, g_ipv4. impl_tac. Qed.
Lemma i_h16 : impl (h16 sg fuel) g_h16.
Proof. unfold h16, g_h16. impl_tac. Qed.
Lemma i_single_colon : impl (single_colon sg) g_single_colon.
Proof. unfold single_colon, g_single_colon. impl_tac. Qed.
Hint Resolve i_ipv4 i_h16 i_single_colon : impl.
Lemma i_h16c : impl (h16_colon sg fuel) g_h16c.
Proof. unfold h16_colon, g_h16c. impl_tac. Qed.
Lemma i_cc : impl (colon_colon sg) g_cc.
Proof. unfold colon_colon, g_cc. impl_tac. Qed.
Lemma i_ls32 : impl (ls32 sg fuel) g_ls32.
Proof. unfold ls32, g_ls32. impl_tac. Qed.
Hint Resolve i_h16c i_cc i_ls32 : impl.
Lemma i_upto k : (N.of_nat k < uint_max) -> impl (upto_h16 sg fuel (N.of_nat k)) (g_upto k).
Proof. intros Hk. unfold upto_h16, g_upto. impl_tac. Qed.
Ltac upto_tac k := apply (i_upto k); reflexivity.
Lemma i_ipv6 : impl (ipv6address sg fuel) g_ipv6.
Proof.
  pose proof (i_upto 1 eq_refl) as U1. pose proof (i_upto 2 eq_refl) as U2.
  pose proof (i_upto 3 eq_refl) as U3. pose proof (i_upto 4 eq_refl) as U4.
  pose proof (i_upto 5 eq_refl) as U5. pose proof (i_upto 6 eq_refl) as U6.
  cbn [N.of_nat Pos.of_succ_nat Pos.succ] in *.
  unfold ipv6address, g_ipv6, g_times. impl_tac.
Qed.
Lemma i_ipvfuture : impl (ipvfuture sg fuel) g_ipvfuture.
Proof. unfold ipvfuture, g_ipvfuture, g_fchar. impl_tac. Qed.
Hint Resolve i_ipv6 i_ipvfuture : impl.
Lemma i_ip_literal : impl (ip_literal sg fuel) g_ip_literal.
Proof. unfold ip_literal, g_ip_literal. impl_tac. Qed.
Hint Resolve i_ip_literal : impl.
Lemma i_host : impl (host_r sg fuel) g_host.
Proof. unfold host_r, g_host. impl_tac. Qed.
Hint Resolve i_host : impl.
Lemma i_port : impl (port_r sg fuel) g_port.
Proof. unfold port_r, g_port. impl_tac. Qed.
Hint Resolve i_port : impl.
Lemma i_host_rule : impl (host_rule sg fuel) g_host_rule.
Proof. unfold host_rule, g_host_rule. impl_tac. Qed.
Lemma i_userinfo_at : impl (userinfo_at sg fuel) g_userinfo_at.
Proof. unfold userinfo_at, g_userinfo_at. impl_tac. Qed.
Lemma i_colon_port : impl (colon_port sg fuel) g_colon_port.
Proof. unfold colon_port, g_colon_port. impl_tac. Qed.
Hint Resolve i_host_rule i_userinfo_at i_colon_port : impl.
Lemma i_authority : impl (authority_r sg fuel) g_authority.
Proof. unfold authority_r, g_authority. impl_tac. Qed.
Lemma i_segment : impl (segment sg fuel) g_segment.
Proof. unfold segment, g_segment. impl_tac. Qed.
Lemma i_segment_nz : impl (segment_nz sg fuel) g_segment_nz.
Proof. unfold segment_nz, g_segment_nz. impl_tac. Qed.
Lemma i_segment_nz_nc : impl (segment_nz_nc sg fuel) g_segment_nz_nc.
Proof. unfold segment_nz_nc, g_segment_nz_nc, g_nchar. impl_tac. Qed.
Hint Resolve i_authority i_segment i_segment_nz i_segment_nz_nc : impl.
Lemma i_slash_segment : impl (slash_segment sg fuel) (g_slash_seg false).
Proof. unfold slash_segment, g_slash_seg. impl_tac. Qed.
Hint Resolve i_slash_segment : impl.
Lemma i_abempty : impl (path_abempty sg fuel) g_abempty.
Proof.
  unfold path_abempty, g_abempty. impl_tac.
Qed.
Lemma i_absolute : impl (path_absolute sg fuel) g_absolute.
Proof. unfold path_absolute, g_absolute, g_slash_segs. impl_tac. Qed.
Lemma i_noscheme : impl (path_noscheme sg fuel) g_noscheme.
Proof. unfold path_noscheme, g_noscheme, g_slash_segs. impl_tac. Qed.
Lemma i_rootless : impl (path_rootless sg fuel) g_rootless.
Proof. unfold path_rootless, g_rootless, g_slash_segs. impl_tac. Qed.
Lemma i_empty : impl (path_empty sg fuel) g_empty.
Proof. unfold path_empty, g_empty. impl_tac. Qed.
Hint Resolve i_abempty i_absolute i_noscheme i_rootless i_empty : impl.
Lemma i_auth_abempty : impl (auth_abempty sg fuel) g_auth_abempty.
Proof. unfold auth_abempty, g_auth_abempty. impl_tac. Qed.
Lemma i_query : impl (query sg fuel) g_query.
Proof. unfold query, g_query, g_qchar. impl_tac. Qed.
Lemma i_fragment : impl (fragment sg fuel) g_query.
Proof. exact i_query. Qed.
Hint Resolve i_auth_abempty i_query i_fragment : impl.
Lemma i_question_query : impl (question_query sg fuel) g_question_query.
Proof. unfold question_query, g_question_query. impl_tac. Qed.
Lemma i_hash_fragment : impl (hash_fragment sg fuel) g_hash_fragment.
Proof. unfold hash_fragment, g_hash_fragment. impl_tac. Qed.
Lemma i_relative_part : impl (relative_part sg fuel) g_relative_part.
Proof. unfold relative_part, g_relative_part. impl_tac. Qed.
Lemma i_hier_part : impl (hier_part sg fuel) g_hier_part.
Proof. unfold hier_part, g_hier_part. impl_tac. Qed.
Hint Resolve i_question_query i_hash_fragment i_relative_part i_hier_part : impl.
Lemma i_relative_ref : impl (relative_ref sg fuel) g_relative_ref.
Proof. unfold relative_ref, g_relative_ref, g_hash_fragment. impl_tac. Qed.
Lemma i_URI : impl (URI sg fuel) g_URI.
Proof. unfold URI, g_URI. impl_tac. Qed.
Hint Resolve i_relative_ref i_URI : impl.
Lemma i_URI_reference : impl (URI_reference sg fuel) g_URI_reference.
Proof. unfold URI_reference, g_URI_reference. impl_tac. Qed.
End Impl.
