(* The cost of every match function of the URI grammar, and of split and split_reference. *)
From Verif Require Import Base ModelRule ModelUri SpanCost.
From Verif Require ModelSpan.
Local Open Scope list_scope.

Definition c_not_colon : cp := free.
Definition c_single_colon : cp := whole (seq (seq free one) c_not_colon).
Definition c_pct_encoded : cp := whole (seq (seq (seq free one) one) one).
Definition c_pchar : cp := whole (either free [one; c_pct_encoded; one; one; one]).
Definition c_userinfo_r : cp := whole (many false false free (whole (either free [one; c_pct_encoded; one; one]))).
Definition c_scheme : cp := whole (many false false (seq free one) (whole (either free [one; one; one; one; one]))).
Definition c_reg_name : cp := whole (many false false free (whole (either free [one; c_pct_encoded; one]))).
Definition c_dec_octet : cp := whole (either free [(whole (seq (seq (seq free one) one) one)); (whole (seq (seq (seq free one) one) one)); (whole (seq (seq (seq free one) one) one)); (whole (seq (seq free one) one)); one]).
Definition c_ipv4address : cp := whole (seq (seq (seq (seq (seq (seq (seq free c_dec_octet) one) c_dec_octet) one) c_dec_octet) one) c_dec_octet).
Definition c_h16 : cp := whole (many true true free one).
Definition c_h16_colon : cp := whole (seq (seq free c_h16) c_single_colon).
Definition c_colon_colon : cp := whole (seq (seq free one) one).
Definition c_ls32 : cp := whole (either free [(whole (seq (seq (seq free c_h16) one) c_h16)); c_ipv4address]).
Definition c_upto_h16 : cp := whole (seq (many true false free c_h16_colon) c_h16).
Definition c_ipv6address : cp := whole (either free [(whole (seq (many true true free c_h16_colon) c_ls32)); (whole (seq (many true true (seq free c_colon_colon) c_h16_colon) c_ls32)); (whole (seq (many true true (seq (maybe free c_h16) c_colon_colon) c_h16_colon) c_ls32)); (whole (seq (many true true (seq (maybe free c_upto_h16) c_colon_colon) c_h16_colon) c_ls32)); (whole (seq (many true true (seq (maybe free c_upto_h16) c_colon_colon) c_h16_colon) c_ls32)); (whole (seq (seq (seq (maybe free c_upto_h16) c_colon_colon) c_h16_colon) c_ls32)); (whole (seq (seq (maybe free c_upto_h16) c_colon_colon) c_ls32)); (whole (seq (seq (maybe free c_upto_h16) c_colon_colon) c_h16)); (whole (seq (maybe free c_upto_h16) c_colon_colon))]).
Definition c_ipvfuture : cp := whole (many false true (seq (many false true (seq free one) one) one) (whole (either free [one; one; one]))).
Definition c_ip_literal : cp := whole (seq (seq (seq free one) (whole (either free [c_ipv6address; c_ipvfuture]))) one).
Definition c_host_r : cp := whole (either free [c_ip_literal; c_ipv4address; c_reg_name]).
Definition c_host_rule : cp := whole (seqa free c_host_r).
Definition c_userinfo_at : cp := whole (seq (seqa free c_userinfo_r) one).
Definition c_port_r : cp := whole (many false false free one).
Definition c_colon_port : cp := whole (seqa (seq free one) c_port_r).
Definition c_authority_r : cp := whole (maybe (seq (maybe free c_userinfo_at) c_host_rule) c_colon_port).
Definition c_segment : cp := whole (many false false free c_pchar).
Definition c_segment_nz : cp := whole (many false true free c_pchar).
Definition c_segment_nz_nc : cp := whole (many false true free (whole (either free [one; c_pct_encoded; one; one]))).
Definition c_path_abempty : cp := whole (many false false free (whole (seqa (seqa free one) c_segment))).
Definition c_slash_segment : cp := whole (seqa (seqa free one) c_segment).
Definition c_path_absolute : cp := whole (maybe (seqa free one) (whole (many false false (seqa free c_segment_nz) c_slash_segment))).
Definition c_path_noscheme : cp := whole (many false false (seqa free c_segment_nz_nc) c_slash_segment).
Definition c_path_empty : cp := whole (many true false free c_pchar).
Definition c_path_rootless : cp := whole (many false false (seqa free c_segment_nz) c_slash_segment).
Definition c_auth_abempty : cp := whole (seq (seq (seq (seq free one) one) c_authority_r) c_path_abempty).
Definition c_relative_part : cp := whole (either free [c_auth_abempty; c_path_absolute; c_path_noscheme; c_path_empty]).
Definition c_query : cp := whole (many false false free (whole (either free [c_pchar; one; one]))).
Definition c_fragment : cp := c_query.
Definition c_question_query : cp := whole (seqa (seq free one) c_query).
Definition c_hash_fragment : cp := whole (seqa (seq free one) c_fragment).
Definition c_relative_ref : cp := whole (maybe (maybe (seq free c_relative_part) c_question_query) (whole (seqa (seq free one) c_fragment))).
Definition c_hier_part : cp := whole (either free [c_auth_abempty; c_path_absolute; c_path_rootless; c_path_empty]).
Definition c_URI : cp := whole (maybe (maybe (seq (seq (seqa free c_scheme) one) c_hier_part) c_question_query) c_hash_fragment).
Definition c_URI_reference : cp := whole (either free [c_URI; c_relative_ref]).

Section Grammar.
Variable buf : str.
Variable sg : bool.
Variable fuel : nat.
Create HintDb cost discriminated.
Hint Constants Opaque : cost.
Lemma k_alpha : fcost one (ModelSpan.alpha buf (A:=action) sg). Proof. apply fcost_chr. Qed.
Lemma k_digit : fcost one (ModelSpan.digit buf (A:=action) sg). Proof. apply fcost_chr. Qed.
Lemma k_hexdig : fcost one (ModelSpan.hexdig buf (A:=action) sg). Proof. apply fcost_chr. Qed.
Lemma k_unreserved : fcost one (ModelSpan.unreserved buf sg). Proof. apply fcost_chr. Qed.
Lemma k_sub_delims : fcost one (ModelSpan.sub_delims buf). Proof. apply fcost_chr. Qed.
Lemma k_range a b : fcost one (ModelSpan.code_point_range buf sg a b). Proof. apply fcost_range. Qed.
Hint Resolve k_alpha k_digit k_hexdig k_unreserved k_sub_delims k_range : cost.

Ltac cost_step :=
  lazymatch goal with
  | |- rcost free _ (ModelSpan.ret _) => apply rcost_start
  | |- rcost (seq _ _) _ (ModelSpan.mbind _ (ModelSpan.concat _)) => apply rcost_concat
  | |- rcost (seqa _ _) _ (ModelSpan.mbind _ (ModelSpan.concat_a _ _)) => apply rcost_concat_a
  | |- rcost (maybe _ _) _ _ => apply rcost_optional
  | |- rcost (either _ _) _ _ => apply rcost_alternative
  | |- rcost (many ?m false _ _) _ (ModelSpan.mbind _ (ModelSpan.star ?f ?g ?a ?b)) => apply (rcost_star m _ _ _ _ f g a b)
  | |- rcost (many ?m true _ _) _ (ModelSpan.mbind _ (ModelSpan.star ?f ?g ?a ?b)) => apply (rcost_star m _ _ _ _ f g a b)
  | |- Forall2 _ [] [] => constructor
  | |- Forall2 _ (_ :: _) (_ :: _) => apply Forall2_cons
  | |- fcost (whole _) (fun r => _) => apply (fcost_chain _ (fun r => _)); intros ?; cbv beta
  | |- fcost _ _ => solve [auto with cost nocore]
  | |- cE _ = 0 => vm_compute; reflexivity
  | |- 1 <= cG _ => apply Nat.leb_le; vm_compute; reflexivity
  | |- false = false -> _ => intros _; reflexivity
  | |- true = false -> _ => discriminate
  end.
Ltac cost_tac := repeat cost_step.
Lemma k_commercial_at : fcost one (ModelSpan.commercial_at buf sg). Proof. apply fcost_single. Qed.
Hint Resolve k_commercial_at : cost.
Lemma k_colon : fcost one (ModelSpan.colon buf sg). Proof. apply fcost_single. Qed.
Hint Resolve k_colon : cost.
Lemma k_hash : fcost one (ModelSpan.hash buf sg). Proof. apply fcost_single. Qed.
Hint Resolve k_hash : cost.
Lemma k_plus : fcost one (ModelSpan.plus buf sg). Proof. apply fcost_single. Qed.
Hint Resolve k_plus : cost.
Lemma k_minus : fcost one (ModelSpan.minus buf sg). Proof. apply fcost_single. Qed.
Hint Resolve k_minus : cost.
Lemma k_solidus : fcost one (ModelSpan.solidus buf sg). Proof. apply fcost_single. Qed.
Hint Resolve k_solidus : cost.
Lemma k_question_mark : fcost one (ModelSpan.question_mark buf sg). Proof. apply fcost_single. Qed.
Hint Resolve k_question_mark : cost.
Lemma k_full_stop : fcost one (ModelSpan.full_stop buf sg). Proof. apply fcost_single. Qed.
Hint Resolve k_full_stop : cost.
Lemma k_left_square_bracket : fcost one (ModelSpan.left_square_bracket buf sg). Proof. apply fcost_single. Qed.
Hint Resolve k_left_square_bracket : cost.
Lemma k_right_square_bracket : fcost one (ModelSpan.right_square_bracket buf sg). Proof. apply fcost_single. Qed.
Hint Resolve k_right_square_bracket : cost.
Lemma k_percent_sign : fcost one (ModelSpan.percent_sign buf sg). Proof. apply fcost_single. Qed.
Hint Resolve k_percent_sign : cost.
Lemma k_digit_one : fcost one (ModelSpan.digit_one buf sg). Proof. apply fcost_single. Qed.
Hint Resolve k_digit_one : cost.
Lemma k_digit_two : fcost one (ModelSpan.digit_two buf sg). Proof. apply fcost_single. Qed.
Hint Resolve k_digit_two : cost.
Lemma k_digit_five : fcost one (ModelSpan.digit_five buf sg). Proof. apply fcost_single. Qed.
Hint Resolve k_digit_five : cost.
Lemma k_latin_small_letter_v : fcost one (ModelSpan.latin_small_letter_v buf sg). Proof. apply fcost_single. Qed.
Hint Resolve k_latin_small_letter_v : cost.
Lemma k_not_colon : fcost c_not_colon (ModelSpan.not_colon buf).
Proof.
  intros [o [|l]] m n H; unfold ModelSpan.not_colon in H; cbn [ModelSpan.tail ModelSpan.rule_of] in H.
  - injection H as <- <-. cbn. lia.
  - destruct (nth_error buf o) as [c|]; [|discriminate]. destruct (Ascii.eqb c ":"); injection H as <- <-; cbn; lia.
Qed.
Hint Resolve k_not_colon : cost.
Lemma k_single_colon : fcost c_single_colon (ModelSpan.single_colon buf sg).
Proof. unfold c_single_colon, ModelSpan.single_colon. cost_tac. Qed.
Hint Resolve k_single_colon : cost.
Lemma k_pct_encoded : fcost c_pct_encoded (ModelSpan.pct_encoded buf sg).
Proof. unfold c_pct_encoded, ModelSpan.pct_encoded. cost_tac. Qed.
Hint Resolve k_pct_encoded : cost.
Lemma k_pchar : fcost c_pchar (ModelSpan.pchar buf sg).
Proof. unfold c_pchar, ModelSpan.pchar. cost_tac. Qed.
Hint Resolve k_pchar : cost.
Lemma k_userinfo_r : fcost c_userinfo_r (ModelSpan.userinfo_r buf sg fuel).
Proof. unfold c_userinfo_r, ModelSpan.userinfo_r. cost_tac. Qed.
Hint Resolve k_userinfo_r : cost.
Lemma k_scheme : fcost c_scheme (ModelSpan.scheme buf sg fuel).
Proof. unfold c_scheme, ModelSpan.scheme. cost_tac. Qed.
Hint Resolve k_scheme : cost.
Lemma k_reg_name : fcost c_reg_name (ModelSpan.reg_name buf sg fuel).
Proof. unfold c_reg_name, ModelSpan.reg_name. cost_tac. Qed.
Hint Resolve k_reg_name : cost.
Lemma k_dec_octet : fcost c_dec_octet (ModelSpan.dec_octet buf sg).
Proof. unfold c_dec_octet, ModelSpan.dec_octet. cost_tac. Qed.
Hint Resolve k_dec_octet : cost.
Lemma k_ipv4address : fcost c_ipv4address (ModelSpan.ipv4address buf sg).
Proof. unfold c_ipv4address, ModelSpan.ipv4address. cost_tac. Qed.
Hint Resolve k_ipv4address : cost.
Lemma k_h16 : fcost c_h16 (ModelSpan.h16 buf sg fuel).
Proof. unfold c_h16, ModelSpan.h16. cost_tac. Qed.
Hint Resolve k_h16 : cost.
Lemma k_h16_colon : fcost c_h16_colon (ModelSpan.h16_colon buf sg fuel).
Proof. unfold c_h16_colon, ModelSpan.h16_colon. cost_tac. Qed.
Hint Resolve k_h16_colon : cost.
Lemma k_colon_colon : fcost c_colon_colon (ModelSpan.colon_colon buf sg).
Proof. unfold c_colon_colon, ModelSpan.colon_colon. cost_tac. Qed.
Hint Resolve k_colon_colon : cost.
Lemma k_ls32 : fcost c_ls32 (ModelSpan.ls32 buf sg fuel).
Proof. unfold c_ls32, ModelSpan.ls32. cost_tac. Qed.
Hint Resolve k_ls32 : cost.
Lemma k_upto_h16 k : fcost c_upto_h16 (ModelSpan.upto_h16 buf sg fuel k).
Proof. unfold c_upto_h16, ModelSpan.upto_h16. cost_tac. Qed.
Hint Resolve k_upto_h16 : cost.
Lemma k_ipv6address : fcost c_ipv6address (ModelSpan.ipv6address buf sg fuel).
Proof. unfold c_ipv6address, ModelSpan.ipv6address. cost_tac. Qed.
Hint Resolve k_ipv6address : cost.
Lemma k_ipvfuture : fcost c_ipvfuture (ModelSpan.ipvfuture buf sg fuel).
Proof. unfold c_ipvfuture, ModelSpan.ipvfuture. cost_tac. Qed.
Hint Resolve k_ipvfuture : cost.
Lemma k_ip_literal : fcost c_ip_literal (ModelSpan.ip_literal buf sg fuel).
Proof. unfold c_ip_literal, ModelSpan.ip_literal. cost_tac. Qed.
Hint Resolve k_ip_literal : cost.
Lemma k_host_r : fcost c_host_r (ModelSpan.host_r buf sg fuel).
Proof. unfold c_host_r, ModelSpan.host_r. cost_tac. Qed.
Hint Resolve k_host_r : cost.
Lemma k_host_rule : fcost c_host_rule (ModelSpan.host_rule buf sg fuel).
Proof. unfold c_host_rule, ModelSpan.host_rule. cost_tac. Qed.
Hint Resolve k_host_rule : cost.
Lemma k_userinfo_at : fcost c_userinfo_at (ModelSpan.userinfo_at buf sg fuel).
Proof. unfold c_userinfo_at, ModelSpan.userinfo_at. cost_tac. Qed.
Hint Resolve k_userinfo_at : cost.
Lemma k_port_r : fcost c_port_r (ModelSpan.port_r buf sg fuel).
Proof. unfold c_port_r, ModelSpan.port_r. cost_tac. Qed.
Hint Resolve k_port_r : cost.
Lemma k_colon_port : fcost c_colon_port (ModelSpan.colon_port buf sg fuel).
Proof. unfold c_colon_port, ModelSpan.colon_port. cost_tac. Qed.
Hint Resolve k_colon_port : cost.
Lemma k_authority_r : fcost c_authority_r (ModelSpan.authority_r buf sg fuel).
Proof. unfold c_authority_r, ModelSpan.authority_r. cost_tac. Qed.
Hint Resolve k_authority_r : cost.
Lemma k_segment : fcost c_segment (ModelSpan.segment buf sg fuel).
Proof. unfold c_segment, ModelSpan.segment. cost_tac. Qed.
Hint Resolve k_segment : cost.
Lemma k_segment_nz : fcost c_segment_nz (ModelSpan.segment_nz buf sg fuel).
Proof. unfold c_segment_nz, ModelSpan.segment_nz. cost_tac. Qed.
Hint Resolve k_segment_nz : cost.
Lemma k_segment_nz_nc : fcost c_segment_nz_nc (ModelSpan.segment_nz_nc buf sg fuel).
Proof. unfold c_segment_nz_nc, ModelSpan.segment_nz_nc. cost_tac. Qed.
Hint Resolve k_segment_nz_nc : cost.
Lemma k_path_abempty : fcost c_path_abempty (ModelSpan.path_abempty buf sg fuel).
Proof. unfold c_path_abempty, ModelSpan.path_abempty. cost_tac. Qed.
Hint Resolve k_path_abempty : cost.
Lemma k_slash_segment : fcost c_slash_segment (ModelSpan.slash_segment buf sg fuel).
Proof. unfold c_slash_segment, ModelSpan.slash_segment. cost_tac. Qed.
Hint Resolve k_slash_segment : cost.
Lemma k_path_absolute : fcost c_path_absolute (ModelSpan.path_absolute buf sg fuel).
Proof. unfold c_path_absolute, ModelSpan.path_absolute. cost_tac. Qed.
Hint Resolve k_path_absolute : cost.
Lemma k_path_noscheme : fcost c_path_noscheme (ModelSpan.path_noscheme buf sg fuel).
Proof. unfold c_path_noscheme, ModelSpan.path_noscheme. cost_tac. Qed.
Hint Resolve k_path_noscheme : cost.
Lemma k_path_empty : fcost c_path_empty (ModelSpan.path_empty buf sg fuel).
Proof. unfold c_path_empty, ModelSpan.path_empty. cost_tac. Qed.
Hint Resolve k_path_empty : cost.
Lemma k_path_rootless : fcost c_path_rootless (ModelSpan.path_rootless buf sg fuel).
Proof. unfold c_path_rootless, ModelSpan.path_rootless. cost_tac. Qed.
Hint Resolve k_path_rootless : cost.
Lemma k_auth_abempty : fcost c_auth_abempty (ModelSpan.auth_abempty buf sg fuel).
Proof. unfold c_auth_abempty, ModelSpan.auth_abempty. cost_tac. Qed.
Hint Resolve k_auth_abempty : cost.
Lemma k_relative_part : fcost c_relative_part (ModelSpan.relative_part buf sg fuel).
Proof. unfold c_relative_part, ModelSpan.relative_part. cost_tac. Qed.
Hint Resolve k_relative_part : cost.
Lemma k_query : fcost c_query (ModelSpan.query buf sg fuel).
Proof. unfold c_query, ModelSpan.query. cost_tac. Qed.
Hint Resolve k_query : cost.
Lemma k_fragment : fcost c_fragment (ModelSpan.fragment buf sg fuel). Proof. exact k_query. Qed.
Hint Resolve k_fragment : cost.
Lemma k_question_query : fcost c_question_query (ModelSpan.question_query buf sg fuel).
Proof. unfold c_question_query, ModelSpan.question_query. cost_tac. Qed.
Hint Resolve k_question_query : cost.
Lemma k_hash_fragment : fcost c_hash_fragment (ModelSpan.hash_fragment buf sg fuel).
Proof. unfold c_hash_fragment, ModelSpan.hash_fragment. cost_tac. Qed.
Hint Resolve k_hash_fragment : cost.
Lemma k_relative_ref : fcost c_relative_ref (ModelSpan.relative_ref buf sg fuel).
Proof. unfold c_relative_ref, ModelSpan.relative_ref. cost_tac. Qed.
Hint Resolve k_relative_ref : cost.
Lemma k_hier_part : fcost c_hier_part (ModelSpan.hier_part buf sg fuel).
Proof. unfold c_hier_part, ModelSpan.hier_part. cost_tac. Qed.
Hint Resolve k_hier_part : cost.
Lemma k_URI : fcost c_URI (ModelSpan.URI buf sg fuel).
Proof. unfold c_URI, ModelSpan.URI. cost_tac. Qed.
Hint Resolve k_URI : cost.
Lemma k_URI_reference : fcost c_URI_reference (ModelSpan.URI_reference buf sg fuel).
Proof. unfold c_URI_reference, ModelSpan.URI_reference. cost_tac. Qed.
Hint Resolve k_URI_reference : cost.

(* --- the whole parse ------------------------------------------------------------------------------------ *)
Lemma run_accs_steps (l : ModelSpan.acceptors action) : forall p q n,
  ModelSpan.run_accs ModelSpan.run_place l p = Ok (q, n) -> n = length l.
Proof.
  induction l as [|[g s] l IH]; intros p q n H; cbn [ModelSpan.run_accs] in H.
  - now injection H as <- <-.
  - apply mbind_inv in H. destruct H as ([] & n1 & n2 & E & H & ->). injection E as <-.
    destruct (ModelSpan.run_place g s p); try discriminate. apply IH in H. cbn. lia.
Qed.
Definition total (c : cp) : nat := cA c + cC c + cC c + cC c + cB c + cE c + cF c + cD c + cD c + cD c + 1.
Lemma done_steps r p b n : ModelSpan.done (A:=action) ModelSpan.run_place r p = Ok (b, n) -> n <= length (ModelSpan.accs r).
Proof.
  unfold ModelSpan.done. destruct (ModelSpan.tail r) as [[o [|l]]|]; intros H; try (injection H as <- <-; lia).
  apply mbind_inv in H. destruct H as (a & n1 & n2 & H & E & ->). injection E as <- <-. apply run_accs_steps in H. lia.
Qed.
Lemma parse_steps c f r n : fcost c f -> ModelSpan.parse_done buf f = Ok (r, n) -> n <= total c * (length buf + 1).
Proof.
  intros Hf H. unfold ModelSpan.parse_done in H.
  apply mbind_inv in H. destruct H as (r1 & n1 & n2 & H1 & H & ->).
  apply mbind_inv in H. destruct H as (b & n3 & n4 & H3 & H & ->). injection H as <- <-.
  apply done_steps in H3.
  assert (K : length (ModelSpan.accs r1) <= cC c + cD c * length buf /\ n1 <= cA c + (cB c + cE c + cF c + cD c) * length buf + cC c + 1).
  { assert (R : rcost (seq free c) (0, length buf) (ModelSpan.mbind (ModelSpan.ret (ModelSpan.rule_of (0, length buf))) (ModelSpan.concat f))).
    { apply rcost_concat; [apply rcost_start|exact Hf]. }
    unfold ModelSpan.ret in R. cbn [ModelSpan.mbind] in R. rewrite H1 in R. specialize (R _ _ eq_refl).
    destruct (ModelSpan.tail r1) as [t|]; cbn in R.
    - destruct R as (k & _ & Hk & R1 & R2).
      pose proof (mul_mono (cB c + cD c) (cB c + cD c) k (length buf) ltac:(lia) ltac:(lia)).
      pose proof (mul_mono (cD c) (cD c) k (length buf) ltac:(lia) ltac:(lia)).
      replace (Nat.max 0 (cB c + cD c)) with (cB c + cD c) in R1 by lia.
      replace (Nat.max 0 (cD c)) with (cD c) in R2 by lia. lia.
    - destruct R as (-> & R). cbn. lia. }
  unfold total. lia.
Qed.
Lemma matches_steps c f b n : fcost c f -> ModelSpan.matches buf f = Ok (b, n) -> n <= total c * (length buf + 1).
Proof.
  intros Hf H. unfold ModelSpan.matches in H.
  apply mbind_inv in H. destruct H as (r & n1 & n2 & H1 & H & ->).
  apply mbind_inv in H. destruct H as (b' & n3 & n4 & H3 & H & ->). injection H as <- <-.
  apply (parse_steps c f (if fst b' then Some (snd b') else None)); auto.
  unfold ModelSpan.parse_done. rewrite H1. cbn [ModelSpan.mbind]. rewrite H3. reflexivity.
Qed.
Lemma split_steps r n : ModelSpan.split_places buf sg fuel = Ok (r, n) -> n <= total c_URI * (length buf + 1).
Proof. apply parse_steps, k_URI. Qed.
Lemma split_reference_steps r n : ModelSpan.split_reference_places buf sg fuel = Ok (r, n) ->
  n <= total c_URI_reference * (length buf + 1).
Proof. apply parse_steps, k_URI_reference. Qed.
End Grammar.
