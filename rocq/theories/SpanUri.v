(* The grammar with places and the grammar without agree, function by function. *)
From Verif Require Import Base ModelRule ModelUri SpanSim.
From Verif Require ModelSpan.
Local Open Scope list_scope.

Section Grammar.
Variable buf : str.
Variable sg : bool.
Variable fuel : nat.
Local Notation sim := (sim buf).
Local Notation text := (ModelSpan.text buf).

Create HintDb sim discriminated.
Hint Constants Opaque : sim.
Lemma m_commercial_at : sim (commercial_at sg) (ModelSpan.commercial_at buf sg). Proof. apply sim_single. Qed.
Hint Resolve m_commercial_at : sim.
Lemma m_colon : sim (colon sg) (ModelSpan.colon buf sg). Proof. apply sim_single. Qed.
Hint Resolve m_colon : sim.
Lemma m_hash : sim (hash sg) (ModelSpan.hash buf sg). Proof. apply sim_single. Qed.
Hint Resolve m_hash : sim.
Lemma m_plus : sim (plus sg) (ModelSpan.plus buf sg). Proof. apply sim_single. Qed.
Hint Resolve m_plus : sim.
Lemma m_minus : sim (minus sg) (ModelSpan.minus buf sg). Proof. apply sim_single. Qed.
Hint Resolve m_minus : sim.
Lemma m_solidus : sim (solidus sg) (ModelSpan.solidus buf sg). Proof. apply sim_single. Qed.
Hint Resolve m_solidus : sim.
Lemma m_question_mark : sim (question_mark sg) (ModelSpan.question_mark buf sg). Proof. apply sim_single. Qed.
Hint Resolve m_question_mark : sim.
Lemma m_full_stop : sim (full_stop sg) (ModelSpan.full_stop buf sg). Proof. apply sim_single. Qed.
Hint Resolve m_full_stop : sim.
Lemma m_left_square_bracket : sim (left_square_bracket sg) (ModelSpan.left_square_bracket buf sg). Proof. apply sim_single. Qed.
Hint Resolve m_left_square_bracket : sim.
Lemma m_right_square_bracket : sim (right_square_bracket sg) (ModelSpan.right_square_bracket buf sg). Proof. apply sim_single. Qed.
Hint Resolve m_right_square_bracket : sim.
Lemma m_percent_sign : sim (percent_sign sg) (ModelSpan.percent_sign buf sg). Proof. apply sim_single. Qed.
Hint Resolve m_percent_sign : sim.
Lemma m_digit_one : sim (digit_one sg) (ModelSpan.digit_one buf sg). Proof. apply sim_single. Qed.
Hint Resolve m_digit_one : sim.
Lemma m_digit_two : sim (digit_two sg) (ModelSpan.digit_two buf sg). Proof. apply sim_single. Qed.
Hint Resolve m_digit_two : sim.
Lemma m_digit_five : sim (digit_five sg) (ModelSpan.digit_five buf sg). Proof. apply sim_single. Qed.
Hint Resolve m_digit_five : sim.
Lemma m_latin_small_letter_v : sim (latin_small_letter_v sg) (ModelSpan.latin_small_letter_v buf sg). Proof. apply sim_single. Qed.
Hint Resolve m_latin_small_letter_v : sim.
Lemma m_range a b : sim (code_point_range sg a b) (ModelSpan.code_point_range buf sg a b). Proof. apply sim_range. Qed.
Lemma m_alpha : sim (alpha sg) (ModelSpan.alpha buf (A:=action) sg). Proof. apply sim_chr. Qed.
Lemma m_digit : sim (digit sg) (ModelSpan.digit buf (A:=action) sg). Proof. apply sim_chr. Qed.
Lemma m_hexdig : sim (hexdig sg) (ModelSpan.hexdig buf (A:=action) sg). Proof. apply sim_chr. Qed.
Lemma m_unreserved : sim (unreserved sg) (ModelSpan.unreserved buf sg). Proof. apply sim_chr. Qed.
Lemma m_sub_delims : sim sub_delims (ModelSpan.sub_delims buf). Proof. apply sim_chr. Qed.
Lemma m_not_colon : sim not_colon (ModelSpan.not_colon buf).
Proof.
  intros [o [|l]] Hv; unfold not_colon, ModelSpan.not_colon; cbn [tail ModelSpan.tail rule_of ModelSpan.rule_of].
  - apply agree_ret. split; [reflexivity|]. cbn. repeat split; try lia. constructor.
  - destruct (nth_valid buf o l Hv) as [c Hc]. rewrite (text_cons buf o l c Hc), Hc.
    destruct (Ascii.eqb c ":"); apply agree_ret; (split; [reflexivity|]); cbn; auto. repeat split; try lia. constructor.
Qed.
Hint Resolve m_range m_alpha m_digit m_hexdig m_unreserved m_sub_delims m_not_colon : sim.

Ltac simc_step Hv :=
  lazymatch goal with
  | |- simc _ _ (Ok _) _ => apply simc_start
  | |- simc _ _ (bind _ (concat _)) _ => apply simc_concat; [exact Hv| |]
  | |- simc _ _ (bind _ (concat_a _ _)) _ => apply simc_concat_a; [exact Hv| |]
  | |- simc _ _ (bind _ (optional _)) _ => apply simc_optional; [exact Hv| |]
  | |- simc _ _ (bind _ (alternative _)) _ => apply simc_alternative; [exact Hv| |repeat (apply Forall2_cons || apply Forall2_nil)]
  | |- simc _ _ (bind _ (star _ _ _ _)) _ => apply simc_star; [exact Hv| |]
  end.
Ltac sim_tac :=
  lazymatch goal with
  | |- SpanSim.sim _ (fun r => _) _ =>
      apply sim_chain; let v := fresh "v" in let Hv := fresh "Hv" in intros v Hv; repeat simc_step Hv; sim_tac
  | _ => solve [auto with sim nocore]
  end.
Lemma m_pct_encoded : sim (pct_encoded sg) (ModelSpan.pct_encoded buf sg).
Proof. unfold pct_encoded, ModelSpan.pct_encoded. sim_tac. Qed.
Hint Resolve m_pct_encoded : sim.
Lemma m_pchar : sim (pchar sg) (ModelSpan.pchar buf sg).
Proof. unfold pchar, ModelSpan.pchar. sim_tac. Qed.
Hint Resolve m_pchar : sim.
Lemma m_userinfo_r : sim (userinfo_r sg fuel) (ModelSpan.userinfo_r buf sg fuel).
Proof. unfold userinfo_r, ModelSpan.userinfo_r. sim_tac. Qed.
Hint Resolve m_userinfo_r : sim.
Lemma m_scheme : sim (scheme sg fuel) (ModelSpan.scheme buf sg fuel).
Proof. unfold scheme, ModelSpan.scheme. sim_tac. Qed.
Hint Resolve m_scheme : sim.
Lemma m_reg_name : sim (reg_name sg fuel) (ModelSpan.reg_name buf sg fuel).
Proof. unfold reg_name, ModelSpan.reg_name. sim_tac. Qed.
Hint Resolve m_reg_name : sim.
Lemma m_dec_octet : sim (dec_octet sg) (ModelSpan.dec_octet buf sg).
Proof. unfold dec_octet, ModelSpan.dec_octet. sim_tac. Qed.
Hint Resolve m_dec_octet : sim.
Lemma m_ipv4address : sim (ipv4address sg) (ModelSpan.ipv4address buf sg).
Proof. unfold ipv4address, ModelSpan.ipv4address. sim_tac. Qed.
Hint Resolve m_ipv4address : sim.
Lemma m_h16 : sim (h16 sg fuel) (ModelSpan.h16 buf sg fuel).
Proof. unfold h16, ModelSpan.h16. sim_tac. Qed.
Hint Resolve m_h16 : sim.
Lemma m_single_colon : sim (single_colon sg) (ModelSpan.single_colon buf sg).
Proof. unfold single_colon, ModelSpan.single_colon. sim_tac. Qed.
Hint Resolve m_single_colon : sim.
Lemma m_h16_colon : sim (h16_colon sg fuel) (ModelSpan.h16_colon buf sg fuel).
Proof. unfold h16_colon, ModelSpan.h16_colon. sim_tac. Qed.
Hint Resolve m_h16_colon : sim.
Lemma m_colon_colon : sim (colon_colon sg) (ModelSpan.colon_colon buf sg).
Proof. unfold colon_colon, ModelSpan.colon_colon. sim_tac. Qed.
Hint Resolve m_colon_colon : sim.
Lemma m_ls32 : sim (ls32 sg fuel) (ModelSpan.ls32 buf sg fuel).
Proof. unfold ls32, ModelSpan.ls32. sim_tac. Qed.
Hint Resolve m_ls32 : sim.
Lemma m_upto k : sim (upto_h16 sg fuel k) (ModelSpan.upto_h16 buf sg fuel k).
Proof. unfold upto_h16, ModelSpan.upto_h16. sim_tac. Qed.
Hint Resolve m_upto : sim.
Lemma m_ipv6address : sim (ipv6address sg fuel) (ModelSpan.ipv6address buf sg fuel).
Proof. unfold ipv6address, ModelSpan.ipv6address. sim_tac. Qed.
Hint Resolve m_ipv6address : sim.
Lemma m_ipvfuture : sim (ipvfuture sg fuel) (ModelSpan.ipvfuture buf sg fuel).
Proof. unfold ipvfuture, ModelSpan.ipvfuture. sim_tac. Qed.
Hint Resolve m_ipvfuture : sim.
Lemma m_ip_literal : sim (ip_literal sg fuel) (ModelSpan.ip_literal buf sg fuel).
Proof. unfold ip_literal, ModelSpan.ip_literal. sim_tac. Qed.
Hint Resolve m_ip_literal : sim.
Lemma m_host_r : sim (host_r sg fuel) (ModelSpan.host_r buf sg fuel).
Proof. unfold host_r, ModelSpan.host_r. sim_tac. Qed.
Hint Resolve m_host_r : sim.
Lemma m_host_rule : sim (host_rule sg fuel) (ModelSpan.host_rule buf sg fuel).
Proof. unfold host_rule, ModelSpan.host_rule. sim_tac. Qed.
Hint Resolve m_host_rule : sim.
Lemma m_userinfo_at : sim (userinfo_at sg fuel) (ModelSpan.userinfo_at buf sg fuel).
Proof. unfold userinfo_at, ModelSpan.userinfo_at. sim_tac. Qed.
Hint Resolve m_userinfo_at : sim.
Lemma m_port_r : sim (port_r sg fuel) (ModelSpan.port_r buf sg fuel).
Proof. unfold port_r, ModelSpan.port_r. sim_tac. Qed.
Hint Resolve m_port_r : sim.
Lemma m_colon_port : sim (colon_port sg fuel) (ModelSpan.colon_port buf sg fuel).
Proof. unfold colon_port, ModelSpan.colon_port. sim_tac. Qed.
Hint Resolve m_colon_port : sim.
Lemma m_authority_r : sim (authority_r sg fuel) (ModelSpan.authority_r buf sg fuel).
Proof. unfold authority_r, ModelSpan.authority_r. sim_tac. Qed.
Hint Resolve m_authority_r : sim.
Lemma m_segment : sim (segment sg fuel) (ModelSpan.segment buf sg fuel).
Proof. unfold segment, ModelSpan.segment. sim_tac. Qed.
Hint Resolve m_segment : sim.
Lemma m_segment_nz : sim (segment_nz sg fuel) (ModelSpan.segment_nz buf sg fuel).
Proof. unfold segment_nz, ModelSpan.segment_nz. sim_tac. Qed.
Hint Resolve m_segment_nz : sim.
Lemma m_segment_nz_nc : sim (segment_nz_nc sg fuel) (ModelSpan.segment_nz_nc buf sg fuel).
Proof. unfold segment_nz_nc, ModelSpan.segment_nz_nc. sim_tac. Qed.
Hint Resolve m_segment_nz_nc : sim.
Lemma m_slash_segment : sim (slash_segment sg fuel) (ModelSpan.slash_segment buf sg fuel).
Proof. unfold slash_segment, ModelSpan.slash_segment. sim_tac. Qed.
Hint Resolve m_slash_segment : sim.
Lemma m_path_abempty : sim (path_abempty sg fuel) (ModelSpan.path_abempty buf sg fuel).
Proof. unfold path_abempty, ModelSpan.path_abempty. sim_tac. Qed.
Hint Resolve m_path_abempty : sim.
Lemma m_path_absolute : sim (path_absolute sg fuel) (ModelSpan.path_absolute buf sg fuel).
Proof. unfold path_absolute, ModelSpan.path_absolute. sim_tac. Qed.
Hint Resolve m_path_absolute : sim.
Lemma m_path_noscheme : sim (path_noscheme sg fuel) (ModelSpan.path_noscheme buf sg fuel).
Proof. unfold path_noscheme, ModelSpan.path_noscheme. sim_tac. Qed.
Hint Resolve m_path_noscheme : sim.
Lemma m_path_empty : sim (path_empty sg fuel) (ModelSpan.path_empty buf sg fuel).
Proof. unfold path_empty, ModelSpan.path_empty. sim_tac. Qed.
Hint Resolve m_path_empty : sim.
Lemma m_path_rootless : sim (path_rootless sg fuel) (ModelSpan.path_rootless buf sg fuel).
Proof. unfold path_rootless, ModelSpan.path_rootless. sim_tac. Qed.
Hint Resolve m_path_rootless : sim.
Lemma m_auth_abempty : sim (auth_abempty sg fuel) (ModelSpan.auth_abempty buf sg fuel).
Proof. unfold auth_abempty, ModelSpan.auth_abempty. sim_tac. Qed.
Hint Resolve m_auth_abempty : sim.
Lemma m_relative_part : sim (relative_part sg fuel) (ModelSpan.relative_part buf sg fuel).
Proof. unfold relative_part, ModelSpan.relative_part. sim_tac. Qed.
Hint Resolve m_relative_part : sim.
Lemma m_query : sim (query sg fuel) (ModelSpan.query buf sg fuel).
Proof. unfold query, ModelSpan.query. sim_tac. Qed.
Hint Resolve m_query : sim.
Lemma m_fragment : sim (fragment sg fuel) (ModelSpan.fragment buf sg fuel).
Proof. exact m_query. Qed.
Hint Resolve m_fragment : sim.
Lemma m_question_query : sim (question_query sg fuel) (ModelSpan.question_query buf sg fuel).
Proof. unfold question_query, ModelSpan.question_query. sim_tac. Qed.
Hint Resolve m_question_query : sim.
Lemma m_hash_fragment : sim (hash_fragment sg fuel) (ModelSpan.hash_fragment buf sg fuel).
Proof. unfold hash_fragment, ModelSpan.hash_fragment. sim_tac. Qed.
Hint Resolve m_hash_fragment : sim.
Lemma m_relative_ref : sim (relative_ref sg fuel) (ModelSpan.relative_ref buf sg fuel).
Proof. unfold relative_ref, ModelSpan.relative_ref. sim_tac. Qed.
Hint Resolve m_relative_ref : sim.
Lemma m_hier_part : sim (hier_part sg fuel) (ModelSpan.hier_part buf sg fuel).
Proof. unfold hier_part, ModelSpan.hier_part. sim_tac. Qed.
Hint Resolve m_hier_part : sim.
Lemma m_URI : sim (URI sg fuel) (ModelSpan.URI buf sg fuel).
Proof. unfold URI, ModelSpan.URI. sim_tac. Qed.
Hint Resolve m_URI : sim.
Lemma m_URI_reference : sim (URI_reference sg fuel) (ModelSpan.URI_reference buf sg fuel).
Proof. unfold URI_reference, ModelSpan.URI_reference. sim_tac. Qed.
Hint Resolve m_URI_reference : sim.

(* --- the results ---------------------------------------------------------------------------------------- *)
Definition ptext (p : ModelSpan.place) : str := match p with None => [] | Some v => text v end.
Definition atext (a : ModelSpan.pauth) : authority :=
  mkauth (option_map ptext (ModelSpan.pl_userinfo a)) (ptext (ModelSpan.pl_host a)) (option_map ptext (ModelSpan.pl_port a)).
Definition texts (p : ModelSpan.pparts) : parts :=
  mkparts (option_map ptext (ModelSpan.pl_scheme p)) (option_map atext (ModelSpan.pl_authority p))
    (mkpath (ModelSpan.pl_absolute p) (map ptext (ModelSpan.pl_segments p)))
    (option_map ptext (ModelSpan.pl_query p)) (option_map ptext (ModelSpan.pl_fragment p)).

Lemma ensure_texts p : ensure_authority (texts p) = atext (ModelSpan.ensure_auth p).
Proof. unfold ensure_authority, ModelSpan.ensure_auth. cbn. destruct (ModelSpan.pl_authority p); reflexivity. Qed.
Lemma run_texts a s p :
  run_action a (text s) (texts p) = match ModelSpan.run_place a s p with
                                    | Ok q => Ok (texts q) | Fault e => Fault e | Diverge => Diverge end.
Proof.
  destruct a; cbn [run_action ModelSpan.run_place]; rewrite ?ensure_texts; try reflexivity.
  - unfold set_path, texts; cbn. rewrite map_app. reflexivity.
  - unfold texts; cbn. destruct (ModelSpan.pl_segments p) as [|x l]; [reflexivity|]. cbn [map set_back bind].
    assert (E : removelast (ptext x :: map ptext l) ++ [text s] = map ptext (removelast (x :: l) ++ [Some s])).
    { rewrite map_app. f_equal. change (ptext x :: map ptext l) with (map ptext (x :: l)). generalize (x :: l) as m.
      clear. induction m as [|a [|b m] IH]; [reflexivity..|]. cbn [removelast map] in *. f_equal. apply IH. }
    unfold set_path; cbn [p_path segments absolute p_scheme p_authority p_query p_fragment]. rewrite E. reflexivity.
  - unfold set_path, texts; cbn. rewrite map_app. reflexivity.
Qed.
Lemma run_accs_texts (l : ModelSpan.acceptors action) : forall p,
  agree (fun q u => u = texts q) (run_accs run_action (tacc buf l) (texts p)) (ModelSpan.run_accs ModelSpan.run_place l p).
Proof.
  induction l as [|[g s] l IH]; intros p; cbn [tacc map run_accs ModelSpan.run_accs fst snd].
  - apply agree_ret. reflexivity.
  - apply agree_steps. rewrite run_texts. destruct (ModelSpan.run_place g s p) as [q|e|]; cbn; try reflexivity. apply IH.
Qed.
Lemma whole : text (0, length buf) = buf.
Proof. unfold ModelSpan.text; cbn. apply firstn_all. Qed.
Lemma valid_whole : valid buf (0, length buf).
Proof. unfold valid; cbn. lia. Qed.
Lemma done_texts r p : goodr (0, length buf) r ->
  agree (fun q u => u = (fst q, texts (snd q))) (done run_action (trule buf r) (texts p)) (ModelSpan.done ModelSpan.run_place r p).
Proof.
  intros G. unfold done, ModelSpan.done, goodr in *. cbn [trule tail accs].
  destruct (ModelSpan.tail r) as [[o [|l]]|]; cbn [option_map].
  - change (text (o, 0)) with (@nil ascii). eapply agree_bind; [apply run_accs_texts|]. intros q u ->. now apply agree_ret.
  - destruct G as (G1 & G2 & _). cbn in G1, G2. destruct (nth_valid buf o l) as [c Hc]; [unfold valid; cbn; lia|].
    rewrite (text_cons buf o l c Hc). now apply agree_ret.
  - now apply agree_ret.
Qed.
Lemma parse_done_texts f fv : sim f fv ->
  agree (fun q u => u = option_map texts q) (parse_done f buf) (ModelSpan.parse_done buf fv).
Proof.
  intros H. unfold parse_done, ModelSpan.parse_done.
  pose proof (simc_concat buf (0, length buf) _ _ f fv valid_whole (simc_start buf (0, length buf)) H) as C.
  rewrite whole in C. cbn [bind] in C.
  eapply (agree_bind (fun r u => u = trule buf r /\ goodr (0, length buf) r)).
  { unfold simc in C. unfold ModelSpan.ret in C. cbn [ModelSpan.mbind] in C.
    destruct (ModelSpan.concat fv (ModelSpan.rule_of (0, length buf))) as [[r n]|e|]; exact C. }
  intros r u [-> G]. eapply agree_bind; [exact (done_texts r ModelSpan.no_parts G)|].
  intros [[] q] u ->; apply agree_ret; reflexivity.
Qed.
Lemma split_texts : agree (fun q u => u = option_map texts q) (split sg fuel buf) (ModelSpan.split_places buf sg fuel).
Proof. apply parse_done_texts, m_URI. Qed.
Lemma split_reference_texts :
  agree (fun q u => u = option_map texts q) (split_reference sg fuel buf) (ModelSpan.split_reference_places buf sg fuel).
Proof. apply parse_done_texts, m_URI_reference. Qed.
End Grammar.
