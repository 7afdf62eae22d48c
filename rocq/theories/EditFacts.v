(* Editing parts: proofs for C52. *)
From Verif Require Import Base ModelUri ModelHist ModelEdit Rfc3986 SpecHost SpecParts SpecUri SpecEdit UriProps PropSplitFacts HistFacts.
From Verif Require UriLang JoinFacts PathRfc PropPath.
From Verif Require Import SpecPath.
From Coq Require Import Lia.
Local Open Scope list_scope.

Lemma wf_split sg fuel s p : fits fuel s -> split sg fuel s = Ok (Some p) -> well_formed p /\ representable p.
Proof.
  intros F E. pose proof (compose_split sg fuel s p F (or_introl E)) as C. subst s. destruct (split_all_valid sg fuel _ p F E) as [V _]. split.
  - apply (valid_spec sg fuel p); [apply compose_parts_fit; exact F|exact V].
  - apply (valid_roundtrip sg fuel p F V). exists p. split; [exact E|apply eqb_refl].
Qed.
Lemma host_nil : L host [] /\ host_unambiguous [].
Proof.
  split.
  - right. exists []. repeat split; auto.
  - right. intros (p & q & E & H). symmetry in E. apply app_eq_nil in E. destruct E as [-> _]. destruct (UriLang.ipv4_chars [] H) as [_ G]. now apply G.
Qed.
Lemma ensure_wf p : match p_authority p with Some a => well_formed_authority a | None => True end -> well_formed_authority (ensure_authority p).
Proof. unfold ensure_authority. destruct (p_authority p); auto. intros _. split; [exact I|split; [exact host_nil|exact I]]. Qed.
Lemma put_Forall {A} (P : A -> Prop) l i x : Forall P l -> P x -> Forall P (put l i x).
Proof. intros H Hx. revert i. induction H; intros [|i]; cbn; constructor; auto. Qed.
Lemma removelast_Forall {A} (P : A -> Prop) l : Forall P l -> Forall P (removelast l).
Proof. induction 1 as [|x l Hx H IH]; cbn; [constructor|]. destruct l; constructor; auto. Qed.

Lemma edit_wf e p p' : text_ok e -> apply_edit e p = Ok p' -> well_formed_reference p -> well_formed_reference p'.
Proof.
  intros T E (Hs & Ha & Hp & Hq & Hf). pose proof (ensure_wf p Ha) as (Eu & Eh & Ep).
  destruct e; cbn [apply_edit text_ok] in *.
  1-6,8,10-12: injection E as <-; unfold well_formed_reference, set_authority, set_path;
    cbn [p_scheme p_authority p_path p_query p_fragment segments]; (split; [|split; [|split; [|split]]]); auto.
  - exact (conj T (conj Eh Ep)).
  - exact (conj Eu (conj T Ep)).
  - exact (conj Eu (conj Eh T)).
  - apply Forall_app; auto.
  - apply JoinFacts.rds_Forall; auto. exact JoinFacts.segment_nil.
  - destruct (Nat.ltb _ _); [|discriminate]. injection E as <-.
    split; [exact Hs|split; [exact Ha|split; [|split; [exact Hq|exact Hf]]]]. now apply put_Forall.
  - destruct (segments (p_path p)) as [|y l] eqn:Q; [discriminate|]. injection E as <-.
    split; [exact Hs|split; [exact Ha|split; [|split; [exact Hq|exact Hf]]]]. cbn [set_path p_path segments]. exact (removelast_Forall _ _ Hp).
Qed.
Lemma edits_wf es p p' : Forall text_ok es -> apply_edits es p = Ok p' -> well_formed_reference p -> well_formed_reference p'.
Proof.
  intros T. revert p. induction T as [|e es He T IH]; intros p E W; cbn [apply_edits] in E.
  - injection E as <-. exact W.
  - destruct (apply_edit e p) as [p1| |] eqn:E1; try discriminate E. exact (IH p1 E (edit_wf e p p1 He E1 W)).
Qed.
Lemma wf_reference p : well_formed p -> well_formed_reference p.
Proof. intros ((sch & E & H) & R). split; [rewrite E; exact H|exact R]. Qed.
Lemma reference_wf p : well_formed_reference p -> p_scheme p <> None -> well_formed p.
Proof. intros (H & R) N. split; [|exact R]. destruct (p_scheme p) as [x|]; [exists x; auto|congruence]. Qed.

Lemma edits_roundtrip sg fuel s p es p' : fits fuel s -> split sg fuel s = Ok (Some p) -> Forall text_ok es ->
  apply_edits es p = Ok p' -> p_scheme p' <> None -> fits fuel (compose p') ->
  (representable p' <-> exists q, split sg fuel (compose p') = Ok (Some q) /\ parts_eqb q p' = true).
Proof.
  intros F E T A N F'. destruct (wf_split sg fuel s p F E) as [W _]. apply valid_roundtrip; auto.
  apply (valid_spec sg fuel p'); [apply compose_parts_fit; exact F'|].
  apply reference_wf; auto. eapply edits_wf; eauto. now apply wf_reference.
Qed.

(* the edits that cannot go wrong *)
Lemma harmless_step e p p' : harmless e -> apply_edit e p = Ok p' ->
  p_path p' = p_path p /\ (p_authority p <> None -> p_authority p' <> None) /\ (p_scheme p <> None -> p_scheme p' <> None).
Proof.
  intros H E. destruct e; cbn in H; try tauto; try (destruct x; try tauto); injection E as <-; cbn; repeat split; auto; discriminate.
Qed.
Lemma harmless_steps es p p' : Forall harmless es -> apply_edits es p = Ok p' ->
  p_path p' = p_path p /\ (p_authority p <> None -> p_authority p' <> None) /\ (p_scheme p <> None -> p_scheme p' <> None).
Proof.
  intros H. revert p. induction H as [|e es He H IH]; intros p E; cbn [apply_edits] in E.
  - injection E as <-. auto.
  - destruct (apply_edit e p) as [p1| |] eqn:E1; try discriminate E. destruct (harmless_step _ _ _ He E1) as (A & B & C).
    destruct (IH _ E) as (A' & B' & C'). split; [congruence|auto].
Qed.
Lemma keeps_step e p p' : keeps_authority e -> apply_edit e p = Ok p' ->
  (p_authority p <> None -> p_authority p' <> None) /\ (p_scheme p <> None -> p_scheme p' <> None).
Proof.
  intros H E. destruct e; cbn in H, E; try (destruct x; try tauto);
    try (destruct (Nat.ltb _ _)); try (destruct (segments (p_path p))); try discriminate; injection E as <-; cbn; repeat split; auto; discriminate.
Qed.
Lemma keeps_steps es p p' : Forall keeps_authority es -> apply_edits es p = Ok p' ->
  (p_authority p <> None -> p_authority p' <> None) /\ (p_scheme p <> None -> p_scheme p' <> None).
Proof.
  intros H. revert p. induction H as [|e es He H IH]; intros p E; cbn [apply_edits] in E.
  - injection E as <-. auto.
  - destruct (apply_edit e p) as [p1| |] eqn:E1; try discriminate E. destruct (keeps_step _ _ _ He E1) as (B & C).
    destruct (IH _ E) as (B' & C'). auto.
Qed.
Lemma representable_path p p' : p_path p' = p_path p -> (p_authority p <> None -> p_authority p' <> None) -> representable p -> representable p'.
Proof. unfold representable. intros -> H [R|R]; auto. Qed.
Lemma edits_safe sg fuel s p es p' : fits fuel s -> split sg fuel s = Ok (Some p) -> Forall text_ok es ->
  apply_edits es p = Ok p' -> fits fuel (compose p') ->
  Forall harmless es \/ (p_authority p <> None /\ Forall keeps_authority es) ->
  exists q, split sg fuel (compose p') = Ok (Some q) /\ parts_eqb q p' = true.
Proof.
  intros F E T A F' H. destruct (wf_split sg fuel s p F E) as [((sch & Es & _) & _) R].
  assert (Ns : p_scheme p <> None) by congruence.
  destruct H as [H|[Na H]].
  - destruct (harmless_steps _ _ _ H A) as (P & B & C). apply (edits_roundtrip sg fuel s p es p'); auto. eapply representable_path; eauto.
  - destruct (keeps_steps _ _ _ H A) as (B & C). apply (edits_roundtrip sg fuel s p es p'); auto. left. auto.
Qed.

(* what an edit does to the text *)
Lemma loop_acc sep l acc : path_string_loop sep l acc = acc ++ path_string_loop sep l [].
Proof.
  revert sep acc. induction l as [|x l IH]; intros sep acc; cbn [path_string_loop]; [now rewrite app_nil_r|].
  rewrite IH. rewrite (IH _ ([] ++ _)). now rewrite !app_assoc, app_nil_r || rewrite !app_assoc.
Qed.
Lemma loop_put sep l i : (i < length l)%nat -> exists pre post, forall x, path_string_loop sep (put l i x) [] = pre ++ x ++ post.
Proof.
  revert sep i. induction l as [|y l IH]; intros sep i H; [cbn in H; lia|]. destruct i as [|i].
  - exists sep, (path_string_loop (ss "/") l []). intros x. cbn [put path_string_loop]. rewrite loop_acc. cbn [app]. now rewrite app_assoc.
  - cbn [length] in H. destruct (IH (ss "/") i ltac:(lia)) as (pre & post & G). exists ((sep ++ y) ++ pre), post. intros x.
    cbn [put path_string_loop]. rewrite loop_acc, G. cbn [app]. now rewrite !app_assoc.
Qed.
Lemma put_nth l i : put l i (nth i l []) = l :> list str.
Proof. revert i. induction l as [|y l IH]; intros [|i]; cbn; auto. now rewrite IH. Qed.
Lemma nth_put' l i x : (i < length l)%nat -> nth i (put l i x) [] = x :> str.
Proof. revert i. induction l as [|y l IH]; intros [|i] H; cbn in *; auto; try lia. apply IH. lia. Qed.
Lemma put_nil {A} (l : list A) i x : (match put l i x with [] => true | _ => false end) = match l with [] => true | _ => false end.
Proof. destruct l, i; auto. Qed.
Lemma host_match h : match h with [] => [] | c :: h' => c :: h' end = h :> str.
Proof. now destruct h. Qed.

Lemma piece_other e p p' : localised e -> apply_edit e p = Ok p' -> piece e p' = new_text e.
Proof.
  intros L E. destruct e; cbn in L; try tauto; cbn [apply_edit] in E; try (injection E as <-; reflexivity).
  destruct (Nat.ltb _ _) eqn:K; [|discriminate]. injection E as <-. apply nth_put'. now apply Nat.ltb_lt.
Qed.

Lemma compose_flat p : compose p =
  opt_text (fun x => x ++ ss ":") (p_scheme p)
  ++ auth_of p (fun a => ss "//" ++ opt_text (fun x => x ++ ss "@") (ModelUri.userinfo a) ++ ModelUri.host a
       ++ opt_text (fun x => ss ":" ++ x) (ModelUri.port a)
       ++ if negb (path_is_empty (p_path p)) && negb (absolute (p_path p)) then ss "/" else [])
  ++ path_string (p_path p) ++ opt_text (fun x => ss "?" ++ x) (p_query p) ++ opt_text (fun x => ss "#" ++ x) (p_fragment p).
Proof.
  unfold compose, opt_text, auth_of, authority_string. destruct (p_authority p) as [a|]; [|reflexivity].
  destruct a as [u h o]. cbn [ModelUri.userinfo ModelUri.host ModelUri.port].
  destruct h as [|c h], o as [[|d o]|]; rewrite <- ?app_assoc; reflexivity.
Qed.
Lemma edit_text e p p' : localised e -> (touches_authority e -> p_authority p <> None) -> apply_edit e p = Ok p' ->
  exists pre post, compose p = pre ++ piece e p ++ post /\ compose p' = pre ++ new_text e ++ post.
Proof.
  intros L T E. rewrite <- (piece_other e p p' L E). destruct p as [sc a [b l] q f]. destruct e; cbn in L; try tauto; cbn [apply_edit] in E; cbn [touches_authority p_authority] in T.
  - injection E as <-. rewrite !compose_flat. unfold piece. cbn [p_scheme p_authority p_path p_query p_fragment].
    exists [], (auth_of (mkparts sc a (mkpath b l) q f) (fun a => ss "//" ++ opt_text (fun x => x ++ ss "@") (ModelUri.userinfo a) ++ ModelUri.host a ++ opt_text (fun x => ss ":" ++ x) (ModelUri.port a) ++ (if negb (path_is_empty (mkpath b l)) && negb b then ss "/" else [])) ++ path_string (mkpath b l) ++ opt_text (fun x => ss "?" ++ x) q ++ opt_text (fun x => ss "#" ++ x) f). split; reflexivity.
  - destruct a as [[u h o]|]; [|destruct (T I); reflexivity]. injection E as <-. rewrite !compose_flat. unfold piece, auth_of, set_authority, ensure_authority.
    cbn [p_scheme p_authority p_path p_query p_fragment ModelUri.userinfo ModelUri.host ModelUri.port absolute].
    exists (opt_text (fun x => x ++ ss ":") sc ++ ss "//"), (h ++ opt_text (fun x => ss ":" ++ x) o ++ (if negb (path_is_empty (mkpath b l)) && negb b then ss "/" else []) ++ path_string (mkpath b l) ++ opt_text (fun x => ss "?" ++ x) q ++ opt_text (fun x => ss "#" ++ x) f). split; rewrite <- ?app_assoc; reflexivity.
  - destruct a as [[u h o]|]; [|destruct (T I); reflexivity]. injection E as <-. rewrite !compose_flat. unfold piece, auth_of, set_authority, ensure_authority.
    cbn [p_scheme p_authority p_path p_query p_fragment ModelUri.userinfo ModelUri.host ModelUri.port absolute].
    exists (opt_text (fun x => x ++ ss ":") sc ++ ss "//" ++ opt_text (fun x => x ++ ss "@") u), (opt_text (fun x => ss ":" ++ x) o ++ (if negb (path_is_empty (mkpath b l)) && negb b then ss "/" else []) ++ path_string (mkpath b l) ++ opt_text (fun x => ss "?" ++ x) q ++ opt_text (fun x => ss "#" ++ x) f). split; rewrite <- ?app_assoc; reflexivity.
  - destruct a as [[u h o]|]; [|destruct (T I); reflexivity]. injection E as <-. rewrite !compose_flat. unfold piece, auth_of, set_authority, ensure_authority.
    cbn [p_scheme p_authority p_path p_query p_fragment ModelUri.userinfo ModelUri.host ModelUri.port absolute].
    exists (opt_text (fun x => x ++ ss ":") sc ++ ss "//" ++ opt_text (fun x => x ++ ss "@") u ++ h), ((if negb (path_is_empty (mkpath b l)) && negb b then ss "/" else []) ++ path_string (mkpath b l) ++ opt_text (fun x => ss "?" ++ x) q ++ opt_text (fun x => ss "#" ++ x) f). split; rewrite <- ?app_assoc; reflexivity.
  - cbn [p_path segments] in E. destruct (Nat.ltb i (length l)) eqn:K; [|discriminate]. apply Nat.ltb_lt in K. injection E as <-.
    destruct (loop_put (if b then ss "/" else []) l i K) as (pre & post & G).
    exists (opt_text (fun x => x ++ ss ":") sc ++ auth_of (mkparts sc a (mkpath b l) q f) (fun a => ss "//" ++ opt_text (fun x => x ++ ss "@") (ModelUri.userinfo a) ++ ModelUri.host a ++ opt_text (fun x => ss ":" ++ x) (ModelUri.port a) ++ (if negb (path_is_empty (mkpath b l)) && negb b then ss "/" else [])) ++ pre), (post ++ opt_text (fun x => ss "?" ++ x) q ++ opt_text (fun x => ss "#" ++ x) f).
    rewrite !compose_flat. unfold piece, auth_of, set_path, path_string, path_is_empty. cbn [p_scheme p_authority p_path p_query p_fragment segments absolute].
    rewrite put_nil, G, nth_put' by exact K. replace (path_string_loop _ l []) with (pre ++ nth i l [] ++ post).
    2:{ rewrite <- G. now rewrite put_nth. }
    split; rewrite <- ?app_assoc; reflexivity.
  - injection E as <-. rewrite !compose_flat. unfold piece. cbn [p_scheme p_authority p_path p_query p_fragment].
    exists (opt_text (fun x => x ++ ss ":") sc ++ auth_of (mkparts sc a (mkpath b l) q f) (fun a => ss "//" ++ opt_text (fun x => x ++ ss "@") (ModelUri.userinfo a) ++ ModelUri.host a ++ opt_text (fun x => ss ":" ++ x) (ModelUri.port a) ++ (if negb (path_is_empty (mkpath b l)) && negb b then ss "/" else [])) ++ path_string (mkpath b l)), (opt_text (fun x => ss "#" ++ x) f). split; rewrite <- ?app_assoc; reflexivity.
  - injection E as <-. rewrite !compose_flat. unfold piece. cbn [p_scheme p_authority p_path p_query p_fragment].
    exists (opt_text (fun x => x ++ ss ":") sc ++ auth_of (mkparts sc a (mkpath b l) q f) (fun a => ss "//" ++ opt_text (fun x => x ++ ss "@") (ModelUri.userinfo a) ++ ModelUri.host a ++ opt_text (fun x => ss ":" ++ x) (ModelUri.port a) ++ (if negb (path_is_empty (mkpath b l)) && negb b then ss "/" else [])) ++ path_string (mkpath b l) ++ opt_text (fun x => ss "?" ++ x) q), []. split; rewrite app_nil_r, <- ?app_assoc; reflexivity.
Qed.

(* edits fault only outside the list of segments *)
Lemma edit_total e p : (exists p', apply_edit e p = Ok p') <->
  match e with ESegment i _ => i < length (segments (p_path p)) | EPop => segments (p_path p) <> [] | _ => True end%nat.
Proof.
  destruct e; cbn [apply_edit]; try (split; eauto; fail).
  - destruct (Nat.ltb _ _) eqn:K; split; intros H; eauto. + now apply Nat.ltb_lt. + destruct H; discriminate. + apply Nat.ltb_ge in K. exfalso. lia.
  - destruct (segments (p_path p)); split; eauto; try discriminate. + intros []; discriminate. + congruence.
Qed.

(* the whole text, as pieces *)
Lemma compose_pieces p : compose p = opt_text (fun x => x ++ ss ":") (p_scheme p) ++ auth_text (p_authority p)
  ++ rooted_text (p_authority p) (absolute (p_path p)) (segments (p_path p))
  ++ opt_text (fun x => ss "?" ++ x) (p_query p) ++ opt_text (fun x => ss "#" ++ x) (p_fragment p).
Proof.
  rewrite compose_flat. unfold auth_of, auth_text, rooted_text. rewrite PathRfc.path_string_text. destruct (p_authority p) as [a|]; [|reflexivity].
  rewrite <- !app_assoc. do 5 f_equal. destruct (p_path p) as [[|] [|x l]]; reflexivity.
Qed.
Lemma path_text_edit e p p' : edits_path e -> apply_edit e p = Ok p' ->
  exists pre post, compose p = pre ++ rooted_text (p_authority p) (absolute (p_path p)) (segments (p_path p)) ++ post
    /\ compose p' = pre ++ rooted_text (p_authority p) (absolute (p_path p')) (segments (p_path p')) ++ post
    /\ path_edited e (absolute (p_path p)) (segments (p_path p)) (absolute (p_path p')) (segments (p_path p')).
Proof.
  intros L E.
  assert (K : exists pa, p' = set_path p pa /\ path_edited e (absolute (p_path p)) (segments (p_path p)) (absolute pa) (segments pa)).
  { destruct e; cbn in L; try contradiction; cbn [apply_edit] in E.
    - injection E as <-. eexists. split; [reflexivity|]. split; reflexivity.
    - injection E as <-. eexists. split; [reflexivity|]. split; reflexivity.
    - destruct (segments (p_path p)) as [|x l] eqn:S; [discriminate|]. injection E as <-. eexists. split; [reflexivity|]. split; [reflexivity|].
      cbn [segments]. exists (last (x :: l) []). apply app_removelast_last. discriminate.
    - injection E as <-. eexists. split; [reflexivity|]. destruct (PropPath.C11_result (p_path p)) as (A & k & B & _ & D). split; [exact A|]. exists k. split; assumption. }
  destruct K as (pa & -> & K). exists (opt_text (fun x => x ++ ss ":") (p_scheme p) ++ auth_text (p_authority p)), (opt_text (fun x => ss "?" ++ x) (p_query p) ++ opt_text (fun x => ss "#" ++ x) (p_fragment p)).
  split; [rewrite compose_pieces, <- app_assoc; reflexivity|]. split; [rewrite compose_pieces, <- app_assoc; reflexivity|]. exact K.
Qed.
Lemma authority_text_edit x p p' : apply_edit (EAuthority x) p = Ok p' ->
  exists pre post, compose p = pre ++ auth_text (p_authority p) ++ rooted_text (p_authority p) (absolute (p_path p)) (segments (p_path p)) ++ post
    /\ compose p' = pre ++ auth_text x ++ rooted_text x (absolute (p_path p)) (segments (p_path p)) ++ post.
Proof.
  cbn [apply_edit]. intros E. injection E as <-. exists (opt_text (fun x => x ++ ss ":") (p_scheme p)), (opt_text (fun x => ss "?" ++ x) (p_query p) ++ opt_text (fun x => ss "#" ++ x) (p_fragment p)).
  rewrite !compose_pieces. split; reflexivity.
Qed.
(* an assignment to a member of an authority that is not there yet makes one, otherwise empty *)
Lemma fresh_authority_edit e p p' : touches_authority e -> p_authority p = None -> apply_edit e p = Ok p' ->
  exists pre post, compose p = pre ++ rooted_text None (absolute (p_path p)) (segments (p_path p)) ++ post
    /\ compose p' = pre ++ ss "//" ++ new_text e ++ rooted_text (p_authority p') (absolute (p_path p)) (segments (p_path p)) ++ post
    /\ p_authority p' <> None.
Proof.
  intros T N E. exists (opt_text (fun x => x ++ ss ":") (p_scheme p)), (opt_text (fun x => ss "?" ++ x) (p_query p) ++ opt_text (fun x => ss "#" ++ x) (p_fragment p)).
  split; [rewrite compose_pieces, N; reflexivity|]. destruct p as [sc a pa q f]; cbn [p_authority] in N; subst a.
  destruct e; cbn in T; try contradiction; cbn [apply_edit] in E; injection E as <-; (split; [|discriminate]); rewrite compose_pieces; unfold new_text, auth_text, set_authority, ensure_authority;
    cbn [p_scheme p_authority p_path p_query p_fragment ModelUri.userinfo ModelUri.host ModelUri.port opt_text]; rewrite ?app_nil_r, <- ?app_assoc; reflexivity.
Qed.
