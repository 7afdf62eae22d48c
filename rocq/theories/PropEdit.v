(* PROPERTY THEOREMS: changing the parts of a URI and composing it again (C52).
   Vocabulary in SpecEdit.v and SpecUri.v; proofs in EditFacts.v. *)
From Verif Require Import Base ModelUri ModelEdit Rfc3986 SpecHost SpecParts SpecUri SpecPath SpecEdit EditFacts.
Local Open Scope list_scope.

(* Split a URI, make any sequence of assignments of proper component text, compose: the text reads back as the
   edited parts exactly when those are representable. *)
Theorem C52_edits sg fuel s p es p' : fits fuel s -> split sg fuel s = Ok (Some p) -> Forall text_ok es ->
  apply_edits es p = Ok p' -> p_scheme p' <> None -> fits fuel (compose p') ->
  (representable p' <-> exists q, split sg fuel (compose p') = Ok (Some q) /\ parts_eqb q p' = true).
Proof. exact (edits_roundtrip sg fuel s p es p'). Qed.
Print Assumptions C52_edits.
(* Edits that leave the path, and the presence of scheme and authority, alone always read back; so do all edits of
   a URI with an authority that keep it and the scheme. *)
Theorem C52_safe sg fuel s p es p' : fits fuel s -> split sg fuel s = Ok (Some p) -> Forall text_ok es ->
  apply_edits es p = Ok p' -> fits fuel (compose p') ->
  Forall harmless es \/ (p_authority p <> None /\ Forall keeps_authority es) ->
  exists q, split sg fuel (compose p') = Ok (Some q) /\ parts_eqb q p' = true.
Proof. exact (edits_safe sg fuel s p es p'). Qed.
Print Assumptions C52_safe.
(* An assignment to one component replaces just its text and delimiter in the composed text; nothing else moves. *)
Theorem C52_text e p p' : localised e -> (touches_authority e -> p_authority p <> None) -> apply_edit e p = Ok p' ->
  exists pre post, compose p = pre ++ piece e p ++ post /\ compose p' = pre ++ new_text e ++ post.
Proof. exact (edit_text e p p'). Qed.
Print Assumptions C52_text.
(* An edit of the path changes the path as it says, and in the text nothing but the path; with an authority the flag
   "absolute" makes no difference to the text. *)
Theorem C52_path e p p' : edits_path e -> apply_edit e p = Ok p' ->
  exists pre post, compose p = pre ++ rooted_text (p_authority p) (absolute (p_path p)) (segments (p_path p)) ++ post
    /\ compose p' = pre ++ rooted_text (p_authority p) (absolute (p_path p')) (segments (p_path p')) ++ post
    /\ path_edited e (absolute (p_path p)) (segments (p_path p)) (absolute (p_path p')) (segments (p_path p')).
Proof. exact (path_text_edit e p p'). Qed.
Print Assumptions C52_path.
(* Assigning an authority, or taking it away, exchanges it in the text, and the "/" before the path may come or go. *)
Theorem C52_authority x p p' : apply_edit (EAuthority x) p = Ok p' ->
  exists pre post, compose p = pre ++ auth_text (p_authority p) ++ rooted_text (p_authority p) (absolute (p_path p)) (segments (p_path p)) ++ post
    /\ compose p' = pre ++ auth_text x ++ rooted_text x (absolute (p_path p)) (segments (p_path p)) ++ post.
Proof. exact (authority_text_edit x p p'). Qed.
Print Assumptions C52_authority.
(* Assigning a component of an authority that was not there inserts "//" and that component. *)
Theorem C52_new_authority e p p' : touches_authority e -> p_authority p = None -> apply_edit e p = Ok p' ->
  exists pre post, compose p = pre ++ rooted_text None (absolute (p_path p)) (segments (p_path p)) ++ post
    /\ compose p' = pre ++ ss "//" ++ new_text e ++ rooted_text (p_authority p') (absolute (p_path p)) (segments (p_path p)) ++ post
    /\ p_authority p' <> None.
Proof. exact (fresh_authority_edit e p p'). Qed.
Print Assumptions C52_new_authority.
Example C52_text_ex : (* each of these applies *)
  let p := mkparts (Some (ss "a")) None (mkpath false [ss "b"; ss ".."]) None None in
  let text e := do p' <- apply_edit e p; Ok (compose p') in
  compose p = ss "a:b/.." /\ text (EAbsolute true) = Ok (ss "a:/b/..") /\ text (EPush (ss "c")) = Ok (ss "a:b/../c")
  /\ text EPop = Ok (ss "a:b") /\ text EDots = Ok (ss "a:") /\ text (EPort (Some (ss "1"))) = Ok (ss "a://:1/b/..")
  /\ text (EAuthority (Some (mkauth None (ss "h") None))) = Ok (ss "a://h/b/..").
Proof. cbv zeta. repeat apply conj; vm_compute; reflexivity. Qed.
(* Only an assignment or removal outside the list of segments is undefined. *)
Theorem C52_defined e p : (exists p', apply_edit e p = Ok p') <->
  match e with ESegment i _ => i < length (segments (p_path p)) | EPop => segments (p_path p) <> [] | _ => True end%nat.
Proof. exact (edit_total e p). Qed.
Print Assumptions C52_defined.

Definition ex_text : str := ss "http://u@example.com:80/a/../b?q#f".
Definition ex_edits : list edit :=
  [EScheme (Some (ss "https")); EUserinfo None; EHost (ss "[::1]"); EPort (Some (ss "8443")); EPush []; ESegment 2 (ss "c"); EDots; EQuery (Some (ss "k=v"));
   EFragment None].
Lemma ex_split : exists p, split true 100 ex_text = Ok (Some p) /\ match p_authority p with Some _ => True | None => False end
  /\ match apply_edits ex_edits p with Ok p' => compose p' = ss "https://[::1]:8443/c/?k=v" /\ split true 100 (compose p') = Ok (Some p') | _ => False end.
Proof. eexists. split; [vm_compute; reflexivity|]. vm_compute. auto. Qed.
Lemma ex_keeps : Forall keeps_authority ex_edits.
Proof. repeat constructor. Qed.
Lemma ex_ok : Forall text_ok ex_edits.
Proof.
  assert (W : well_formed (mkparts (Some (ss "https")) (Some (mkauth None (ss "[::1]") (Some (ss "8443")))) (mkpath true [ss "c"; []]) (Some (ss "k=v")) None)).
  { refine (proj1 (wf_split true 100 (ss "https://[::1]:8443/c/?k=v") _ _ _)); [unfold fits; vm_compute; split; [reflexivity|repeat constructor]|vm_compute; reflexivity]. }
  destruct W as ((sch & E & Hs) & (_ & Hh & Hp) & Hseg & Hq & _). cbn [p_scheme] in E. injection E as <-. inversion_clear Hseg as [|? ? Hc Hn]. inversion_clear Hn as [|? ? He _].
  unfold ex_edits. apply Forall_cons; [exact Hs|]. apply Forall_cons; [exact I|]. apply Forall_cons; [exact Hh|]. apply Forall_cons; [exact Hp|].
  apply Forall_cons; [exact He|]. apply Forall_cons; [exact Hc|]. apply Forall_cons; [exact I|]. apply Forall_cons; [exact Hq|]. apply Forall_cons; [exact I|apply Forall_nil].
Qed.
(* the hypotheses of C52_edits and C52_safe hold here *)
Example C52_ex : exists p p', fits 100 ex_text /\ split true 100 ex_text = Ok (Some p)
  /\ Forall text_ok ex_edits /\ apply_edits ex_edits p = Ok p' /\ p_scheme p' <> None /\ fits 100 (compose p')
  /\ p_authority p <> None /\ Forall keeps_authority ex_edits /\ compose p' = ss "https://[::1]:8443/c/?k=v".
Proof.
  destruct ex_split as (p & E & A & H). destruct (apply_edits ex_edits p) as [p'| |] eqn:Q; try destruct H as [].
  exists p, p'. assert (F : fits 100 ex_text) by (unfold fits; vm_compute; split; [reflexivity|repeat constructor]).
  split; [exact F|split; [exact E|split; [exact ex_ok|split; [exact Q|]]]]. destruct (keeps_steps _ _ _ ex_keeps Q) as [_ K].
  destruct (wf_split _ _ _ _ F E) as [((sch & Es & _) & _) _].
  split; [apply K; congruence|]. rewrite H. split; [unfold fits; vm_compute; split; [reflexivity|repeat constructor]|].
  split; [destruct (p_authority p); [discriminate|destruct A]|split; [exact ex_keeps|reflexivity]].
Qed.

(* Outside these classes proper edits of a proper URI change its meaning: taking the authority away promotes the
   path to an authority; so does a segment added after an empty first one; and a path left "absolute" without
   segments loses its slash. *)
Theorem C52_refuted :
  let check s es t q := exists p p', split true 100 s = Ok (Some p) /\ apply_edits es p = Ok p' /\ compose p' = t
      /\ split true 100 t = Ok (Some q) /\ parts_eqb q p' = false in
  check (ss "a://h//evil/x") [EAuthority None] (ss "a://evil/x")
        (mkparts (Some (ss "a")) (Some (mkauth None (ss "evil") None)) (mkpath true [ss "x"]) None None)
  /\ check (ss "a:/") [EPush (ss "evil")] (ss "a://evil")
        (mkparts (Some (ss "a")) (Some (mkauth None (ss "evil") None)) (mkpath false []) None None)
  /\ check (ss "a:/x") [EPop] (ss "a:") (mkparts (Some (ss "a")) None (mkpath false []) None None).
Proof.
  cbv zeta beta. repeat apply conj;
  (eexists _, _; split; [vm_compute; reflexivity|split; [vm_compute; reflexivity|split; [vm_compute; reflexivity|split; vm_compute; reflexivity]]]).
Qed.
Print Assumptions C52_refuted.
