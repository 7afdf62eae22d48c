(* C64: from a reference to a file name. *)
From Verif Require Import Base ModelUri ModelFs Rfc3986 SpecHost SpecParts SpecUri SpecStore SpecPct PctFacts PctProps SpecFs FsProps SpecPath PathFacts UriSplit UriProps ConfineFacts SpecConfine.
Local Open Scope list_scope.

Lemma Forall2_app_inv_l' {A B} (R : A -> B -> Prop) l1 l2 m : Forall2 R (l1 ++ l2) m -> exists m1 m2, m = m1 ++ m2 /\ Forall2 R l1 m1 /\ Forall2 R l2 m2.
Proof. intros H. apply Forall2_app_inv_l in H. destruct H as (m1 & m2 & H1 & H2 & ->). exists m1, m2. auto. Qed.
Definition harmless (s : str) : Prop := forall x, decodes s x -> ~ is_dots x /\ ~ In SpecPath.slash x.
Lemma dots_decode x : is_dots x -> decodes x x.
Proof.
  assert (K : forall s : str, Forall (fun c => c <> "%"%char) s -> decodes s s).
  { induction s as [|c s IH]; intros H; [constructor|]. inversion H; subst. apply dec_copy; [|auto]. intros b rest (h & l & u & v & E & _). injection E as E _. contradiction. }
  intros [->| ->]; apply K; repeat constructor; discriminate.
Qed.
Lemma harmless_plain s : harmless s -> ~ is_dots s.
Proof. intros H D. destruct (H s (dots_decode s D)) as [N _]. contradiction. Qed.
Lemma pathname b r strict d td : merge_applies strict (comps b) (comps r) -> (forall x, segments (p_path b) <> [x]) ->
  resolves (removelast (segments (p_path b))) d -> Forall harmless (segments (p_path r)) -> Forall (fun s => forall x, decodes s x -> ~ In SpecPath.slash x) d ->
  parts_rel decoded (join_parts b r strict) td ->
  exists dd kk tail, Forall2 decodes d dd /\ Forall2 decodes (segments (p_path r)) kk /\ Forall (fun x => ~ is_dots x /\ ~ In SpecPath.slash x) kk
    /\ path_filesystem (p_path td) = (if absolute (p_path td) then ["/"%char] else []) ++ SpecFs.slashed (filter nonempty dd ++ filter nonempty kk) ++ tail
    /\ (tail = [] \/ tail = ["/"%char]).
Proof.
  intros M N D Hr Hd (_ & _ & _ & F & _).
  assert (I : inside (segments (p_path r)) (segments (p_path r))).
  { apply inside_plain. eapply Forall_impl; [|exact Hr]. apply harmless_plain. }
  assert (E : segments (p_path (join_parts b r strict)) = d ++ segments (p_path r)).
  { destruct (confined b r strict d _ M N D I) as [((l & x & E1 & E2) & _)|(_ & E)]; [|exact E]. exfalso. rewrite E1 in Hr. apply Forall_app in Hr. destruct Hr as [_ Hr]. inversion Hr as [|? ? Hx _]; subst.
    exact (harmless_plain _ Hx E2). }
  rewrite E in F. apply Forall2_app_inv_l' in F. destruct F as (dd & kk & Es & F1 & F2).
  assert (K : Forall (fun x => ~ is_dots x /\ ~ In SpecPath.slash x) kk).
  { clear - F2 Hr. induction F2 as [|x y l m Hx _ IH]; [constructor|]. inversion Hr as [|? ? H1 H2]; subst. constructor; [exact (H1 _ Hx)|auto]. }
  assert (KD : Forall (fun x => ~ In SpecPath.slash x) dd).
  { clear - F1 Hd. induction F1 as [|x y l m Hx _ IH]; [constructor|]. inversion Hd as [|? ? H1 H2]; subst. constructor; [exact (H1 _ Hx)|auto]. }
  destruct (c32_filesystem (p_path td)) as (tail & P & T).
  { unfold slash_free. rewrite Es. apply Forall_app. split; [exact KD|]. eapply Forall_impl; [|exact K]. intros x [_ X]. exact X. }
  exists dd, kk, tail. split; [exact F1|]. split; [exact F2|]. split; [exact K|]. rewrite Es, filter_app in P. split; [exact P|]. tauto.
Qed.
