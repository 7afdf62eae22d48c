(* puny_decoded (ModelParts) in the words of SpecStore. *)
From Verif Require Import Base ModelUri ModelAlgo ModelParts SpecPct SpecPuny SpecIcu SpecStore.
From Verif Require Import AlgoFacts PctFacts PunyProps PunyLoop IcuUtf8 IcuRead8 IcuEnc IcuProps PartsHost.
From Verif Require ModelPuny ModelIcu.
Local Open Scope list_scope.

Lemma starts_xn l : starts_with Ascii.eqb l idna_prefix = true <-> has_prefix xn l.
Proof.
  rewrite starts_with_spec. unfold has_prefix. split.
  - intros (p & q & -> & F). exists q. f_equal. clear q. change idna_prefix with xn in F. induction F as [|a b p x E _ IH]; [reflexivity|].
    apply Ascii.eqb_eq in E. now subst.
  - intros (r & ->). exists xn, r. split; [reflexivity|]. change idna_prefix with xn. generalize xn. induction s as [|c s IH]; constructor; [apply Ascii.eqb_refl|exact IH].
Qed.
Lemma xn_dec l : {has_prefix xn l} + {~ has_prefix xn l}.
Proof. destruct (starts_with Ascii.eqb l idna_prefix) eqn:E; [left; now apply starts_xn|right; intros H; apply starts_xn in H; congruence]. Qed.
Lemma reads32_length us cs ok : reads32 us cs ok -> length cs = length us.
Proof. induction 1; cbn; congruence. Qed.
Lemma text8_length cs out : text utf8_of cs out -> length out <= 4 * length cs.
Proof. induction 1 as [|c w cs us F _ IH]; [cbn; lia|]. rewrite app_length. cbn [length]. inversion F; subst; cbn [length]; lia. Qed.
Lemma to_utf8_ok u : (forall c, In c u -> (c < 2 ^ 32)%N) -> exists t cs ok, to_utf8 u = Ok t /\ reads32 u cs ok /\ text utf8_of cs (map code t).
Proof.
  intros H. assert (B : Forall (fun c => (c < 2 ^ 32)%N) u) by (apply Forall_forall; exact H).
  destruct (views _ _ _ u view_32_8 B) as (out & ok & T & V). apply (conv_32_8 u B) in T as (cs & R & X).
  exists (map chr out), cs, ok. split; [|split; [exact R|]].
  - unfold to_utf8. rewrite V; [reflexivity|]. apply text8_length in X. apply reads32_length in R. lia.
  - rewrite map_code_chr; [exact X|]. eapply text_bytes8; exact X.
Qed.
Lemma decode_puny_text q : short_text q -> forall u, ModelPuny.decode q = Ok (inl u) <-> puny_text q u.
Proof. intros H u. apply (decode_iff q u H). Qed.
Lemma puny_text_fun q u u' : puny_text q u -> puny_text q u' -> u = u'.
Proof.
  intros [[H|(q1 & -> & N1 & H)] _] [[H'|(q2 & E & N2 & H')] _].
  - eapply puny_decodes_fun; eassumption.
  - subst q. exfalso. destruct H as (lit & d & [(E & NE)|(<- & _)] & ND & _).
    + destruct lit as [|x lit]; [contradiction|]. cbn in E. injection E as <- ->. apply N2. apply in_or_app. right. left. reflexivity.
    + apply ND. left. reflexivity.
  - exfalso. destruct H' as (lit & d & [(E & NE)|(<- & _)] & ND & _).
    + destruct lit as [|x lit]; [contradiction|]. cbn in E. injection E as <- ->. apply N1. apply in_or_app. right. left. reflexivity.
    + apply ND. left. reflexivity.
  - injection E as <-. eapply puny_decodes_fun; eassumption.
Qed.
Lemma skip_xn q : skipn (length idna_prefix) (xn ++ q) = q. Proof. reflexivity. Qed.
Lemma short_skip n s : short_text s -> short_text (skipn n s).
Proof. unfold short_text. intros H. rewrite skipn_length. lia. Qed.

Definition has_xn (ls : list str) : Prop := exists l, In l ls /\ has_prefix xn l.
Definition bad_label (l : str) : Prop := has_prefix xn l /\ forall u, ~ puny_text (skipn 4 l) u.
Lemma puny_decoded_loop_spec : forall ls l fuel out any, length ls < fuel -> Forall short_text (l :: ls) -> Forall (fun x => ~ In dot x) (l :: ls) ->
  (exists t ts b, puny_decoded_loop fuel (joined dot l ls) out any = Ok (out ++ joined dot t ts, inl (any || b))
     /\ Forall2 label_decoded (l :: ls) (t :: ts) /\ (b = true <-> has_xn (l :: ls)))
  \/ (exists w e x, puny_decoded_loop fuel (joined dot l ls) out any = Ok (w, inr e) /\ In x (l :: ls) /\ bad_label x).
Proof.
  assert (X : forall l ls fuel out any,
    Forall short_text (l :: ls) -> Forall (fun x => ~ In dot x) (l :: ls) ->
    let continue out any := match ls with [] => Ok (out, inl any) | l' :: ls' => puny_decoded_loop fuel (joined dot l' ls') (out ++ [dot]) any end in
    (exists t b, puny_decoded_loop (S fuel) (joined dot l ls) out any = continue (out ++ t) (any || b)
       /\ label_decoded l t /\ (b = true <-> has_prefix xn l))
    \/ (exists w e, puny_decoded_loop (S fuel) (joined dot l ls) out any = Ok (w, inr e) /\ bad_label l)).
  { intros l ls fuel out any Hs Hd continue. cbn [puny_decoded_loop]. inversion Hs as [|? ? Hl Hs']; inversion Hd as [|? ? Hdl Hd']; subst.
    rewrite (take_while_joined (fun c => is_not_dot (code c)) dot l ls); [|reflexivity|apply no_dot; exact Hdl].
    destruct (starts_with Ascii.eqb l idna_prefix) eqn:S.
    - apply starts_xn in S. pose proof S as (q & ->). rewrite skip_xn.
      assert (Hq : short_text q) by (apply (short_skip 4) in Hl; exact Hl).
      destruct (decode_total q Hq) as ([u|err] & E); rewrite E; cbn [bind].
      + apply decode_puny_text in E; [|exact Hq]. pose proof (proj2 E) as B. destruct (to_utf8_ok u B) as (t & cs & ok & T & R & W). rewrite T. cbn [bind].
        left. exists t, true. split; [rewrite orb_true_r; unfold continue; destruct ls; reflexivity|].
        split; [right; exists q, u, cs, ok; auto|]. split; auto.
      + right. exists out, err. split; [reflexivity|]. split; [exact S|]. intros u Hu. change (skipn 4 (xn ++ q)) with q in Hu.
        apply decode_puny_text in Hu; [congruence|exact Hq].
    - left. exists l, false. rewrite orb_false_r. split; [unfold continue; destruct ls; reflexivity|].
      assert (N : ~ has_prefix xn l) by (intros H; apply starts_xn in H; congruence).
      split; [left; auto|]. split; [discriminate|contradiction]. }
  induction ls as [|l' ls IH]; intros l [|fuel] out any Hf Hs Hd; try (cbn in Hf; lia).
  - destruct (X l [] fuel out any Hs Hd) as [(t & b & E & L & Hb)|(w & e & E & B)].
    + left. exists t, [], b. cbn [joined]. split; [exact E|]. split; [apply Forall2_cons; [exact L|apply Forall2_nil]|].
      rewrite Hb. unfold has_xn. split; [intros P; exists l; split; [left; reflexivity|exact P]|]. intros (x & [<-|[]] & P). exact P.
    + right. exists w, e, l. split; [exact E|]. split; [left; reflexivity|exact B].
  - destruct (X l (l' :: ls) fuel out any Hs Hd) as [(t & b & E & L & Hb)|(w & e & E & B)].
    + rewrite E. inversion Hs; inversion Hd; subst.
      destruct (IH l' fuel ((out ++ t) ++ [dot]) (any || b)) as [(t' & ts & b' & E' & L' & Hb')|(w & e & x & E' & Hx & B)]; [cbn in Hf; lia|assumption|assumption| |].
      * left. exists t, (t' :: ts), (b || b'). split; [cbv zeta; rewrite E', orb_assoc; cbn [joined]; repeat rewrite <- app_assoc; reflexivity|].
        split; [apply Forall2_cons; assumption|]. rewrite orb_true_iff, Hb, Hb'. unfold has_xn. split.
        -- intros [P|(y & Hy & P)]; [exists l; split; [left; reflexivity|exact P]|exists y; split; [right; exact Hy|exact P]].
        -- intros (y & [<-|Hy] & P); [left; exact P|right; exists y; auto].
      * right. exists w, e, x. split; [exact E'|]. split; [right; exact Hx|exact B].
    + right. exists w, e, l. split; [exact E|]. split; [left; reflexivity|exact B].
Qed.
Lemma label_decoded_fun e t t' : label_decoded e t -> label_decoded e t' -> t = t'.
Proof.
  intros [[N ->]|(q & u & cs & ok & -> & P & R & T)] [[N' ->]|(q' & u' & cs' & ok' & E' & P' & R' & T')].
  - reflexivity.
  - subst. elim N. exists q'. reflexivity.
  - elim N'. exists q. reflexivity.
  - apply app_inv_head in E'. subst q'. rewrite (puny_text_fun _ _ _ P P') in *. destruct (reads32_fun _ _ _ R _ _ R') as [-> ->].
    apply map_code_inj. eapply text_fun; [apply utf8_fun|exact T|exact T'].
Qed.
Lemma forall2_fun {A B} (R : A -> B -> Prop) : (forall a b b', R a b -> R a b' -> b = b') -> forall l m m', Forall2 R l m -> Forall2 R l m' -> m = m'.
Proof. intros F l m m' H. revert m'. induction H as [|a b l m H _ IH]; intros m' H'; inversion H'; subst; [reflexivity|]. f_equal; [eapply F; eassumption|auto]. Qed.
Lemma host_decoded_fun e t t' : host_decoded e t -> host_decoded e t' -> t = t'.
Proof.
  intros (es & ts & L & F & l & ls & -> & ->) (es' & ts' & L' & F' & l' & ls' & -> & ->). rewrite (labels_fun _ _ _ _ L L') in F.
  pose proof (forall2_fun _ label_decoded_fun _ _ _ F F') as E. injection E as -> ->. reflexivity.
Qed.
Lemma undecodable_not e t : host_undecodable e -> ~ host_decoded e t.
Proof.
  intros (es & l & L & Hl & P & N) (es' & ts & L' & F & _). rewrite (labels_fun _ _ _ _ L L') in *. clear - F Hl P N.
  induction F as [|a b es ts D _ IH]; [destruct Hl|]. destruct Hl as [->|Hl]; [|auto].
  destruct D as [[ND _]|(q & u & cs & ok & -> & T & _)]; [contradiction|]. apply (N u). exact T.
Qed.
Lemma decoded_unchanged es ts : Forall2 label_decoded es ts -> ~ has_xn es -> es = ts.
Proof.
  intros D N. induction D as [|a b es ts D _ IH]; [reflexivity|]. f_equal.
  - destruct D as [[_ ->]|(q & u & cs & ok & -> & _)]; [reflexivity|]. elim N. exists (xn ++ q). split; [left; reflexivity|exists q; reflexivity].
  - apply IH. intros (x & Hx & P). apply N. exists x. split; [right; exact Hx|exact P].
Qed.
Definition host_has_xn (e : str) : Prop := exists es l, labels dot e es /\ In l es /\ has_prefix xn l.
Lemma puny_decoded_spec e : short_text e ->
  (exists t b, puny_decoded e = Ok (t, inl b) /\ host_decoded e t /\ (b = true <-> host_has_xn e) /\ (b = false -> t = e))
  \/ (exists w err, puny_decoded e = Ok (w, inr err) /\ host_undecodable e).
Proof.
  intros H. destruct (labels_exist ascii_dec dot e) as (l & ls & L). pose proof L as (l0 & ls0 & E & Ee & F). injection E as <- <-.
  destruct (puny_decoded_loop_spec ls l (S (length e)) [] false) as [(t & ts & b & P & D & Hb)|(w & err & x & P & Hx & [B1 B2])].
  - rewrite Ee. apply le_n_S. exact (joined_snoc_length dot ls l).
  - apply Forall_forall. intros x Hx. pose proof (joined_label_length dot ls x l Hx) as J. rewrite <- Ee in J. unfold short_text in *. lia.
  - exact F.
  - left. rewrite <- Ee in P. exists (joined dot t ts), b. split; [exact P|]. split; [exists (l :: ls), (t :: ts); split; [exact L|split; [exact D|eauto]]|].
    assert (X : has_xn (l :: ls) <-> host_has_xn e).
    { split; [intros (x & Hx & P'); exists (l :: ls), x; auto|]. intros (es & x & L' & Hx & P'). rewrite (labels_fun _ _ _ _ L' L) in Hx. exists x; auto. }
    split; [rewrite Hb; exact X|]. intros ->. rewrite Ee. assert (Y : l :: ls = t :: ts); [|congruence].
    apply (decoded_unchanged _ _ D). rewrite <- Hb. discriminate.
  - right. rewrite <- Ee in P. exists w, err. split; [exact P|]. exists (l :: ls), x. auto.
Qed.
