(* Any sensible way to take the authority of a URI apart finds the same pieces *)
From Verif Require Import Base Peg PegLang UriHost UriStruct JoinFacts Rfc3986 PartsProps SpecRegex RegexFacts RegexUri.
Local Open Scope nat_scope.

Lemma none_not_in l s c : all (none_of l) s -> existsb (Ascii.eqb c) (ss l) = true -> ~ In c s.
Proof. intros A E I. rewrite Forall_forall in A. specialize (A c I). unfold none_of in A. rewrite E in A. discriminate. Qed.
(* a text with c once *)
Lemma once (c : ascii) : forall a b x y : str, ~ In c a -> ~ In c x -> a ++ c :: b = x ++ c :: y -> a = x /\ b = y.
Proof.
  induction a as [|d a IH]; intros b x y A X E.
  - destruct x as [|e x]; cbn in E; [injection E as <-; auto|]. injection E as <- _. destruct X. now left.
  - destruct x as [|e x]; cbn in E; [injection E as -> _; destruct A; now left|]. injection E as <- E.
    destruct (IH b x y) as [-> ->]; auto; intros I; [apply A|apply X]; now right.
Qed.
Lemma once_last (c : ascii) (a b x y : str) : ~ In c b -> ~ In c y -> a ++ c :: b = x ++ c :: y -> a = x /\ b = y.
Proof.
  intros A X E. apply (f_equal (@rev ascii)) in E. rewrite !rev_app_distr in E. cbn [rev] in E. rewrite <- !app_assoc in E. cbn [app] in E.
  apply once in E as [E1 E2]; [|now rewrite <- in_rev|now rewrite <- in_rev].
  apply (f_equal (@rev ascii)) in E1, E2. rewrite !rev_involutive in E1, E2. auto.
Qed.
Lemma host_shape h : L host h -> (exists x, h = ss "[" ++ x ++ ss "]" /\ ~ In "]"%char x) \/ (~ In ":"%char h /\ ~ In "["%char h /\ ~ In "]"%char h).
Proof.
  intros H. apply host_reg_or_lit in H as [(b & t1 & -> & Hb & x & e & -> & Hx & He)|H].
  - left. apply L_lb in Hb. apply L_rb in He. subst. exists x. split; [reflexivity|].
    assert (A : all (none_of "]") x). { revert Hx. apply (chars (Alt IPv6address IPvFuture)). vm_compute. reflexivity. }
    apply (none_not_in _ _ _ A). reflexivity.
  - right. assert (A : all (none_of ":[]") h) by (revert H; apply chars; vm_compute; reflexivity). repeat split; apply (none_not_in _ _ _ A); reflexivity.
Qed.
Lemma host_port_unique h h' (p p' : option str) : L host h -> in_opt port p ->
  (bracketed h' \/ ~ In ":"%char h') -> match p' with Some p => ~ In "@"%char p /\ ~ In ":"%char p /\ ~ In "]"%char p | None => True end ->
  h ++ opt_pre (ss ":") p = h' ++ opt_pre (ss ":") p' -> h = h' /\ p = p'.
Proof.
  intros H P B Q E.
  assert (PC : forall x, p = Some x -> ~ In ":"%char x /\ ~ In "]"%char x).
  { intros x ->. apply port_free in P. split; apply (none_not_in _ _ _ P); reflexivity. }
  apply host_shape in H as [(x & -> & X)|(Hc & Hl & Hr)].
  - (* in brackets *)
    assert (B' : bracketed h').
    { destruct B as [B|B]; [exact B|]. exists x. destruct p' as [p'|]; cbn [opt_pre] in E.
      - destruct Q as (_ & Q2 & Q3). rewrite <- !app_assoc in E. destruct p as [p|]; cbn [opt_pre] in E.
        + (* both have a port: the last ':' *) change (ss ":" ++ p) with (":"%char :: p) in E. change (ss ":" ++ p') with (":"%char :: p') in E. rewrite !app_assoc in E.
          apply once_last in E as [E _]; [|apply (PC p eq_refl)|exact Q2]. rewrite <- E. now rewrite <- app_assoc.
        + exfalso. change (ss ":" ++ p') with (":"%char :: p') in E. apply (f_equal (@rev ascii)) in E. rewrite !rev_app_distr in E. cbn [rev app ss list_ascii_of_string] in E.
          destruct (rev p') as [|d r] eqn:R; cbn [app] in E.
          * discriminate E.
          * injection E as <- _. apply Q3. rewrite in_rev, R. now left.
      - destruct p as [p|]; cbn [opt_pre] in E; rewrite ?app_nil_r in E; [|now rewrite <- E].
        exfalso. apply B. rewrite <- E. apply in_or_app. right. now left. }
    destruct B' as [x' ->]. clear B. rewrite <- !app_assoc in E. change (ss "[" ++ x ++ ss "]" ++ opt_pre (ss ":") p) with ("["%char :: x ++ "]"%char :: opt_pre (ss ":") p) in E.
    change (ss "[" ++ x' ++ ss "]" ++ opt_pre (ss ":") p') with ("["%char :: x' ++ "]"%char :: opt_pre (ss ":") p') in E. injection E as E.
    apply once_last in E as [-> E].
    + split; [reflexivity|]. destruct p, p'; cbn in E; try discriminate; [injection E as ->; reflexivity|reflexivity].
    + destruct p as [p|]; [|intros []]. intros [K|K]; [discriminate|]. apply (PC p eq_refl). exact K.
    + destruct p' as [p'|]; [|intros []]. intros [K|K]; [discriminate|]. apply Q. exact K.
  - (* a name *)
    assert (B' : ~ In ":"%char h').
    { destruct B as [[x' ->]|B]; [|exact B]. exfalso. destruct h as [|c h].
      - destruct p as [p|]; discriminate E.
      - cbn in E. injection E as -> _. apply Hl. now left. }
    destruct p as [p|], p' as [p'|]; cbn [opt_pre] in E; rewrite ?app_nil_r in E.
    + change (ss ":" ++ p) with (":"%char :: p) in E. change (ss ":" ++ p') with (":"%char :: p') in E. apply once in E as [-> ->]; auto.
    + exfalso. apply B'. rewrite <- E. rewrite in_app_iff. right. now left.
    + exfalso. apply Hc. rewrite E. rewrite in_app_iff. right. now left.
    + auto.
Qed.
Lemma authority_sensible s a : authority_decomp s a -> sensible s a.
Proof.
  destruct a as [[u h] p]. intros (-> & U & H & P). split; [reflexivity|]. pose proof (host_free h H) as HF. split; [apply (none_not_in _ _ _ HF); reflexivity|]. split.
  - apply host_shape in H as [(x & -> & _)|(Hc & _)]; [left; now exists x|now right].
  - destruct p as [p|]; [|exact I]. apply port_free in P. repeat split; apply (none_not_in _ _ _ P); reflexivity.
Qed.
Lemma sensible_unique s a a' : authority_decomp s a -> sensible s a' -> a' = a.
Proof.
  intros D. pose proof (authority_sensible s a D) as S. destruct a as [[u h] p], a' as [[u' h'] p']. destruct D as (-> & U & H & P). intros (E & H' & B' & P').
  destruct S as (_ & NH & _ & NP). cbn [authority_text] in E.
  assert (T : ~ In "@"%char (h ++ opt_pre (ss ":") p)).
  { rewrite in_app_iff. intros [K|K]; [now apply NH|]. destruct p as [p|]; [|destruct K]. destruct K as [K|K]; [discriminate|]. now apply NP. }
  assert (T' : ~ In "@"%char (h' ++ opt_pre (ss ":") p')).
  { rewrite in_app_iff. intros [K|K]; [now apply H'|]. destruct p' as [p'|]; [|destruct K]. destruct K as [K|K]; [discriminate|]. now apply P'. }
  assert (X : u' = u /\ h ++ opt_pre (ss ":") p = h' ++ opt_pre (ss ":") p').
  { destruct u as [u|], u' as [u'|]; cbn [opt_post app] in E; try rewrite <- !(app_assoc _ (ss "@")) in E.
    - change (ss "@" ++ ?z) with ("@"%char :: z) in E. change (u ++ "@"%char :: (h ++ opt_pre (ss ":") p) = u' ++ "@"%char :: (h' ++ opt_pre (ss ":") p')) in E.
      apply once_last in E as [-> E]; auto.
    - exfalso. apply T'. rewrite <- E. rewrite in_app_iff. right. now left.
    - exfalso. apply T. rewrite E. rewrite in_app_iff. right. now left.
    - auto. }
  destruct X as [-> X]. apply host_port_unique in X as [-> ->]; auto.
Qed.
