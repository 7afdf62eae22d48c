From Verif Require Import Base Rfc3986 SpecAbnf AbnfText.
From Coq Require Import Lia.
Local Open Scope list_scope.
Definition eqs (a b : str) : bool := if list_eq_dec Ascii.ascii_dec a b then true else false.
Lemma eqs_iff a b : eqs a b = true <-> a = b.
Proof. unfold eqs. destruct (list_eq_dec _ a b); split; congruence. Qed.
Definition name_eqb (a b : str) : bool := eqs (map lower a) (map lower b).
Lemma name_eqb_iff a b : name_eqb a b = true <-> same_name a b.
Proof. apply eqs_iff. Qed.
Fixpoint look (G : rules) (n : str) : option elem :=
  match G with [] => None | (n', e) :: G' => if name_eqb n n' then Some e else look G' n end.
Fixpoint unique (G : rules) : bool :=
  match G with [] => true | (n, _) :: G' => forallb (fun x => negb (name_eqb n (fst x))) G' && unique G' end.
Lemma look_in G n e : look G n = Some e -> exists n', In (n', e) G /\ same_name n n'.
Proof.
  induction G as [|[n' e'] G IH]; cbn; [discriminate|]. destruct (name_eqb n n') eqn:E.
  - intros [= ->]. exists n'. split; [now left|]. now apply name_eqb_iff.
  - intros H. destruct (IH H) as (m & I & S). exists m. auto.
Qed.
Lemma in_look G n n' e : unique G = true -> In (n', e) G -> same_name n n' -> look G n = Some e.
Proof.
  induction G as [|[m e'] G IH]; [intros _ []|]. cbn. intros U [[= -> ->]|I] S.
  - apply name_eqb_iff in S. now rewrite S.
  - apply andb_prop in U. destruct U as [U1 U2]. destruct (name_eqb n m) eqn:E; [|now apply IH]. apply name_eqb_iff in E.
    rewrite forallb_forall in U1. specialize (U1 _ I). cbn in U1. assert (X : name_eqb m n' = true) by (apply name_eqb_iff; unfold same_name in *; congruence). rewrite X in U1. discriminate.
Qed.
Fixpoint expand (fuel : nat) (G : rules) (e : elem) : option abnf :=
  match fuel with
  | O => None
  | S fuel =>
      match e with
      | ERef n => match look G n with Some e => expand fuel G e | None => None end
      | ERange lo hi => Some (Rng lo hi)
      | ELit s => Some (Lit (string_of_list_ascii s))
      | ECat a b => match expand fuel G a, expand fuel G b with Some a, Some b => Some (Cat a b) | _, _ => None end
      | EAlt a b => match expand fuel G a, expand fuel G b with Some a, Some b => Some (Alt a b) | _, _ => None end
      | ERep mn mx a => match expand fuel G a with Some a => Some (Rep mn mx a) | None => None end
      end
  end.
Lemma expand_lang G : unique G = true -> forall fuel e g, expand fuel G e = Some g -> forall s, derives G e s <-> L g s.
Proof.
  intros U. induction fuel as [|fuel IH]; intros e g E s; [discriminate|]. destruct e as [n|lo hi|l|a b|a b|mn mx a]; cbn [expand] in E.
  - destruct (look G n) as [e|] eqn:Lk; [|discriminate]. rewrite <- (IH _ _ E s). split.
    + intros D. inversion D; subst. now rewrite (in_look G n n' e0 U H0 H1) in Lk; injection Lk as ->.
    + intros D. destruct (look_in _ _ _ Lk) as (n' & I & Sm). now apply (d_ref G n n' e).
  - injection E as <-. cbn. split; [intros D; inversion D; subst; eauto|]. intros (c & -> & H). now constructor.
  - injection E as <-. cbn [L]. unfold ss. rewrite list_ascii_of_string_of_list_ascii. split; [intros D; now inversion D|now constructor].
  - destruct (expand fuel G a) as [ga|] eqn:Ea; [|discriminate]. destruct (expand fuel G b) as [gb|] eqn:Eb; [|discriminate]. injection E as <-. cbn [L]. split.
    + intros D. inversion D; subst. exists s0, t. rewrite <- (IH _ _ Ea), <- (IH _ _ Eb). auto.
    + intros (s1 & s2 & -> & H1 & H2). rewrite <- (IH _ _ Ea) in H1. rewrite <- (IH _ _ Eb) in H2. now constructor.
  - destruct (expand fuel G a) as [ga|] eqn:Ea; [|discriminate]. destruct (expand fuel G b) as [gb|] eqn:Eb; [|discriminate]. injection E as <-. cbn [L]. rewrite <- (IH _ _ Ea), <- (IH _ _ Eb). split.
    + intros D. inversion D; subst; auto.
    + intros [D|D]; [now apply d_left|now apply d_right].
  - destruct (expand fuel G a) as [ga|] eqn:Ea; [|discriminate]. injection E as <-. cbn [L]. split.
    + intros D. inversion D; subst. exists l. split; [reflexivity|]. split; [|auto]. eapply Forall_impl; [|exact H2]. intros x. apply (IH _ _ Ea).
    + intros (l & -> & F & H1 & H2). constructor; auto. eapply Forall_impl; [|exact F]. intros x. apply (IH _ _ Ea).
Qed.
Fixpoint cat_r (a b : abnf) : abnf := match a with Cat x y => Cat x (cat_r y b) | _ => Cat a b end.
Fixpoint norm (g : abnf) : abnf :=
  match g with
  | Cat a b => cat_r (norm a) (norm b)
  | Alt a b => Alt (norm a) (norm b)
  | Rep mn mx a => Rep mn mx (norm a)
  | _ => g
  end.
Lemma cat_r_lang a : forall b s, L (cat_r a b) s <-> L (Cat a b) s.
Proof.
  induction a; intros b w; try reflexivity. cbn [cat_r L]. clear IHa1. split.
  - intros (s1 & s2 & -> & H1 & H2). apply IHa2 in H2. destruct H2 as (s3 & s4 & -> & H3 & H4). exists (s1 ++ s3), s4. split; [now rewrite app_assoc|]. split; [|exact H4]. exists s1, s3. auto.
  - intros (s12 & s3 & -> & (s1 & s2 & -> & H1 & H2) & H3). exists s1, (s2 ++ s3). split; [now rewrite app_assoc|]. split; [exact H1|]. apply IHa2. exists s2, s3. auto.
Qed.
Lemma norm_lang g : forall s, L (norm g) s <-> L g s.
Proof.
  induction g; intros w; cbn [norm]; try reflexivity.
  - rewrite cat_r_lang. cbn [L]. split; intros (s1 & s2 & -> & H1 & H2); exists s1, s2; split; [reflexivity|split; [now apply IHg1|now apply IHg2]|reflexivity|split; [now apply IHg1|now apply IHg2]].
  - cbn [L]. now rewrite IHg1, IHg2.
  - cbn [L]. split; intros (l & -> & F & H); exists l; (split; [reflexivity|split; [|exact H]]); eapply Forall_impl; try exact F; intros x; apply IHg.
Qed.
Lemma same_lang G n g : unique G = true -> option_map norm (expand 60 G (ERef n)) = Some (norm g) -> forall s, derives G (ERef n) s <-> L g s.
Proof.
  intros U E s. destruct (expand 60 G (ERef n)) as [g'|] eqn:X; [|discriminate]. injection E as E. rewrite (expand_lang G U _ _ _ X s), <- norm_lang, E. apply norm_lang.
Qed.
(* the grammar in the file *)
Definition file : option rules := read_grammar (ss (append uri_abnf core_abnf)).
