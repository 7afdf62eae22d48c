(* uri::encode and uri::decode and the case of letters: proofs for C85. *)
From Verif Require Import Base ModelUri ModelPuny ModelParts Rfc3986 SpecPct SpecPuny SpecIcu SpecStore SpecViews SpecLayers SpecCase
  CommuteFacts CommuteUri CaseFacts CaseUri CasePuny IcuRead8 IcuUtf8 IcuEnc PunyLoop PunyProps PartsHost PartsDec PartsProps PartsEnc IdnFacts LayersFacts PctFacts.
From Verif Require ModelPct.
From Coq Require Import Lia.
Local Open Scope N_scope.
Local Open Scope list_scope.

(* --- UTF-8 --- *)
Lemma high_same u v : Forall (fun x => 0x80 <= x) u -> same_points u v -> v = u.
Proof.
  intros H F. induction F as [|a b u v E F IH]; [reflexivity|]. rewrite (IH (Forall_inv_tail H)). f_equal. destruct (point_cases a b E) as [A|[A _]]; [auto|]. pose proof (Forall_inv H). cbv beta in *. lia.
Qed.
Lemma app_points u v w : same_points (u ++ v) w -> exists u' v', w = u' ++ v' /\ same_points u u' /\ same_points v v'.
Proof. intros H. apply Forall2_app_inv_l in H. destruct H as (u' & v' & A & B & ->). eauto. Qed.
Lemma utf8_high c w : utf8_of c w -> (w = [c] /\ c < 0x80) \/ (0x80 <= c /\ Forall (fun x => 0x80 <= x) w).
Proof. intros H. destruct H; [left; auto|right..]; (split; [lia|]); repeat constructor; lia. Qed.
Lemma low_point a b : same_point a b -> a < 0x80 -> b < 0x80. Proof. intros H A. destruct (point_cases a b H) as [<-|[_ B]]; assumption. Qed.
Lemma form_same c w c' : utf8_of c w -> same_point c c' -> exists w', utf8_of c' w' /\ same_points w w'.
Proof.
  intros H E. destruct (utf8_high c w H) as [[-> L]|[G _]].
  - exists [c']. split; [constructor; exact (low_point c c' E L)|]. constructor; [exact E|constructor].
  - destruct (point_cases c c' E) as [<-|[A _]]; [|lia]. exists w. split; [exact H|apply points_refl].
Qed.
Lemma reads_same l cs ok : reads8 l cs ok -> forall m, same_points l m -> exists ds, reads8 m ds ok /\ same_points cs ds.
Proof.
  induction 1 as [|c w us cs ok U R IH|p b us cs ok P N1 N2 R IH|p P I]; intros m M.
  - inversion M; subst. exists []. split; constructor.
  - destruct (app_points _ _ _ M) as (w' & us' & -> & W & US). destruct (IH _ US) as (ds & R' & D).
    destruct (utf8_high c w U) as [[-> L]|[G HW]].
    + inversion W as [|? c' ? ? E W0]; subst. inversion W0; subst. exists (c' :: ds). split; [|now constructor]. apply (r8_good c' [c']); [constructor; exact (low_point c c' E L)|exact R'].
    + rewrite (high_same w w' HW W). exists (c :: ds). split; [now constructor|]. constructor; [reflexivity|exact D].
  - destruct (app_points _ _ _ M) as (p' & us0 & -> & W & US0). inversion US0 as [|? b' ? us' E US]; subst. destruct (IH _ US) as (ds & R' & D).
    assert (HP : Forall (fun x => 0x80 <= x) p). { destruct P as [->|P]; [constructor|]. apply Forall_forall. intros x X. exact (incomplete_high p x P X). }
    rewrite (high_same p p' HP W). exists (fffd :: ds). split; [|constructor; [reflexivity|exact D]].
    destruct (point_cases b b' E) as [<-|[L L']]; [now apply (r8_bad p b us' ds ok)|]. apply (r8_bad p b' us' ds ok); auto.
    + intros I. assert (K : 0x80 <= b') by (apply (incomplete_high _ b' I); apply in_or_app; right; now left). lia.
    + intros [c C]. destruct P as [->|P].
      * cbn [app] in *. apply N2. exists b. now constructor.
      * destruct (utf8_high _ _ C) as [[K _]|[_ K]].
        -- destruct p as [|x [|y p]]; [|discriminate K|discriminate K]. apply N2. exists b. now constructor.
        -- apply Forall_app in K. pose proof (Forall_inv (proj2 K)). cbv beta in *. lia.
  - assert (HP : Forall (fun x => 0x80 <= x) p) by (apply Forall_forall; intros x X; exact (incomplete_high p x I X)). rewrite (high_same p m HP M).
    exists [fffd]. split; [now apply r8_truncated|apply points_refl].
Qed.
Lemma reads32_same l cs ok : reads32 l cs ok -> forall m, same_points l m -> exists ds, reads32 m ds ok /\ same_points cs ds.
Proof.
  assert (SC : forall a b, same_point a b -> scalar a -> scalar b) by (intros a b E S; destruct (point_cases a b E) as [<-|[_ B]]; [exact S|left; lia]).
  induction 1 as [|c us cs ok S R IH|c us cs ok S R IH]; intros m M; [inversion M; subst; exists []; split; constructor| |].
  - inversion M as [|? c' ? m' E M']; subst. destruct (IH _ M') as (ds & R' & D). exists (c' :: ds). split; [|now constructor]. constructor; [exact (SC _ _ E S)|exact R'].
  - inversion M as [|? c' ? m' E M']; subst. destruct (IH _ M') as (ds & R' & D). exists (fffd :: ds). split; [|constructor; [reflexivity|exact D]]. apply (r32_bad c' m' ds ok); [|exact R'].
    intros K. apply S. apply (SC c' c); [unfold same_point in *; congruence|exact K].
Qed.
Lemma write_same cs w : text utf8_of cs w -> forall ds v, same_points cs ds -> text utf8_of ds v -> same_points w v.
Proof.
  induction 1 as [|c w cs us U T IH]; intros ds v E V.
  - inversion E; subst. inversion V; subst. constructor.
  - inversion E as [|? c' ? ds' E1 E2]; subst. inversion V as [|? w' ? us' U' V']; subst. apply points_app; [|now apply (IH ds')].
    destruct (form_same c w c' U E1) as (w2 & U2 & S). rewrite (utf8_fun _ _ _ U' U2). exact S.
Qed.
Lemma points_text s t : same_points (map code s) (map code t) -> same_text s t.
Proof.
  revert t. induction s as [|a s IH]; intros [|b t] H; inversion H as [|? ? ? ? E F]; subst; constructor; [|now apply IH].
  unfold same_letter. rewrite !point_code in E. apply (f_equal chr) in E. unfold chr, code in E. now rewrite !ascii_N_embedding in E.
Qed.

(* --- labels --- *)
Section Labels.
Context {A : Type} (d : A) (R : A -> A -> Prop).
Hypothesis R_dot : forall a b, R a b -> (a = d <-> b = d).
Lemma not_in_same x y : Forall2 R x y -> ~ In d x -> ~ In d y.
Proof.
  induction 1 as [|a b x y H F IH]; intros N; [exact N|]. intros [->|I]; [apply N; left; now apply (R_dot a d H)|]. apply IH; [|exact I]. intros K. apply N. now right.
Qed.
Lemma joined_same ls : forall l s', Forall2 R (joined d l ls) s' -> exists l' ls', s' = joined d l' ls' /\ Forall2 (Forall2 R) (l :: ls) (l' :: ls').
Proof.
  induction ls as [|m ls IH]; intros l s' F; cbn [joined] in F; [exists s', []; split; [reflexivity|constructor; [exact F|constructor]]|].
  apply Forall2_app_inv_l in F. destruct F as (l' & r & F1 & F2 & ->). inversion F2 as [|? e ? s2 E F3]; subst. assert (e = d) by (now apply (R_dot d e E)). subst e.
  destruct (IH _ _ F3) as (m' & ls' & -> & G). exists l', (m' :: ls'). split; [reflexivity|]. now constructor.
Qed.
Lemma labels_same s s' ls ls' : Forall2 R s s' -> labels d s ls -> labels d s' ls' -> Forall2 (Forall2 R) ls ls'.
Proof.
  intros F (l & r & -> & -> & N) H'. destruct (joined_same r l s' F) as (l' & r' & E & G). replace ls' with (l' :: r'); [exact G|].
  eapply labels_fun; [|exact H']. exists l', r'. split; [reflexivity|]. split; [exact E|]. clear - G N R_dot. revert N. generalize (l :: r), (l' :: r'), G. clear l r l' r' G.
  intros x y G. induction G as [|a b x y H F IH]; intros N; constructor; [exact (not_in_same a b H (Forall_inv N))|apply IH, (Forall_inv_tail N)].
Qed.
Lemma joined_rel l ls l' ls' : R d d -> Forall2 (Forall2 R) (l :: ls) (l' :: ls') -> Forall2 R (joined d l ls) (joined d l' ls').
Proof.
  intros D F. inversion F as [|? ? ? ? H G]; subst. clear F. revert l l' H. induction G as [|x y ls ls' XY G IH]; intros l l' H; cbn [joined]; [exact H|].
  apply Forall2_app; [exact H|]. constructor; [exact D|]. now apply IH.
Qed.
End Labels.
Lemma dot_letter a b : same_letter a b -> (a = dot <-> b = dot).
Proof. intros H. pose proof (dot_lower a b H) as E. unfold dot. rewrite <- !Ascii.eqb_eq, E. reflexivity. Qed.
Lemma dot_point a b : same_point a b -> (a = dot32 <-> b = dot32).
Proof.
  unfold same_point, lower_point, dot32. destruct (N.leb_spec 65 a), (N.leb_spec a 90), (N.leb_spec 65 b), (N.leb_spec b 90); cbn [andb]; lia.
Qed.

(* --- encoding --- *)
Lemma ascii_same u v : same_points u v -> ascii_only u -> ascii_only v.
Proof. intros H. induction H as [|a b u v E F IH]; intros A; constructor; [exact (low_point a b E (Forall_inv A))|apply IH, (Forall_inv_tail A)]. Qed.
Lemma points_sym u v : same_points u v -> same_points v u. Proof. rewrite !points_map. congruence. Qed.
Lemma not_ascii u : ~ ascii_only u -> exists c, In c u /\ 0x80 <= c.
Proof.
  induction u as [|a u IH]; intros N; [elim N; constructor|]. destruct (N.lt_ge_cases a 0x80) as [L|G]; [|exists a; split; [now left|exact G]].
  destruct IH as (c & C & G); [|exists c; split; [now right|exact G]]. intros A. apply N. now constructor.
Qed.
Lemma label_enc_same u v e f : N.of_nat (length u) < 2 ^ 32 -> (forall c, In c u -> c < 2 ^ 32) -> N.of_nat (length v) < 2 ^ 32 -> (forall c, In c v -> c < 2 ^ 32) ->
  same_points u v -> label_encoded u e -> label_encoded v f -> same_text e f.
Proof.
  intros LU BU LV BV P [[A E]|[A (q & Q & ->)]] [[B F]|[B (r & Q' & ->)]].
  - apply points_text. now rewrite E, F.
  - elim B. exact (ascii_same u v P A).
  - elim A. exact (ascii_same v u (points_sym u v P) B).
  - apply CaseFacts.text_app; [apply CaseFacts.text_refl|]. destruct (c35 u true LU BU (or_intror (not_ascii u A))) as (x & bx & X & _ & UX). destruct (c35 v true LV BV (or_intror (not_ascii v B))) as (y & by' & Y & _ & UY).
    rewrite (UX q Q), (UY r Q'). pose proof (encode_sim u v true P) as K. rewrite X, Y in K. inversion K as [? ? [H _]| |]. exact H.
Qed.
Lemma label_in_length {A} (d : A) s ls x : labels d s ls -> In x ls -> (length x <= length s)%nat.
Proof. intros (l & r & -> & -> & _) H. now apply joined_label_length. Qed.
Lemma label_in_chars {A} (d : A) s ls x c : labels d s ls -> In x ls -> In c x -> In c s.
Proof.
  intros (l & r & -> & -> & _) H C. revert l H. induction r as [|m r IH]; intros l H; cbn [joined]; [destruct H as [<-|[]]; exact C|].
  apply in_or_app. destruct H as [<-|H]; [now left|right; right; now apply IH].
Qed.
Lemma scalars_small l cs ok c : reads8 l cs ok -> In c cs -> c < 2 ^ 32.
Proof. intros R I. pose proof (reads8_scalar _ _ _ R) as S. rewrite Forall_forall in S. destruct (S c I); lia. Qed.
Lemma f2_comb {A B} (P : A -> A -> Prop) (Q : A -> B -> Prop) (S : B -> B -> Prop) x y e f : Forall2 P x y -> Forall2 Q x e -> Forall2 Q y f ->
  (forall a b c d, In a x -> In b y -> P a b -> Q a c -> Q b d -> S c d) -> Forall2 S e f.
Proof.
  intros H. revert e f. induction H as [|a b x y AB H IH]; intros e f E F K; inversion E; inversion F; subst; constructor.
  - eapply (K a b); eauto; now left. - apply IH; auto. intros a0 b0 c0 d0 I J. apply K; now right.
Qed.
Lemma host_enc_same s t e f : short_text s -> short_text t -> same_text s t -> host_encoded s e -> host_encoded t f -> same_text e f.
Proof.
  intros SS ST ST0 (cs & ok & us & es & R & L & M & F) (cs' & ok' & us' & es' & R' & L' & M' & F').
  destruct (reads_same _ _ _ R _ (points_of s t ST0)) as (ds & R2 & D). destruct (reads8_fun _ _ _ _ _ (codes_small t) R' R2) as [-> ->].
  pose proof (labels_same dot32 same_point dot_point cs ds us us' D L L') as U.
  assert (E : Forall2 same_text es es').
  { eapply f2_comb; [exact U|exact F|exact F'|]. intros a b c d I J P Q Q'. cbv beta in *.
    pose proof (reads8_length _ _ _ R) as N1. pose proof (reads8_length _ _ _ R') as N2. rewrite map_length in N1, N2. pose proof (label_in_length _ _ _ _ L I). pose proof (label_in_length _ _ _ _ L' J).
    unfold short_text in *. apply (label_enc_same a b c d); try assumption; try lia.
    - intros x X. apply (scalars_small _ _ _ x R). exact (label_in_chars _ _ _ _ _ L I X).
    - intros x X. apply (scalars_small _ _ _ x R'). exact (label_in_chars _ _ _ _ _ L' J X). }
  destruct M as (l & ls & -> & -> & _). destruct M' as (l' & ls' & -> & -> & _). apply (joined_rel dot same_letter); [reflexivity|exact E].
Qed.
Lemma encodes_letters (P : ascii -> Prop) s e : (forall a b, same_letter a b -> a = b \/ (~ P a /\ ~ P b)) -> encodes P s e -> forall t f, same_text s t -> encodes P t f -> same_text e f.
Proof.
  intros H. induction 1 as [|c s e M E IH|c s e M E IH]; intros t f S F; inversion S as [|? d ? t' C S']; subst.
  - inversion F; subst. constructor.
  - destruct (H c d C) as [<-|[N _]]; [|contradiction]. inversion F; subst; [|contradiction]. apply CaseFacts.text_app; [apply CaseFacts.text_refl|]. eapply IH; eassumption.
  - destruct (H c d C) as [<-|[_ N]]; inversion F; subst; try contradiction; (constructor; [first [reflexivity|exact C]|eapply IH; eassumption]).
Qed.
Lemma field_letters f a b : f <> Host -> same_letter a b -> a = b \/ (~ field_set f a /\ ~ field_set f b).
Proof.
  intros N H. destruct (needs_same (es_of f) a b H) as [->|[A B]]; [now left|right].
  split; intros K; apply (needs_field_set f _ N) in K; unfold needs in K; [rewrite A in K|rewrite B in K]; discriminate.
Qed.
Lemma field_enc_same f s e t g : enc_step f s e -> enc_step f t g -> same_text s t -> same_text e g.
Proof.
  intros [E SE] [G SG] H. destruct f; try (eapply (encodes_letters (field_set _)); [|exact E|exact H|exact G]; intros a b; apply field_letters; discriminate).
  exact (host_enc_same s t e g (SE eq_refl) (SG eq_refl) H E G).
Qed.
Lemma parts_four (P Q : field -> str -> str -> Prop) (T S : field -> str -> str -> Prop) p q p' q' :
  (forall f s e t g, P f s e -> Q f t g -> T f s t -> S f e g) -> parts_rel P p p' -> parts_rel Q q q' -> parts_rel T p q -> parts_rel S p' q'.
Proof.
  intros H (A1 & A2 & A3 & A4 & A5 & A6) (B1 & B2 & B3 & B4 & B5 & B6) (C1 & C2 & C3 & C4 & C5 & C6).
  assert (O : forall f x x' y y', opt_rel (P f) x x' -> opt_rel (Q f) y y' -> opt_rel (T f) x y -> opt_rel (S f) x' y').
  { intros f x x' y y' X Y Z. destruct X as [|s e X], Y as [|t g Y]; inversion Z; subst; constructor. eapply H; eassumption. }
  split; [eapply O; eassumption|]. split; [|split; [congruence|split; [|split; eapply O; eassumption]]].
  - destruct A2 as [|a a' (X1 & X2 & X3)], B2 as [|b b' (Y1 & Y2 & Y3)]; inversion C2 as [|? ? (Z1 & Z2 & Z3)]; subst; constructor.
    split; [eapply O; eassumption|]. split; [eapply H; eassumption|eapply O; eassumption].
  - clear - A4 B4 C4 H. revert B4 C4. generalize (segments (p_path q)), (segments (p_path q')). induction A4 as [|s e l l' X F IH]; intros m m' B C; inversion C; subst; inversion B; subst; constructor.
    + eapply H; eassumption. + eapply IH; eassumption.
Qed.
Lemma encode_call_same p q p' q' : same_parts p q -> encode_call p p' -> encode_call q q' -> same_parts p' q'.
Proof.
  intros S P Q. apply encode_call_rel in P. apply encode_call_rel in Q. eapply (parts_four enc_step enc_step (fun _ => same_text)); [|exact P|exact Q|exact S].
  intros f s e t g X Y Z. eapply field_enc_same; eassumption.
Qed.

(* --- decoding --- *)
Lemma puny_same q r u v : short_text q -> short_text r -> same_text q r -> puny_text q u -> puny_text r v -> same_points u v.
Proof.
  intros SQ SR H U V. apply (decode_iff q u SQ) in U. apply (decode_iff r v SR) in V. pose proof (decode_sim q r H) as K. rewrite U, V in K. now inversion K.
Qed.
Lemma label_dec_same x y t w : short_text x -> short_text y -> same_text x y -> (has_prefix xn x <-> has_prefix xn y) -> label_decoded x t -> label_decoded y w -> same_text t w.
Proof.
  intros SX SY H M [[N ->]|(q & u & cs & ok & -> & P & R & T)] [[N' ->]|(q' & u' & cs' & ok' & -> & P' & R' & T')].
  - exact H.
  - elim N. apply M. now exists q'.
  - elim N'. apply M. now exists q.
  - assert (Q : same_text q q') by (apply (text_skipn 4) in H; exact H).
    assert (U : same_points u u').
    { apply (puny_same q q'); auto; unfold short_text in *; rewrite app_length in *; cbn [length] in *; lia. }
    destruct (reads32_same _ _ _ R _ U) as (ds & R2 & D). apply points_text. eapply write_same; [exact T|exact D|].
    replace ds with cs'; [exact T'|]. clear - R' R2. revert ok' cs' R'. induction R2 as [|c us cs ok S R IH|c us cs ok S R IH]; intros ok' cs' R'; inversion R'; subst; try contradiction; f_equal; eauto.
Qed.
Lemma host_dec_same s t d e : short_text s -> short_text t -> same_text s t -> same_marks s t -> host_decoded s d -> host_decoded t e -> same_text d e.
Proof.
  intros SS ST H M (es & ts & L & F & l & ls & -> & ->) (es' & ts' & L' & F' & l' & ls' & -> & ->).
  pose proof (labels_same dot same_letter dot_letter s t es es' H L L') as U. specialize (M es es' L L').
  apply (joined_rel dot same_letter); [reflexivity|].
  assert (UM : Forall2 (fun x y => same_text x y /\ (has_prefix xn x <-> has_prefix xn y)) es es') by (clear - U M; induction U; inversion M; subst; constructor; auto).
  eapply (f2_comb _ label_decoded); [exact UM|exact F|exact F'|]. intros a b c d I J [P1 P2] Q Q'. cbv beta in *.
  apply (label_dec_same a b c d); auto; unfold short_text in *; [pose proof (label_in_length _ _ _ _ L I)|pose proof (label_in_length _ _ _ _ L' J)]; lia.
Qed.
Definition dec_step (f : field) (s t : str) : Prop := decoded f s t /\ (f = Host -> short_text s).
Definition dec_pair (f : field) (s t : str) : Prop := same_text s t /\ (f = Host -> same_marks s t).
Lemma empty_same (s : str) : same_text [] s -> s = []. Proof. intros H. now inversion H. Qed.
Lemma field_dec_same f s e t g : dec_step f s e -> dec_step f t g -> dec_pair f s t -> same_text e g.
Proof.
  intros [E SE] [G SG] [H M].
  destruct f; try (destruct (decodes_same s e E t H) as (g' & G' & S); replace g with g'; [exact S|]; destruct (PropPct.C18_total t) as (x & _ & X); rewrite (X g' G'); symmetry; exact (X g G)).
  specialize (SE eq_refl). specialize (SG eq_refl). specialize (M eq_refl). destruct E as [[E NE]|[E ->]], G as [[G NG]|[G ->]].
  - eapply (host_dec_same s t); eassumption.
  - elim NE. apply empty_same, CaseFacts.text_sym. eapply (host_dec_same s t); eassumption.
  - elim NG. apply empty_same. eapply (host_dec_same s t); eassumption.
  - exact H.
Qed.
Lemma decode_call_step p q : decode_call p q -> parts_rel dec_step p q.
Proof.
  intros D. pose proof (decode_call_rel p q D) as R. destruct D as (grow & store & vp & st & vq & P & S & _ & _).
  pose proof (proper_short _ _ _ P S) as H. destruct R as (R1 & R2 & R3 & R4 & R5 & R6).
  assert (G : forall f s e, f <> Host -> decoded f s e -> dec_step f s e) by (intros f s e N X; split; [exact X|intros K; now elim N]).
  assert (O : forall f o o', f <> Host -> opt_rel (decoded f) o o' -> opt_rel (dec_step f) o o') by (intros f o o' N X; destruct X; constructor; auto).
  split; [apply O; [discriminate|exact R1]|]. split; [|split; [exact R3|split; [|split; (apply O; [discriminate|assumption])]]].
  - unfold short_hosts in H. destruct R2 as [|a b (B1 & B2 & B3)]; constructor. split; [apply O; [discriminate|exact B1]|]. split; [|apply O; [discriminate|exact B3]]. split; [exact B2|]. intros _. now apply H.
  - clear - R4 G. induction R4; constructor; auto. apply G; [discriminate|assumption].
Qed.
Lemma pairs p q : same_parts p q -> same_host_marks p q -> parts_rel dec_pair p q.
Proof.
  intros (R1 & R2 & R3 & R4 & R5 & R6) H. unfold same_host_marks in H.
  assert (G : forall f s e, f <> Host -> same_text s e -> dec_pair f s e) by (intros f s e N X; split; [exact X|intros K; now elim N]).
  assert (O : forall f o o', f <> Host -> opt_rel same_text o o' -> opt_rel (dec_pair f) o o') by (intros f o o' N X; destruct X; constructor; auto).
  split; [apply O; [discriminate|exact R1]|]. split; [|split; [exact R3|split; [|split; (apply O; [discriminate|assumption])]]].
  - destruct R2 as [|a b (B1 & B2 & B3)]; constructor. split; [apply O; [discriminate|exact B1]|]. split; [|apply O; [discriminate|exact B3]]. split; [exact B2|]. intros _. now apply H.
  - clear - R4 G. induction R4; constructor; auto. apply G; [discriminate|assumption].
Qed.
Lemma decode_call_same p q p' q' : same_parts p q -> same_host_marks p q -> decode_call p p' -> decode_call q q' -> same_parts p' q'.
Proof.
  intros S M P Q. apply decode_call_step in P. apply decode_call_step in Q. eapply (parts_four dec_step dec_step dec_pair (fun _ => same_text)); [|exact P|exact Q|now apply pairs].
  intros f s e t g X Y Z. eapply field_dec_same; eassumption.
Qed.
Lemma f2_pair {A B} (P : A -> B -> Prop) l m x : Forall2 P l m -> In x l -> exists y, In y m /\ P x y.
Proof. intros F. induction F as [|a b l m H F IH]; intros I; [destruct I|]. destruct I as [<-|I]; [exists b; split; [now left|exact H]|]. destruct (IH I) as (y & J & K). exists y. split; [now right|exact K]. Qed.
Lemma undecodable_same s t d : short_text s -> short_text t -> same_text s t -> same_marks s t -> host_undecodable s -> ~ host_decoded t d.
Proof.
  intros SS ST H M (es & l & L & I & Px & N) (es' & ts & L' & F & _).
  pose proof (labels_same dot same_letter dot_letter s t es es' H L L') as U. specialize (M es es' L L').
  assert (UM : Forall2 (fun x y => same_text x y /\ (has_prefix xn x <-> has_prefix xn y)) es es') by (clear - U M; induction U; inversion M; subst; constructor; auto).
  destruct (f2_pair _ _ _ _ UM I) as (m & J & E & X). destruct (f2_pair _ _ _ _ F J) as (w & _ & [[W _]|(q & u & cs & ok & W & P & _)]); [apply W, X, Px|].
  pose proof (label_in_length _ _ _ _ L I) as LI. pose proof (label_in_length _ _ _ _ L' J) as LJ. unfold short_text in *.
  assert (Q : same_text (skipn 4 l) q) by (subst m; apply (text_skipn 4) in E; exact E).
  assert (Sq : (N.of_nat (length q) < 2 ^ 32)) by (subst m; rewrite app_length in LJ; lia).
  assert (Sl : (N.of_nat (length (skipn 4 l)) < 2 ^ 32)) by (rewrite skipn_length; lia).
  apply (decode_iff q u Sq) in P. pose proof (decode_sim _ _ Q) as K. rewrite P in K. inversion K as [a b R Ea Eb| |]. destruct a as [v|e]; [|destruct R].
  apply (N v). apply (decode_iff _ v Sl). now symmetry.
Qed.
Lemma decode_fails_same p q r : same_parts p q -> same_host_marks p q -> decode_fails p -> ~ decode_call q r.
Proof.
  intros S M (grow & store & vp & st & e & P & Sh & F) Q. destruct (c26_decode grow store vp P) as [U _].
  destruct (proj1 U (ex_intro _ st (ex_intro _ e F))) as (a & s & Ea & Eh & Un). pose proof (proper_short _ _ _ P Sh) as SP. destruct P as (Out & _).
  destruct (shows_host _ _ _ _ _ Out Sh Ea Eh) as (b & Eb & Es). apply decode_call_step in Q. destruct Q as (_ & Q & _). destruct S as (_ & S & _). rewrite Eb in S.
  inversion S as [|b0 c (_ & S2 & _) E1 E2]. subst b0. rewrite <- E2 in Q. inversion Q as [|c0 d (_ & [Q1 Q2] & _) E3 E4]. subst c0.
  specialize (M b c Eb (eq_sym E2)). specialize (SP b Eb). specialize (Q2 eq_refl). subst s.
  destruct Q1 as [[Q1 _]|[Q1 _]]; eapply (undecodable_same (ModelUri.host b) (ModelUri.host c)); eassumption.
Qed.
