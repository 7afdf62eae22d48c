(* Soundness and completeness of PEG parsers with respect to ABNF languages: generic part. *)
From Verif Require Import Base ModelRule ModelUri Peg PegUri.
From Verif Require Rfc3986.
Import Rfc3986 (L, abnf, Rng, Lit, Cat, Alt, Rep, lower).
From Coq Require Import ZifyBool ZifyNat ZifyN.

Local Notation concat := List.concat.
Notation acts := (list (action * str)).
Definition rel := str -> acts -> Prop.
Local Notation parser := (Peg.parser action).
Local Notation pseq := (Peg.pseq action).
Local Notation pact := (Peg.pact action).
Local Notation popt := (Peg.popt action).
Local Notation palts := (Peg.palts action).
Local Notation pstar := (Peg.pstar action).
Local Notation prep := (Peg.prep action).
Local Notation pchr := (Peg.pchr action).

Definition sound (p : parser) (R : rel) := forall s m a r, p s = Some (m, a, r) -> R m a.
Definition complete (p : parser) (R : rel) (F : str -> Prop) :=
  forall m a r, R m a -> F r -> p (m ++ r) = Some (m, a, r).

Definition rseq (R1 R2 : rel) : rel := fun m a =>
  exists m1 m2 a1 a2, m = m1 ++ m2 /\ a = a1 ++ a2 /\ R1 m1 a1 /\ R2 m2 a2.
Definition ract (R : rel) g : rel := fun m a => exists a0, R m a0 /\ a = a0 ++ [(g, m)].
Definition ropt (R : rel) : rel := fun m a => R m a \/ (m = [] /\ a = []).
Definition rstar (min : nat) (max : option nat) (R : rel) : rel := fun m a =>
  exists l : list (str * acts), m = concat (map fst l) /\ a = concat (map snd l) /\ Forall (fun x => R (fst x) (snd x)) l
            /\ min <= length l /\ match max with None => True | Some n => length l <= n end.
Definition rlang (g : abnf) : rel := fun m a => L g m /\ a = [].

(* r does not start with a character of the class *)
Definition nohd (f : ascii -> bool) (r : str) : Prop :=
  match r with [] => True | c :: _ => f c = false end.
Definition any (r : str) : Prop := True.

Lemma nohd_imp (f g : ascii -> bool) r : (forall c, g c = true -> f c = true) -> nohd f r -> nohd g r.
Proof.
  intros H. destruct r as [|c r]; cbn; auto. intros Hf. destruct (g c) eqn:E; auto.
  apply H in E. congruence.
Qed.
Lemma nohd_imp_b (f g : ascii -> bool) r :
  forallb (fun c => implb (g c) (f c)) all_ascii = true -> nohd f r -> nohd g r.
Proof.
  intros H. apply nohd_imp. intros c Hc. pose proof (sweep _ H c) as Hs. cbn in Hs.
  rewrite Hc in Hs. exact Hs.
Qed.

(* --- soundness ------------------------------------------------------------ *)
Lemma sound_imp p (R R' : rel) : sound p R -> (forall m a, R m a -> R' m a) -> sound p R'.
Proof. intros H HR s m a r E. eauto. Qed.
Lemma sound_seq p q R1 R2 : sound p R1 -> sound q R2 -> sound (pseq p q) (rseq R1 R2).
Proof.
  intros H1 H2 s m a r. unfold Peg.pseq, oseq.
  destruct (p s) as [[[m1 a1] r1]|] eqn:E1; [|discriminate].
  destruct (q r1) as [[[m2 a2] r2]|] eqn:E2; [|discriminate].
  intros H; inv H. exists m1, m2, a1, a2. eauto 6.
Qed.
Lemma sound_act p R g : sound p R -> sound (pact p g) (ract R g).
Proof.
  intros H s m a r. unfold Peg.pact. destruct (p s) as [[[m1 a1] r1]|] eqn:E; [|discriminate].
  intros E'; inv E'. exists a1. eauto.
Qed.
Lemma sound_opt p R : sound p R -> sound (popt p) (ropt R).
Proof.
  intros H s m a r. unfold Peg.popt. destruct (p s) as [[[m1 a1] r1]|] eqn:E; intros E'; inv E'.
  - left; eauto. - right; auto.
Qed.
Lemma sound_alts ps (R : rel) : Forall (fun p => sound p R) ps -> sound (palts ps) R.
Proof.
  induction 1 as [|p ps Hp _ IH]; intros s m a r; cbn; [discriminate|].
  destruct (p s) as [[[m1 a1] r1]|] eqn:E; intros E'; [inv E'|]; eauto.
Qed.
Lemma sound_prep p R n : sound p R -> forall s m a k r, prep n p s = (m, a, k, r) ->
  exists l : list (str * acts), m = concat (map fst l) /\ a = concat (map snd l) /\ Forall (fun x => R (fst x) (snd x)) l
            /\ k = length l /\ k <= n.
Proof.
  intros Hp. induction n as [|n IH]; cbn; intros s m a k r H.
  - inv H. exists []. repeat split; auto.
  - destruct (p s) as [[[m1 a1] r1]|] eqn:E.
    + destruct (prep n p r1) as [[[m2 a2] k2] r2] eqn:E2. inv H.
      destruct (IH _ _ _ _ _ E2) as (l & -> & -> & Hl & -> & Hn).
      exists ((m1, a1) :: l). cbn. repeat split; auto; [constructor; eauto; cbn; eauto|lia].
    + inv H. exists []. repeat split; auto; lia.
Qed.
Lemma sound_star p R min max : sound p R -> sound (pstar min max p) (rstar min max R).
Proof.
  intros Hp s m a r. unfold Peg.pstar.
  destruct (prep _ p s) as [[[m1 a1] k] r1] eqn:E. destruct (Nat.ltb_spec k min); intros H'; inv H'.
  destruct (sound_prep _ _ _ Hp _ _ _ _ _ E) as (l & -> & -> & Hl & -> & Hn).
  exists l. repeat split; auto. destruct max; auto.
Qed.

(* --- completeness --------------------------------------------------------- *)
Lemma complete_imp p (R R' : rel) (F F' : str -> Prop) : complete p R F ->
  (forall m a, R' m a -> R m a) -> (forall r, F' r -> F r) -> complete p R' F'.
Proof. intros H HR HF m a r Hm Hr. apply H; auto. Qed.
Lemma complete_seq p q R1 R2 (F1 F2 : str -> Prop) : complete p R1 F1 -> complete q R2 F2 ->
  (forall m a r, R2 m a -> F2 r -> F1 (m ++ r)) -> complete (pseq p q) (rseq R1 R2) F2.
Proof.
  intros H1 H2 H3 m a r (m1 & m2 & a1 & a2 & -> & -> & Hm1 & Hm2) Hr.
  unfold Peg.pseq, oseq. rewrite <- app_assoc, (H1 _ _ _ Hm1); [|eauto].
  now rewrite (H2 _ _ _ Hm2).
Qed.
Lemma complete_act p R g F : complete p R F -> complete (pact p g) (ract R g) F.
Proof.
  intros H m a r (a0 & Hm & ->) Hr. unfold Peg.pact. now rewrite (H _ _ _ Hm Hr).
Qed.
Lemma complete_opt p R (F : str -> Prop) : complete p R F -> (forall r, F r -> p r = None) ->
  complete (popt p) (ropt R) F.
Proof.
  intros H H0 m a r [Hm|[-> ->]] Hr; unfold Peg.popt.
  - now rewrite (H _ _ _ Hm Hr). - cbn. now rewrite H0.
Qed.
Lemma complete_prep p (R : rel) (F : str -> Prop) : complete p R F ->
  (forall m a r, R m a -> F (m ++ r)) ->
  forall l r n, Forall (fun x => R (fst x) (snd x)) l -> F r -> (p r = None \/ n = length l) ->
  length l <= n ->
  prep n p (concat (map fst l) ++ r) = (concat (map fst l), concat (map snd l), length l, r).
Proof.
  intros H HF l. induction l as [|[m a] l IH]; cbn; intros r n Hl Hr Hs Hn.
  - destruct n as [|n]; cbn; auto. destruct Hs as [->|]; [auto|discriminate].
  - destruct n as [|n]; [lia|]. inv Hl. cbn in *. rewrite <- app_assoc.
    rewrite (H m a); auto.
    + rewrite IH; [reflexivity|assumption|assumption|destruct Hs; [left; assumption|right; lia]|lia].
    + destruct l as [|[m2 a2] l2]; auto. inv H3. cbn in *. rewrite <- app_assoc. eauto.
Qed.
Lemma complete_star_max p (R : rel) (F : str -> Prop) min n : complete p R F ->
  (forall m a r, R m a -> F (m ++ r)) -> (forall r, F r -> p r = None) ->
  complete (pstar min (Some n) p) (rstar min (Some n) R) F.
Proof.
  intros H HF Hs m a r (l & -> & -> & Hl & Hmin & Hmax) Hr. unfold Peg.pstar.
  rewrite (complete_prep p R F); auto.
  destruct (Nat.ltb_spec (length l) min); [lia|reflexivity].
Qed.
(* exactly n repetitions: nothing is needed of what follows beyond F *)
Lemma complete_star_exact p (R : rel) (F : str -> Prop) n : complete p R F ->
  (forall m a r, R m a -> F (m ++ r)) ->
  complete (pstar n (Some n) p) (rstar n (Some n) R) F.
Proof.
  intros H HF m a r (l & -> & -> & Hl & Hmin & Hmax) Hr. unfold Peg.pstar.
  rewrite (complete_prep p R F); auto; [|right; lia].
  destruct (Nat.ltb_spec (length l) n); [lia|reflexivity].
Qed.
Lemma concat_length_ge (R : rel) l : (forall m a, R m a -> m <> []) ->
  Forall (fun x : str * acts => R (fst x) (snd x)) l -> length l <= length (concat (map fst l)).
Proof.
  intros HR. induction 1 as [|[m a] l Hx _ IH]; cbn; auto. rewrite app_length. apply HR in Hx.
  cbn in Hx. destruct m; [congruence|]. cbn. lia.
Qed.
Lemma complete_star p (R : rel) (F : str -> Prop) min : complete p R F ->
  (forall m a, R m a -> m <> []) -> (forall m a r, R m a -> F (m ++ r)) -> (forall r, F r -> p r = None) ->
  complete (pstar min None p) (rstar min None R) F.
Proof.
  intros H Hne HF Hs m a r (l & -> & -> & Hl & Hmin & _) Hr. unfold Peg.pstar.
  rewrite (complete_prep p R F); auto.
  - destruct (Nat.ltb_spec (length l) min); [lia|reflexivity].
  - rewrite app_length. pose proof (concat_length_ge R l Hne Hl). lia.
Qed.

(* --- ABNF languages -------------------------------------------------------- *)
Lemma rlang_cat g h m a : rseq (rlang g) (rlang h) m a <-> rlang (Cat g h) m a.
Proof.
  split.
  - intros (m1 & m2 & a1 & a2 & -> & -> & [H1 ->] & [H2 ->]). split; auto. cbn. eauto.
  - intros [(s1 & s2 & -> & H1 & H2) ->]. exists s1, s2, [], []. unfold rlang. auto.
Qed.
Lemma rlang_rep g min max m a : rstar min max (rlang g) m a <-> rlang (Rep min max g) m a.
Proof.
  split.
  - intros (l & -> & -> & Hl & H1 & H2). split.
    + cbn. exists (map fst l). rewrite map_length. repeat split; auto.
      clear H1 H2. induction Hl as [|x l [Hx _] _ IH]; cbn; constructor; auto.
    + clear H1 H2. induction Hl as [|x l [_ Hx] _ IH]; cbn; auto. now rewrite Hx, IH.
  - intros [(l & -> & Hl & H1 & H2) ->]. exists (map (fun x => (x, [])) l).
    rewrite map_map, map_length. cbn. rewrite map_id. repeat split; auto.
    + clear. induction l; cbn; auto.
    + clear H1 H2. induction Hl; cbn; constructor; auto. cbn. split; auto.
Qed.
Lemma rlang_imp g h m a : (L g m -> L h m) -> rlang g m a -> rlang h m a.
Proof. intros H [H1 H2]. split; auto. Qed.

(* single-character grammars *)
Fixpoint cls (g : abnf) : option (ascii -> bool) :=
  match g with
  | Rng lo hi => Some (fun c => (lo <=? code c)%N && (code c <=? hi)%N)
  | Lit (String x EmptyString) => Some (fun c => Ascii.eqb (lower c) (lower x))
  | Alt a b => match cls a, cls b with Some f, Some h => Some (fun c => f c || h c) | _, _ => None end
  | _ => None
  end.
Lemma cls_spec g : forall f s, cls g = Some f -> (L g s <-> exists c, s = [c] /\ f c = true).
Proof.
  induction g as [lo hi|l|a IHa b IHb|a IHa b IHb|mi ma a IHa]; cbn; intros f s H; try discriminate.
  - inv H. split; intros (c & -> & Hc); exists c; split; auto; lia.
  - destruct l as [|x [|y l]]; try discriminate. inv H. cbn. split.
    + destruct s as [|c [|d s]]; cbn; try discriminate. intros H; inv H. exists c. split; auto.
      apply Ascii.eqb_eq. auto.
    + intros (c & -> & Hc). apply Ascii.eqb_eq in Hc. cbn. congruence.
  - destruct (cls a) as [fa|]; [|discriminate]. destruct (cls b) as [fb|]; [|discriminate]. inv H.
    rewrite (IHa _ s eq_refl), (IHb _ s eq_refl). split.
    + intros [(c & -> & Hc)|(c & -> & Hc)]; exists c; split; auto; rewrite Hc; auto using orb_true_r.
    + intros (c & -> & Hc). apply orb_prop in Hc. destruct Hc; [left|right]; eauto.
Qed.
Definition same_cls (g : abnf) (f : ascii -> bool) : bool :=
  match cls g with Some h => forallb (fun c => Bool.eqb (h c) (f c)) all_ascii | None => false end.
Lemma L_cls g f : same_cls g f = true -> forall s, L g s <-> exists c, s = [c] /\ f c = true.
Proof.
  unfold same_cls. destruct (cls g) as [h|] eqn:E; [|discriminate]. intros H s.
  rewrite (cls_spec _ _ s E). split; intros (c & -> & Hc); exists c; split; auto;
    pose proof (sweep _ H c) as Hx; cbn in Hx; apply eqb_prop in Hx; congruence.
Qed.

Lemma sound_chr g f : same_cls g f = true -> sound (pchr f) (rlang g).
Proof.
  intros H [|c s] m a r; cbn; [discriminate|]. destruct (f c) eqn:E; [|discriminate].
  intros E'; inv E'. split; auto. apply (L_cls _ _ H). eauto.
Qed.
Lemma complete_chr g f : same_cls g f = true -> complete (pchr f) (rlang g) any.
Proof.
  intros H m a r [Hm ->] _. apply (L_cls _ _ H) in Hm. destruct Hm as (c & -> & Hc). cbn. now rewrite Hc.
Qed.
Lemma fail_chr f r : nohd f r -> pchr f r = None.
Proof. destruct r as [|c r]; cbn; auto. now intros ->. Qed.

(* elements: a character of a class, or a percent-encoded triplet *)
Definition elem (f : ascii -> bool) : parser := fun s =>
  match s with
  | c :: r =>
    if f c then Some ([c], [], r)
    else if ch 0x25 c then
      match r with
      | h1 :: h2 :: r' => if b_hex h1 && b_hex h2 then Some ([c; h1; h2], [], r') else None
      | _ => None
      end
    else None
  | [] => None
  end.
Definition elemL (f : ascii -> bool) (m : str) : Prop :=
  (exists c, m = [c] /\ f c = true) \/
  (exists h1 h2, m = ["%"%char; h1; h2] /\ b_hex h1 = true /\ b_hex h2 = true).
Definition efirst (f : ascii -> bool) (c : ascii) : bool := f c || ch 0x25 c.

Lemma ch_spec n c : (n <? 256)%N = true -> ch n c = true <-> c = chr n.
Proof.
  intros Hn. unfold ch, code, chr. split.
  - intros H. rewrite <- (ascii_N_embedding c). f_equal. lia.
  - intros ->. rewrite N_ascii_embedding; lia.
Qed.
Lemma g_pct_eq s : g_pct s = match s with
  | c :: h1 :: h2 :: r => if ch 0x25 c && b_hex h1 && b_hex h2 then Some ([c; h1; h2], [], r) else None
  | _ => None end.
Proof.
  unfold g_pct, g_ch, g_hex, Peg.pseq, oseq, Peg.pchr.
  destruct s as [|c [|h1 [|h2 r]]]; auto.
  - destruct (ch 37 c); auto. - destruct (ch 37 c); auto. destruct (b_hex h1); auto.
  - destruct (ch 37 c); auto. destruct (b_hex h1); auto. destruct (b_hex h2); auto.
Qed.
Lemma sound_elem f : sound (elem f) (fun m a => elemL f m /\ a = []).
Proof.
  intros [|c s] m a r; cbn; [discriminate|]. destruct (f c) eqn:E.
  - intros H; inv H. split; auto. left; eauto.
  - destruct (ch 37 c) eqn:Ec; [|discriminate]. apply ch_spec in Ec; [|reflexivity].
    destruct s as [|h1 [|h2 s]]; try discriminate.
    destruct (b_hex h1 && b_hex h2) eqn:Eh; [|discriminate]. apply andb_prop in Eh.
    intros H; inv H. split; auto. right. exists h1, h2. tauto.
Qed.
Lemma complete_elem f : f "%"%char = false -> complete (elem f) (fun m a => elemL f m /\ a = []) any.
Proof.
  intros Hf m a r [[(c & -> & Hc)|(h1 & h2 & -> & H1 & H2)] ->] _; cbn.
  - now rewrite Hc. - now rewrite Hf, H1, H2.
Qed.
Lemma fail_elem f r : nohd (efirst f) r -> elem f r = None.
Proof.
  destruct r as [|c r]; cbn; auto. unfold efirst. intros H. apply orb_false_elim in H.
  destruct H as [-> ->]. auto.
Qed.
Lemma elemL_nonempty f m : elemL f m -> m <> [].
Proof. intros [(c & -> & _)|(h1 & h2 & -> & _)]; congruence. Qed.

(* a parser that behaves as elem f, for a grammar whose words are elemL f *)
Definition is_elem (p : parser) (g : abnf) (f : ascii -> bool) :=
  (forall s, p s = elem f s) /\ (forall m, L g m <-> elemL f m) /\ f "%"%char = false.
Lemma elem_sound p g f : is_elem p g f -> sound p (rlang g).
Proof.
  intros (H1 & H2 & _) s m a r E. rewrite H1 in E. apply sound_elem in E. destruct E as [E ->].
  split; auto. now apply H2.
Qed.
Lemma elem_star_sound p g f min : is_elem p g f -> sound (pstar min None p) (rlang (Rep min None g)).
Proof.
  intros H. eapply sound_imp; [apply sound_star; eapply elem_sound; eauto|].
  intros m a. apply rlang_rep.
Qed.
Lemma elem_star_complete p g f min : is_elem p g f ->
  complete (pstar min None p) (rlang (Rep min None g)) (nohd (efirst f)).
Proof.
  intros (H1 & H2 & H3). apply complete_imp with (R := rstar min None (fun m a => elemL f m /\ a = []))
    (F := nohd (efirst f)); auto.
  2:{ intros m a H. apply rlang_rep in H. destruct H as (l & -> & -> & Hl & Hm & Hx). exists l.
      repeat split; auto. eapply Forall_impl; [|exact Hl]. intros x [Hx1 Hx2]. split; auto. now apply H2. }
  intros m a r (l & -> & -> & Hl & Hmin & _) Hr. unfold Peg.pstar.
  rewrite (complete_prep p (fun m a => elemL f m /\ a = []) any); auto.
  - destruct (Nat.ltb_spec (length l) min); [lia|reflexivity].
  - intros m a r' Hm _. rewrite H1. apply complete_elem; auto. exact I.
  - intros; exact I.
  - exact I.
  - left. rewrite H1. now apply fail_elem.
  - rewrite app_length.
    pose proof (concat_length_ge (fun m a => elemL f m /\ a = []) l
                  (fun m a H => elemL_nonempty f m (proj1 H)) Hl). lia.
Qed.
(* single-character bodies *)
Lemma chr_star_sound g f min max : same_cls g f = true ->
  sound (pstar min max (pchr f)) (rlang (Rep min max g)).
Proof.
  intros H. eapply sound_imp; [apply sound_star; eapply sound_chr; eauto|].
  intros m a. apply rlang_rep.
Qed.
Lemma chr_star_complete g f min max : same_cls g f = true ->
  complete (pstar min max (pchr f)) (rlang (Rep min max g)) (nohd f).
Proof.
  intros H m a r Hm Hr. apply rlang_rep in Hm.
  destruct Hm as (l & -> & -> & Hl & Hmin & Hmax). unfold Peg.pstar.
  assert (Hne : forall m a, rlang g m a -> m <> []).
  { intros m a [Hm _]. apply (L_cls _ _ H) in Hm. destruct Hm as (c & -> & _). congruence. }
  rewrite (complete_prep (pchr f) (rlang g) any); auto.
  - destruct (Nat.ltb_spec (length l) min); [lia|reflexivity].
  - now apply complete_chr.
  - intros; exact I.
  - exact I.
  - left. now apply fail_chr.
  - destruct max; auto. rewrite app_length.
    pose proof (concat_length_ge (rlang g) l Hne Hl). lia.
Qed.
