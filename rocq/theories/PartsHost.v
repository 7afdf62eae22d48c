(* puny_encoded and puny_decoded (ModelParts) in the words of SpecStore. *)
From Verif Require Import Base ModelUri ModelAlgo ModelParts SpecPct SpecPuny SpecIcu SpecStore.
From Verif Require Import AlgoFacts PctFacts PunyProps PunyLoop IcuUtf8 IcuRead8 IcuEnc IcuProps.
From Verif Require ModelPuny ModelIcu.
Local Open Scope list_scope.

(* --- labels --- *)
Lemma joined_snoc_length {A} (d : A) ls : forall l, length ls <= length (joined d l ls).
Proof. induction ls as [|l' ls IH]; intros l; cbn [joined length]; [lia|]. rewrite app_length. cbn [length]. specialize (IH l'). lia. Qed.
Lemma take_while_joined {A} (p : A -> bool) d l ls : p d = false -> Forall (fun x => p x = true) l ->
  take_while p (joined d l ls) = (l, match ls with [] => [] | l' :: ls' => d :: joined d l' ls' end).
Proof.
  intros Hd Hl. destruct ls as [|l' ls]; cbn [joined].
  - induction Hl as [|x l Hx _ IH]; cbn; [reflexivity|]. now rewrite Hx, IH.
  - generalize (joined d l' ls); intros r. induction Hl as [|x l Hx _ IH]; cbn; [now rewrite Hd|]. now rewrite Hx, IH.
Qed.
Lemma labels_exist {A} (dec : forall x y : A, {x = y} + {x <> y}) (d : A) s : exists l ls, labels d s (l :: ls).
Proof.
  induction s as [|x s (l & ls & l0 & ls0 & E & Es & F)].
  - exists [], [], [], []. repeat split. constructor; [intros []|constructor].
  - injection E as <- <-. inversion F as [|? ? Hl Hls]; subst. destruct (dec x d) as [->|Hx].
    + exists [], (l :: ls), [], (l :: ls). repeat split. constructor; [intros []|exact F].
    + exists (x :: l), ls, (x :: l), ls. split; [reflexivity|]. split; [destruct ls; reflexivity|].
      constructor; [|exact Hls]. intros [->|H]; contradiction.
Qed.
Lemma joined_inj {A} (d : A) ls : forall l m ms, ~ In d l -> Forall (fun x => ~ In d x) ls -> ~ In d m -> Forall (fun x => ~ In d x) ms ->
  joined d l ls = joined d m ms -> l :: ls = m :: ms.
Proof.
  assert (C : forall (l m r t : list A), ~ In d l -> ~ In d m -> l ++ d :: r = m ++ d :: t -> l = m /\ r = t).
  { induction l as [|x l IH]; intros [|y m] r t Hl Hm E; cbn in E; injection E; intros; subst.
    - auto. - elim Hm; left; reflexivity. - elim Hl; left; reflexivity.
    - destruct (IH m r t) as [-> ->]; auto; intros H'; [apply Hl|apply Hm]; right; exact H'. }
  induction ls as [|l' ls IH]; intros l m [|m' ms] Hl Fl Hm Fm E; cbn [joined] in E.
  - congruence.
  - elim Hl. rewrite E. apply in_or_app. right. left. reflexivity.
  - elim Hm. rewrite <- E. apply in_or_app. right. left. reflexivity.
  - apply C in E as [-> E]; auto. inversion Fl; inversion Fm; subst. f_equal. apply IH; assumption.
Qed.
Lemma labels_fun {A} (d : A) s ls ms : labels d s ls -> labels d s ms -> ls = ms.
Proof.
  intros (l & ls' & -> & -> & F) (m & ms' & -> & E & G). inversion F; inversion G; subst. eapply joined_inj; eassumption.
Qed.
Lemma joined_in {A} (d : A) (P : A -> Prop) ls : forall l, Forall P (joined d l ls) <-> Forall (Forall P) (l :: ls) /\ (ls <> [] -> P d).
Proof.
  induction ls as [|l' ls IH]; intros l; cbn [joined].
  - split; [intros H; split; [repeat constructor; exact H|contradiction]|]. intros [H _]. now inversion H.
  - rewrite Forall_app, Forall_cons_iff, IH. split.
    + intros (H1 & H2 & H3 & H4). split; [|auto]. constructor; auto.
    + intros [H1 H2]. inversion H1; subst. split; [assumption|]. split; [apply H2; discriminate|]. split; [assumption|]. intros _. apply H2. discriminate.
Qed.
Lemma joined_label_length {A} (d : A) ls x : forall l, In x (l :: ls) -> length x <= length (joined d l ls).
Proof.
  induction ls as [|l' ls IH]; intros l H; cbn [joined].
  - destruct H as [->|[]]. lia.
  - rewrite app_length. cbn [length]. destruct H as [->|H]; [lia|]. specialize (IH l' H). lia.
Qed.

(* --- characters --- *)
Lemma not_dot_true c : is_not_dot c = true <-> c <> dot32.
Proof. unfold is_not_dot, dot32. rewrite negb_true_iff, N.eqb_neq. reflexivity. Qed.
Lemma code_dot c : code c = dot32 <-> c = dot.
Proof. unfold dot32, dot. split; [|intros ->; reflexivity]. intros H. rewrite <- (chr_code c), H. reflexivity. Qed.
Lemma no_dot32 l : ~ In dot32 l -> Forall (fun x => is_not_dot x = true) l.
Proof. intros H. apply Forall_forall. intros x Hx. apply not_dot_true. intros ->. contradiction. Qed.
Lemma no_dot l : ~ In dot l -> Forall (fun x => is_not_dot (code x) = true) l.
Proof. intros H. apply Forall_forall. intros x Hx. apply not_dot_true. intros E. apply code_dot in E. subst. contradiction. Qed.
Lemma map_code_chr l : Forall (fun u => (u < 256)%N) l -> map code (map chr l) = l.
Proof. induction 1 as [|u l H _ IH]; [reflexivity|]. cbn. now rewrite code_chr, IH. Qed.
Lemma map_chr_code l : map chr (map code l) = l.
Proof. induction l as [|c l IH]; [reflexivity|]. cbn. now rewrite chr_code, IH. Qed.
Lemma codes_small s : Forall (fun u => (u < 2 ^ 8)%N) (map code s).
Proof. apply Forall_forall. intros u H. apply in_map_iff in H as (c & <- & _). apply code_lt. Qed.

(* --- encoding one label --- *)
Lemma ascii_only_dec u : {ascii_only u} + {~ ascii_only u}.
Proof. apply Forall_dec. intros c. destruct (N.ltb c 0x80) eqn:E; [left; now apply N.ltb_lt|right; apply N.ltb_ge in E; lia]. Qed.
Lemma ascii_iff u : (exists c, In c u /\ (0x80 <= c)%N) <-> ~ ascii_only u.
Proof.
  unfold ascii_only. split.
  - intros (c & Hc & H) F. rewrite Forall_forall in F. specialize (F c Hc). lia.
  - induction u as [|c u IH]; intros H; [elim H; constructor|].
    destruct (N.ltb_spec c 0x80); [|exists c; split; [left; reflexivity|assumption]].
    destruct IH as (x & Hx & L); [intros F; apply H; constructor; assumption|]. exists x. split; [right; exact Hx|exact L].
Qed.
Lemma ascii_filter u : ascii_only u -> filter (fun c => (c <? 0x80)%N) u = u.
Proof. induction 1 as [|c u H _ IH]; [reflexivity|]. cbn. apply N.ltb_lt in H. now rewrite H, IH. Qed.
Lemma encode_label u : (N.of_nat (length u) < 2 ^ 32)%N -> (forall c, In c u -> (c < 2 ^ 32)%N) ->
  exists e b, ModelPuny.encode u true = Ok (e, b) /\ (b = true <-> ~ ascii_only u) /\ label_encoded u (if b then xn ++ e else e)
  /\ (~ In dot32 u -> ~ In dot (if b then xn ++ e else e)).
Proof.
  intros Hl Hu. destruct (c20 u true Hl Hu) as (e & b & E & Hb & Hp & Hs & _). exists e, b. split; [exact E|].
  rewrite ascii_iff in Hb. split; [exact Hb|].
  assert (ND : ~ In dot32 u -> ~ In dot (map chr (filter (fun c => (c <? 0x80)%N) u))).
  { intros Hd H. apply in_map_iff in H as (c & Ec & Hc). apply filter_In in Hc as [Hc L]. apply N.ltb_lt in L. apply Hd.
    assert (X : c = dot32); [|now subst]. rewrite <- (code_chr c) by lia. rewrite Ec. reflexivity. }
  destruct b.
  - destruct (c35 u true Hl Hu) as (e' & b' & E' & P & _); [right; apply ascii_iff, Hb; reflexivity|]. rewrite E in E'. injection E' as <- <-.
    split; [right; split; [now apply Hb|exists e; auto]|]. intros Hd. specialize (ND Hd). destruct Hs as (digits & -> & Hdig); [auto|].
    cbn [In app xn ss list_ascii_of_string]. intros H. repeat (destruct H as [H|H]; [discriminate H|]). apply in_app_or in H as [H|H].
    + destruct (map chr _); [destruct H|]. apply in_app_or in H as [H|[H|[]]]; [contradiction|discriminate H].
    + specialize (Hdig _ H). cbn in Hdig. repeat (destruct Hdig as [Hdig|Hdig]; [discriminate Hdig|]). exact Hdig.
  - assert (A : ascii_only u).
    { destruct (ascii_only_dec u) as [A|A]; [exact A|]. exfalso. assert (false = true) by (apply Hb; exact A). discriminate. }
    rewrite (Hp eq_refl eq_refl) in *. rewrite ascii_filter in * by exact A. split; [left; split; [exact A|]|exact ND].
    apply map_code_chr. eapply Forall_impl; [|exact A]. cbn. intros; lia.
Qed.

(* --- encoding a host --- *)
Definition short (u : list N) : Prop := (N.of_nat (length u) < 2 ^ 32)%N /\ forall c, In c u -> (c < 2 ^ 32)%N.
Definition some_non_ascii (us : list (list N)) : Prop := exists u, In u us /\ ~ ascii_only u.
Lemma puny_encoded_loop_spec ls : forall l fuel out any, length ls < fuel -> Forall short (l :: ls) -> Forall (fun x => ~ In dot32 x) (l :: ls) ->
  exists e es b, puny_encoded_loop fuel (joined dot32 l ls) out any = Ok (out ++ joined dot e es, any || b)
  /\ Forall2 label_encoded (l :: ls) (e :: es) /\ Forall (fun x => ~ In dot x) (e :: es) /\ (b = true <-> some_non_ascii (l :: ls)).
Proof.
  induction ls as [|l' ls IH]; intros l [|fuel] out any Hf Hs Hd; try (cbn in Hf; lia); cbn [puny_encoded_loop].
  - rewrite take_while_joined; [|reflexivity|apply no_dot32; now inversion Hd]. inversion Hs as [|? ? [Hl Hu] _]; subst. inversion Hd as [|? ? Hdl _]; subst.
    destruct (encode_label l Hl Hu) as (e & b & E & Hb & L & ND). rewrite E. cbn [bind].
    exists (if b then xn ++ e else e), [], b. cbn [joined]. split; [|split; [apply Forall2_cons; [exact L|apply Forall2_nil]|split; [apply Forall_cons; [auto|apply Forall_nil]|]]].
    + destruct b; [rewrite <- app_assoc, orb_true_r|rewrite orb_false_r]; reflexivity.
    + rewrite Hb. unfold some_non_ascii. split; [intros N; exists l; split; [left; reflexivity|exact N]|]. intros (u & [<-|[]] & N). exact N.
  - rewrite take_while_joined; [|reflexivity|apply no_dot32; now inversion Hd]. inversion Hs as [|? ? [Hl Hu] Hs']; subst. inversion Hd as [|? ? Hdl Hd']; subst.
    destruct (encode_label l Hl Hu) as (e & b & E & Hb & L & ND). rewrite E. cbn [bind].
    destruct (IH l' fuel ((if b then out ++ idna_prefix else out) ++ e ++ [dot]) (if b then true else any)) as (e' & es & b' & E' & F & FD & Hb');
      [cbn in Hf; lia|assumption|assumption|]. rewrite <- app_assoc. change (["."%char]) with [dot]. rewrite E'.
    exists (if b then xn ++ e else e), (e' :: es), (b || b'). split; [|split; [constructor; assumption|split; [constructor; auto|]]].
    + cbn [joined]. destruct b; cbn [orb]; rewrite ?orb_true_r, <- ?app_assoc; reflexivity.
    + rewrite orb_true_iff, Hb, Hb'. unfold some_non_ascii. split.
      * intros [N|(u & Hu' & N)]; [exists l; split; [left; reflexivity|exact N]|exists u; split; [right; exact Hu'|exact N]].
      * intros (u & [<-|Hu'] & N); [left; exact N|right; eauto].
Qed.
Lemma reads8_length us cs ok : reads8 us cs ok -> length cs <= length us.
Proof.
  induction 1 as [|c w us cs ok F _ IH|p b us cs ok _ _ _ _ IH|p Hp _]; cbn [length]; rewrite ?app_length; cbn [length]; try lia.
  - apply utf8_nonempty in F. destruct w; [contradiction|]. cbn. lia.
  - destruct p; [contradiction|cbn; lia].
Qed.
Lemma utf8_ascii c w : utf8_of c w -> (c < 0x80)%N -> w = [c].
Proof. intros F L. inversion F; subst; try lia; try reflexivity. Qed.
Lemma utf8_multi c w : utf8_of c w -> (0x80 <= c)%N -> Forall (fun u => (0x80 <= u)%N) w.
Proof. intros F L. inversion F; subst; try lia; repeat (apply Forall_cons; [lia|]); apply Forall_nil. Qed.
Lemma incomplete_high p x : incomplete8 p -> In x p -> (0x80 <= x)%N.
Proof.
  intros (c & v & Hv & F) Hx. destruct (N.ltb_spec c 0x80) as [L|L].
  - apply utf8_ascii in F; [|exact L]. destruct p as [|y p]; [destruct Hx|]. destruct p; destruct v; try discriminate; contradiction.
  - apply (utf8_multi c) in F; [|exact L]. apply Forall_app in F as [F _]. rewrite Forall_forall in F. apply F, Hx.
Qed.
Lemma reads8_ascii us cs ok : reads8 us cs ok -> (ascii_only us -> cs = us) /\ (ascii_only cs -> ascii_only us).
Proof.
  unfold ascii_only. induction 1 as [|c w us cs ok F _ [IH1 IH2]|p b us cs ok Hp _ Hn _ [IH1 IH2]|p Hp Hi].
  - auto.
  - split.
    + intros H. apply Forall_app in H as [H1 H2]. destruct (N.ltb_spec c 0x80) as [L|L].
      * rewrite (utf8_ascii c w F L). cbn. f_equal. auto.
      * apply (utf8_multi c w F) in L. pose proof (utf8_nonempty c w F). destruct w; [contradiction|]. inversion H1; inversion L; subst. lia.
    + intros H. inversion H as [|? ? Hc Hcs]; subst. rewrite (utf8_ascii c w F Hc). apply Forall_app. split; [apply Forall_cons; [exact Hc|apply Forall_nil]|auto].
  - split.
    + intros H. exfalso. apply Forall_app in H as [H1 H2]. inversion H2 as [|? ? Hb _]; subst. destruct p as [|x p].
      * apply Hn. exists b. apply utf8_1. exact Hb.
      * destruct Hp as [Hp|Hp]; [discriminate|]. inversion H1; subst. pose proof (incomplete_high _ x Hp (or_introl eq_refl)). lia.
    + intros H. inversion H; subst. unfold fffd in *. lia.
  - split.
    + intros H. destruct p as [|x p]; [contradiction|]. inversion H; subst. pose proof (incomplete_high _ x Hi (or_introl eq_refl)). lia.
    + intros H. inversion H; subst. unfold fffd in *. lia.
Qed.
Lemma convert_ok s : exists cs ok, convert_to_utf32 s = Ok cs /\ reads8 (map code s) cs ok.
Proof.
  destruct (views _ _ _ (map code s) view_8_32 (codes_small s)) as (cs & ok & T & V). apply transcode_8_32 in T; [|apply codes_small].
  exists cs, ok. split; [|exact T]. unfold convert_to_utf32. rewrite V; [reflexivity|]. apply reads8_length in T. rewrite map_length in T. lia.
Qed.
Definition short_text (s : str) : Prop := (N.of_nat (length s) < 2 ^ 32)%N.
Lemma ascii_joined us : forall u, ascii_only (joined dot32 u us) <-> ~ some_non_ascii (u :: us).
Proof.
  intros u. unfold ascii_only at 1. rewrite joined_in. split.
  - intros [F _] (x & Hx & N). rewrite Forall_forall in F. apply N, F, Hx.
  - intros H. split; [|reflexivity]. apply Forall_forall. intros x Hx.
    destruct (ascii_only_dec x) as [A|A]; [exact A|]. elim H. exists x. auto.
Qed.
Lemma puny_encoded_spec s : short_text s -> exists cs e b, convert_to_utf32 s = Ok cs /\ puny_encoded cs = Ok (e, b)
  /\ host_encoded s e /\ (b = true <-> ~ ascii_only (map code s)) /\ (b = true -> e <> []).
Proof.
  intros H. destruct (convert_ok s) as (cs & ok & C & R). destruct (labels_exist N.eq_dec dot32 cs) as (u & us & u0 & us0 & E & Ecs & F).
  injection E as <- <-. subst cs. pose proof (reads8_scalar _ _ _ R) as SC. pose proof (reads8_length _ _ _ R) as LL. rewrite map_length in LL.
  destruct (puny_encoded_loop_spec us u (S (length (joined dot32 u us))) [] false) as (e & es & b & P & L & D & Hb).
  - pose proof (joined_snoc_length dot32 us u). lia.
  - apply Forall_forall. intros x Hx. split.
    + pose proof (joined_label_length dot32 us x u Hx). unfold short_text in H. lia.
    + intros c Hc. apply joined_in in SC as [SC _]. rewrite Forall_forall in SC. specialize (SC x Hx). rewrite Forall_forall in SC. specialize (SC c Hc).
      unfold scalar in SC. change (2 ^ 32)%N with 4294967296%N. lia.
  - exact F.
  - exists (joined dot32 u us), (joined dot e es), b. split; [exact C|]. split; [exact P|]. split.
    + exists (joined dot32 u us), ok, (u :: us), (e :: es). split; [exact R|]. split; [exists u, us; auto|]. split; [exists e, es; auto|exact L].
    + destruct (reads8_ascii _ _ _ R) as [R1 R2].
      assert (X : some_non_ascii (u :: us) <-> ~ ascii_only (map code s)).
      { split.
        - intros S A. specialize (R1 A). rewrite <- R1 in A. apply ascii_joined in A. contradiction.
        - intros A. destruct b; [now apply Hb|]. exfalso. apply A, R2, ascii_joined. rewrite <- Hb. discriminate. }
      split; [rewrite Hb; exact X|]. intros ->. destruct (proj1 Hb eq_refl) as (x & Hx & N).
      intros E. clear - L E Hx N. destruct es as [|e' es]; cbn [joined] in E; [|destruct e; discriminate]. subst e.
      inversion L as [|? ? ? ? L1 L2]; subst. inversion L2; subst. destruct Hx as [<-|[]]. destruct L1 as [[A _]|[_ (q & _ & X)]]; [contradiction|discriminate].
Qed.
Lemma host_encoded_ascii s : ascii_only (map code s) -> host_encoded s s.
Proof.
  intros A. destruct (labels_exist ascii_dec dot s) as (l & ls & l0 & ls0 & E & Es & F). injection E as <- <-.
  exists (map code s), true, (map (map code) (l :: ls)), (l :: ls). repeat split.
  - apply reads8_true. clear - A. induction A as [|c u H _ IH]; [constructor|]. change (c :: u) with ([c] ++ u) at 2. constructor; [apply utf8_1; exact H|exact IH].
  - exists (map code l), (map (map code) ls). split; [reflexivity|]. split.
    + rewrite Es. clear. revert l. induction ls as [|l' ls IH]; intros l; cbn [joined map]; [reflexivity|]. rewrite map_app. cbn [map]. now rewrite IH.
    + apply Forall_forall. intros x Hx. apply in_map_iff in Hx as (y & <- & Hy). intros Hd. apply in_map_iff in Hd as (c & Ec & Hc). apply code_dot in Ec. subst c.
      rewrite Forall_forall in F. exact (F y Hy Hc).
  - exists l, ls. auto.
  - assert (X : Forall (fun l => ascii_only (map code l)) (l :: ls)).
    { rewrite Es in A. unfold ascii_only in *. rewrite Forall_map in A. apply joined_in in A as [A _]. eapply Forall_impl; [|exact A]. intros x Hx. apply Forall_map. exact Hx. }
    clear - X. induction X as [|x xs Hx _ IH]; cbn; constructor; [left; auto|exact IH].
Qed.
