(* C60-C62: routes, sizes and order of transcoded text. *)
From Verif Require Import Base ModelIcu SpecIcu IcuUtf8 IcuRead8 IcuEnc IcuView IcuViewAll IcuByte IcuProps SpecRoute.
From Coq Require Import Lia.
Local Open Scope N_scope.
Local Open Scope list_scope.

Definition reads (a : enc) : list N -> list N -> bool -> Prop := match a with U8 => reads8 | U16 => reads16 | U32 => reads32 end.
Lemma conv a b : converts (tc a b) (reads a) (form b) (2 ^ bits a).
Proof.
  destruct a, b; cbn [tc reads form bits];
  first [apply conv_8_8|apply conv_8_16|apply conv_8_32|apply conv_16_8|apply conv_16_16|apply conv_16_32|apply conv_32_8|apply conv_32_16|apply conv_32_32].
Qed.
Lemma form_fun b : functional (form b).
Proof. destruct b; [apply utf8_fun|apply utf16_fun|apply utf32_fun]. Qed.
Lemma form_text_fun b cs x y : text (form b) cs x -> text (form b) cs y -> x = y.
Proof. intros X Y. eapply text_fun; [apply form_fun|exact X|exact Y]. Qed.
Lemma text_units b cs us : text (form b) cs us -> units b us.
Proof. destruct b; [apply text_units8|apply text_units16|apply text_units32]. Qed.
Lemma text_reads b cs us : text (form b) cs us <-> reads b us cs true.
Proof.
  destruct b; cbn [form reads].
  - symmetry. apply reads8_true.
  - symmetry. apply reads16_true.
  - rewrite text32, reads32_true. split; intros [-> H]; auto.
Qed.
Lemma reads_fun a l : units a l -> forall cs cs' k k', reads a l cs k -> reads a l cs' k' -> cs = cs' /\ k = k'.
Proof.
  intros B cs cs' k k' R R'.
  assert (S : forall c q, reads a l c q -> transcode (tc a U32) l = Ok (c, q)).
  { intros c q Q. apply (conv a U32 l B). exists c. split; [exact Q|]. apply text32. split; [reflexivity|].
    destruct a; [eapply reads8_scalar|eapply reads16_scalar|eapply reads32_scalar]; exact Q. }
  pose proof (S _ _ R) as E. rewrite (S _ _ R') in E. injection E as -> ->. auto.
Qed.

Lemma route a b c l out ok : units a l ->
  (transcode (tc a c) l = Ok (out, ok) <-> exists mid, transcode (tc a b) l = Ok (mid, ok) /\ transcode (tc b c) mid = Ok (out, true)).
Proof.
  intros B. split.
  - intros E. apply (conv a c l B) in E. destruct E as (cs & R & X). destruct (proj1 (conv a b l B)) as (mid & k & M). pose proof M as M'.
    apply (conv a b l B) in M'. destruct M' as (cs' & R' & X'). destruct (reads_fun a l B _ _ _ _ R R') as [-> ->].
    exists mid. split; [exact M|]. apply (conv b c mid (text_units _ _ _ X')). exists cs'. split; [apply text_reads; exact X'|exact X].
  - intros (mid & M & E). apply (conv a b l B) in M. destruct M as (cs & R & X). apply (conv b c mid (text_units _ _ _ X)) in E. destruct E as (cs' & R' & X').
    apply text_reads in X. destruct (reads_fun b mid) with (1 := text_units _ _ _ (proj2 (text_reads _ _ _) X)) (2 := X) (3 := R') as [-> _].
    apply (conv a c l B). exists cs'. auto.
Qed.
Lemma fixed a b l out ok : units a l -> transcode (tc a b) l = Ok (out, ok) -> units b out /\ transcode (tc b b) out = Ok (out, true).
Proof.
  intros B E. apply (conv a b l B) in E. destruct E as (cs & _ & X). pose proof (text_units _ _ _ X) as U. split; [exact U|].
  apply (conv b b out U). exists cs. split; [apply text_reads; exact X|exact X].
Qed.
Lemma returns a b l out : units a l -> transcode (tc a b) l = Ok (out, true) -> transcode (tc b a) out = Ok (l, true).
Proof.
  intros B E. apply (conv a b l B) in E. destruct E as (cs & R & X). apply (conv b a out (text_units _ _ _ X)). exists cs. split; [apply text_reads; exact X|].
  apply text_reads. exact R.
Qed.
Lemma flag a b l out : units a l -> (transcode (tc a b) l = Ok (out, true) <-> exists cs, text (form a) cs l /\ text (form b) cs out).
Proof.
  intros B. rewrite (proj2 (conv a b l B)). split; intros (cs & R & X); exists cs; (split; [apply text_reads; exact R|exact X]).
Qed.

(* sizes *)
Lemma text_len b cs us : text (form b) cs us -> (length cs <= length us)%nat.
Proof.
  induction 1 as [|c w cs us F _ IH]; [auto|]. rewrite app_length. cbn [length].
  assert (1 <= length w)%nat; [|lia]. destruct b; inversion F; subst; cbn [length]; lia.
Qed.
Lemma utf8_len c w : utf8_of c w -> (1 <= length w <= 4)%nat.
Proof. intros U; inversion U; subst; cbn [length]; lia. Qed.
Lemma fffd_form b w : form b fffd w -> length w = match b with U8 => 3%nat | _ => 1%nat end.
Proof. unfold fffd. destruct b; intros U; inversion U; subst; cbn [length]; try reflexivity; lia. Qed.
Lemma len_8_8 c w w' : utf8_of c w -> utf8_of c w' -> length w' = length w.
Proof. intros A B. rewrite (utf8_fun _ _ _ A B). reflexivity. Qed.
Lemma inc_len p : incomplete8 p -> (length p <= 3)%nat.
Proof. intros (c & v & N & U). apply utf8_len in U. rewrite app_length in U. destruct v; [congruence|cbn [length] in U; lia]. Qed.

(* for every piece: input length x, output length y *)
Definition room (a b : enc) (x y : nat) : Prop := (y <= most a b * x /\ snd (least a b) * x <= fst (least a b) * y)%nat.
Lemma room_add a b x y x' y' : room a b x y -> room a b x' y' -> room a b (x + x') (y + y').
Proof. unfold room. destruct (least a b) as [p q]. cbn [fst snd]. nia. Qed.
Lemma room_good a b c w w' : form a c w -> form b c w' -> room a b (length w) (length w').
Proof.
  intros A B. unfold room. destruct a, b; cbn [form most least fst snd] in *; inversion A; subst; inversion B; subst; cbn [length]; unfold scalar in *; lia.
Qed.
Lemma room_bad8 b w x : form b fffd w -> (1 <= x <= 4)%nat -> room U8 b x (length w).
Proof. intros F H. apply fffd_form in F. unfold room. destruct b; cbn [most least fst snd]; lia. Qed.
Lemma room_bad a b w : form b fffd w -> room a b 1 (length w).
Proof. intros F. apply fffd_form in F. unfold room. destruct a, b; cbn [most least fst snd]; lia. Qed.
Lemma room_0 a b : room a b 0 0. Proof. unfold room. destruct a, b; cbn; lia. Qed.
Ltac text_inv X := match type of X with text _ (_ :: _) _ => inversion X as [|? ? ? ? Fx Tx]; subst; clear X end.
Lemma room_reads a b l cs ok : reads a l cs ok -> forall out, text (form b) cs out -> room a b (length l) (length out).
Proof.
  destruct a; cbn [reads].
  - induction 1 as [|c w us cs ok U _ IH|p b0 us cs ok P _ _ _ IH|p N I]; intros out X.
    + inversion X; subst. apply room_0.
    + text_inv X. rewrite !app_length. apply room_add; [apply (room_good U8 b c); assumption|apply IH; assumption].
    + text_inv X. rewrite !app_length. cbn [length]. replace (length p + S (length us))%nat with (S (length p) + length us)%nat by lia.
      apply room_add; [|apply IH; assumption]. apply room_bad8; [assumption|]. destruct P as [->|P]; [cbn; lia|apply inc_len in P; lia].
    + text_inv X. inversion Tx; subst. rewrite app_nil_r. apply room_bad8; [assumption|]. apply inc_len in I. destruct p; [congruence|cbn [length] in *; lia].
  - induction 1 as [|c w us cs ok U _ IH|u us cs ok _ _ IH|u us cs ok _ _ _ IH]; intros out X.
    + inversion X; subst. apply room_0.
    + text_inv X. rewrite !app_length. apply room_add; [apply (room_good U16 b c); assumption|apply IH; assumption].
    + text_inv X. rewrite app_length. change (length (u :: us)) with (1 + length us)%nat. apply room_add; [apply room_bad; assumption|apply IH; assumption].
    + text_inv X. rewrite app_length. change (length (u :: us)) with (1 + length us)%nat. apply room_add; [apply room_bad; assumption|apply IH; assumption].
  - induction 1 as [|c us cs ok U _ IH|c us cs ok _ _ IH]; intros out X.
    + inversion X; subst. apply room_0.
    + text_inv X. rewrite app_length. change (length (c :: us)) with (length [c] + length us)%nat. apply room_add; [apply (room_good U32 b c); [constructor; exact U|assumption]|apply IH; assumption].
    + text_inv X. rewrite app_length. change (length (c :: us)) with (1 + length us)%nat. apply room_add; [apply room_bad; assumption|apply IH; assumption].
Qed.
Lemma sizes a b l out ok : units a l -> transcode (tc a b) l = Ok (out, ok) -> room a b (length l) (length out).
Proof. intros B E. apply (conv a b l B) in E. destruct E as (cs & R & X). exact (room_reads a b l cs ok R out X). Qed.

(* the bounds are attained for every length *)
Lemma repeat_text a c w : form a c w -> forall n, text (form a) (repeat c n) (List.concat (repeat w n)).
Proof. intros F. induction n as [|n IH]; cbn [repeat List.concat]; constructor; assumption. Qed.
Lemma concat_len {A} (w : list A) n : length (List.concat (repeat w n)) = (n * length w)%nat.
Proof. induction n as [|n IH]; [reflexivity|]. cbn [repeat List.concat]. rewrite app_length, IH. cbn. lia. Qed.
Lemma good_sizes a b c w v n : form a c w -> form b c v -> exists l out, units a l /\ transcode (tc a b) l = Ok (out, true) /\ length l = (n * length w)%nat /\ length out = (n * length v)%nat.
Proof.
  intros F G. exists (List.concat (repeat w n)), (List.concat (repeat v n)). pose proof (repeat_text a c w F n) as X. pose proof (text_units _ _ _ X) as U. split; [exact U|].
  split; [|rewrite !concat_len; auto]. apply (flag a b _ _ U). exists (repeat c n). split; [exact X|apply repeat_text; exact G].
Qed.
Lemma not_form p : (forall c v, utf8_of c v -> forall x, v <> p ++ x) -> ~ incomplete8 p /\ ~ exists c, utf8_of c p.
Proof.
  intros H. split.
  - intros (c & v & _ & U). exact (H _ _ U v eq_refl).
  - intros (c & U). apply (H _ _ U []). symmetry. apply app_nil_r.
Qed.
Lemma bad_sizes b p x v n : p = [] \/ incomplete8 p -> (forall c w, utf8_of c w -> forall y, w <> (p ++ [x]) ++ y) -> units U8 (p ++ [x]) -> form b fffd v ->
  exists l out ok, units U8 l /\ transcode (tc U8 b) l = Ok (out, ok) /\ length l = (n * length (p ++ [x]))%nat /\ length out = (n * length v)%nat.
Proof.
  intros P X U F. apply not_form in X. destruct X as [X1 X2].
  assert (R : exists ok, reads8 (List.concat (repeat (p ++ [x]) n)) (repeat fffd n) ok).
  { induction n as [|n (ok & IH)]; cbn [repeat List.concat]; [exists true; constructor|]. exists false. rewrite <- app_assoc. cbn [app]. eapply r8_bad; eassumption. }
  destruct R as (ok & R). exists (List.concat (repeat (p ++ [x]) n)), (List.concat (repeat v n)), ok.
  assert (B : units U8 (List.concat (repeat (p ++ [x]) n))).
  { unfold units in *. clear - U. induction n as [|n IH]; cbn [repeat List.concat]; [constructor|]. apply Forall_app. split; assumption. }
  split; [exact B|]. split; [|rewrite !concat_len; auto]. apply (conv U8 b _ B). exists (repeat fffd n). split; [exact R|apply repeat_text; exact F].
Qed.
Lemma bits8 l : Forall (fun u => u < 256) l -> units U8 l. Proof. intros H. exact H. Qed.
Lemma f8_fffd : utf8_of fffd [0xEF; 0xBF; 0xBD].
Proof. apply (utf8_3 0xFFFD); [lia|lia|right; lia]. Qed.
Lemma f16_fffd : utf16_of fffd [0xFFFD]. Proof. apply (utf16_1 0xFFFD); [lia|right; lia]. Qed.
Lemma f32_fffd : utf32_of fffd [0xFFFD]. Proof. apply (utf32_1 0xFFFD); right; lia. Qed.
Lemma fform b : exists v, form b fffd v /\ length v = match b with U8 => 3%nat | _ => 1%nat end.
Proof. destruct b; eexists; (split; [first [apply f8_fffd|apply f16_fffd|apply f32_fffd]|reflexivity]). Qed.
Lemma bad_ff c w : utf8_of c w -> forall y, w <> ([] ++ [0xFF]) ++ y.
Proof. intros U y E. apply utf8_row in U. rewrite E in U. cbn [app] in U. inversion U; unfold between in *; lia. Qed.
Lemma bad_4 c w : utf8_of c w -> forall y, w <> ([0xF0; 0x90; 0x80] ++ [0x41]) ++ y.
Proof. intros U y E. apply utf8_row in U. rewrite E in U. cbn [app] in U. inversion U; unfold between in *; lia. Qed.
Lemma inc_4 : incomplete8 [0xF0; 0x90; 0x80].
Proof. exists 0x10000, [0x80]. split; [discriminate|]. exact (utf8_4 0x10000 ltac:(lia) ltac:(lia)). Qed.
Lemma f8_A : utf8_of 0x41 [0x41]. Proof. apply utf8_1. lia. Qed.
Lemma f16_A : utf16_of 0x41 [0x41]. Proof. apply utf16_1; [lia|left; lia]. Qed.
Lemma f32_A : utf32_of 0x41 [0x41]. Proof. apply utf32_1. left. lia. Qed.
Lemma f8_x : utf8_of 0x10000 [0xF0; 0x90; 0x80; 0x80]. Proof. exact (utf8_4 0x10000 ltac:(lia) ltac:(lia)). Qed.
Lemma f16_x : utf16_of 0x10000 [0xD800; 0xDC00]. Proof. exact (utf16_2 0x10000 ltac:(lia) ltac:(lia)). Qed.
Lemma f32_x : utf32_of 0x10000 [0x10000]. Proof. apply utf32_1. right. lia. Qed.
Lemma most_attained a b n : exists l out ok, units a l /\ transcode (tc a b) l = Ok (out, ok) /\ length l = n /\ length out = (most a b * n)%nat.
Proof.
  assert (K : forall c w v, form a c w -> form b c v -> length w = 1%nat -> length v = most a b ->
    exists l out ok, units a l /\ transcode (tc a b) l = Ok (out, ok) /\ length l = n /\ length out = (most a b * n)%nat).
  { intros c w v F G Lw Lv. destruct (good_sizes a b c w v n F G) as (l & out & U & E & L1 & L2). exists l, out, true. split; [exact U|]. split; [exact E|]. rewrite L1, L2, Lw, Lv. lia. }
  destruct a, b.
  - destruct (bad_sizes U8 [] 0xFF _ n (or_introl eq_refl) bad_ff ltac:(apply bits8; constructor; [lia|constructor]) f8_fffd) as (l & out & ok & U & E & L1 & L2).
    exists l, out, ok. split; [exact U|]. split; [exact E|]. rewrite L1, L2. cbn [length app most]. lia.
  - exact (K _ _ _ f8_A f16_A eq_refl eq_refl).
  - exact (K _ _ _ f8_A f32_A eq_refl eq_refl).
  - exact (K _ _ _ f16_fffd f8_fffd eq_refl eq_refl).
  - exact (K _ _ _ f16_A f16_A eq_refl eq_refl).
  - exact (K _ _ _ f16_A f32_A eq_refl eq_refl).
  - exact (K _ _ _ f32_x f8_x eq_refl eq_refl).
  - exact (K _ _ _ f32_x f16_x eq_refl eq_refl).
  - exact (K _ _ _ f32_A f32_A eq_refl eq_refl).
Qed.
Lemma least_attained a b n : exists l out ok, units a l /\ transcode (tc a b) l = Ok (out, ok) /\ length l = (fst (least a b) * n)%nat /\ length out = (snd (least a b) * n)%nat.
Proof.
  assert (K : forall c w v, form a c w -> form b c v -> length w = fst (least a b) -> length v = snd (least a b) ->
    exists l out ok, units a l /\ transcode (tc a b) l = Ok (out, ok) /\ length l = (fst (least a b) * n)%nat /\ length out = (snd (least a b) * n)%nat).
  { intros c w v F G Lw Lv. destruct (good_sizes a b c w v n F G) as (l & out & U & E & L1 & L2). exists l, out, true. split; [exact U|]. split; [exact E|]. rewrite L1, L2, Lw, Lv. lia. }
  assert (B : a = U8 -> exists l out ok, units a l /\ transcode (tc a b) l = Ok (out, ok) /\ length l = (fst (least a b) * n)%nat /\ length out = (snd (least a b) * n)%nat).
  { intros ->. destruct (fform b) as (v & F & Lv).
    destruct (bad_sizes b [0xF0; 0x90; 0x80] 0x41 v n (or_intror inc_4) bad_4 ltac:(apply bits8; repeat (constructor; [lia|]); constructor) F) as (l & out & ok & U & E & L1 & L2).
    exists l, out, ok. split; [exact U|]. split; [exact E|]. rewrite L1, L2, Lv. destruct b; cbn [length app least fst snd]; lia. }
  destruct a; [exact (B eq_refl)| |]; clear B; destruct b.
  - exact (K _ _ _ f16_A f8_A eq_refl eq_refl).
  - exact (K _ _ _ f16_A f16_A eq_refl eq_refl).
  - exact (K _ _ _ f16_x f32_x eq_refl eq_refl).
  - exact (K _ _ _ f32_A f8_A eq_refl eq_refl).
  - exact (K _ _ _ f32_A f16_A eq_refl eq_refl).
  - exact (K _ _ _ f32_A f32_A eq_refl eq_refl).
Qed.

(* order *)
Lemma before_irrefl l : ~ before l l.
Proof. induction l as [|a l IH]; intros H; inversion H; subst; [lia|auto]. Qed.
Lemma before_asym l m : before l m -> ~ before m l.
Proof. induction 1; intros K; inversion K; subst; try lia; auto. Qed.
Lemma before_total l : forall m, before l m \/ l = m \/ before m l.
Proof.
  induction l as [|a l IH]; intros [|b m]; [right; left; reflexivity|left; constructor|right; right; constructor|].
  destruct (N.lt_total a b) as [H|[->|H]]; [left; constructor; exact H| |right; right; constructor; exact H].
  destruct (IH m) as [H|[->|H]]; [left; apply bf_same; exact H|right; left; reflexivity|right; right; apply bf_same; exact H].
Qed.
Lemma before_app p l m : before l m -> before (p ++ l) (p ++ m).
Proof. intros H. induction p; [exact H|]. apply bf_same. exact IHp. Qed.
Lemma utf8_less c d w v : utf8_of c w -> utf8_of d v -> c < d -> forall us vs, before (w ++ us) (v ++ vs).
Proof.
  intros W V L us vs.
  inversion W; subst; inversion V; subst; unfold scalar in *; cbn [app];
  try (apply bf_less; nlia).
  - destruct (N.eq_dec (c / 2 ^ 6) (d / 2 ^ 6)) as [E|E]; [rewrite E; apply bf_same; apply bf_less; nlia|apply bf_less; nlia].
  - destruct (N.eq_dec (c / 2 ^ 12) (d / 2 ^ 12)) as [E|E]; [rewrite E; apply bf_same|apply bf_less; nlia].
    destruct (N.eq_dec (c / 2 ^ 6 mod 2 ^ 6) (d / 2 ^ 6 mod 2 ^ 6)) as [F|F]; [rewrite F; apply bf_same; apply bf_less; nlia|apply bf_less; nlia].
  - destruct (N.eq_dec (c / 2 ^ 18) (d / 2 ^ 18)) as [E|E]; [rewrite E; apply bf_same|apply bf_less; nlia].
    destruct (N.eq_dec (c / 2 ^ 12 mod 2 ^ 6) (d / 2 ^ 12 mod 2 ^ 6)) as [F|F]; [rewrite F; apply bf_same|apply bf_less; nlia].
    destruct (N.eq_dec (c / 2 ^ 6 mod 2 ^ 6) (d / 2 ^ 6 mod 2 ^ 6)) as [G|G]; [rewrite G; apply bf_same; apply bf_less; nlia|apply bf_less; nlia].
Qed.
Lemma text_before cs ds us vs : text utf8_of cs us -> text utf8_of ds vs -> before cs ds -> before us vs.
Proof.
  intros U V B. revert us vs U V. induction B as [d ds|c d cs ds L|c cs ds _ IH]; intros us vs U V.
  - inversion U; subst. inversion V as [|? w ? vs' F T]; subst. destruct w as [|x w]; [inversion F|constructor].
  - inversion U; subst. inversion V; subst. eapply utf8_less; eassumption.
  - inversion U as [|? w ? us' F T]; subst. inversion V as [|? w' ? vs' F' T']; subst. rewrite (utf8_fun _ _ _ F F'). apply before_app. auto.
Qed.
Lemma order8 cs ds us vs : text utf8_of cs us -> text utf8_of ds vs -> (before cs ds <-> before us vs).
Proof.
  intros U V. split; [apply text_before; assumption|]. intros B. destruct (before_total cs ds) as [H|[->|H]]; [exact H| |].
  - rewrite (form_text_fun U8 ds us vs U V) in B. elim (before_irrefl vs B).
  - elim (before_asym _ _ B). eapply text_before; eassumption.
Qed.
(* UTF-16, when no code point is in U+E000 .. U+FFFF *)
Definition low16 (c : N) : Prop := c < 0xE000 \/ 0x10000 <= c.
Lemma utf16_less c d w v : utf16_of c w -> utf16_of d v -> low16 c -> low16 d -> c < d -> forall us vs, before (w ++ us) (v ++ vs).
Proof.
  intros W V P Q L us vs. unfold low16 in *.
  inversion W; subst; inversion V; subst; unfold scalar in *; cbn [app]; try (apply bf_less; nlia).
  destruct (N.eq_dec ((c - 0x10000) / 2 ^ 10) ((d - 0x10000) / 2 ^ 10)) as [E|E]; [rewrite E; apply bf_same; apply bf_less; nlia|apply bf_less; nlia].
Qed.
Lemma text_before16 cs ds us vs : text utf16_of cs us -> text utf16_of ds vs -> Forall low16 cs -> Forall low16 ds -> before cs ds -> before us vs.
Proof.
  intros U V P Q B. revert us vs U V P Q. induction B as [d ds|c d cs ds L|c cs ds _ IH]; intros us vs U V P Q.
  - inversion U; subst. inversion V as [|? w ? vs' F T]; subst. destruct w as [|x w]; [inversion F|constructor].
  - inversion U; subst. inversion V; subst. inversion P; subst. inversion Q; subst. eapply utf16_less; eassumption.
  - inversion U as [|? w ? us' F T]; subst. inversion V as [|? w' ? vs' F' T']; subst. inversion P; subst. inversion Q; subst. rewrite (utf16_fun _ _ _ F F'). apply before_app. auto.
Qed.
Lemma order16 cs ds us vs : text utf16_of cs us -> text utf16_of ds vs -> Forall low16 cs -> Forall low16 ds -> (before cs ds <-> before us vs).
Proof.
  intros U V P Q. split; [apply text_before16; assumption|]. intros B. destruct (before_total cs ds) as [H|[->|H]]; [exact H| |].
  - rewrite (form_text_fun U16 ds us vs U V) in B. elim (before_irrefl vs B).
  - elim (before_asym _ _ B). eapply text_before16; [exact V|exact U|exact Q|exact P|exact H].
Qed.
Lemma order a b l m cs ds us vs k j k' j' : units a l -> units a m ->
  transcode (tc a U32) l = Ok (cs, k) -> transcode (tc a U32) m = Ok (ds, j) -> transcode (tc a b) l = Ok (us, k') -> transcode (tc a b) m = Ok (vs, j') ->
  text (form b) cs us /\ text (form b) ds vs.
Proof.
  intros A B E F G H. split.
  - apply (conv a U32 l A) in E. destruct E as (x & R & X). apply text32 in X. destruct X as [-> _]. apply (conv a b l A) in G. destruct G as (y & R' & Y).
    destruct (reads_fun a l A _ _ _ _ R R') as [-> _]. exact Y.
  - apply (conv a U32 m B) in F. destruct F as (x & R & X). apply text32 in X. destruct X as [-> _]. apply (conv a b m B) in H. destruct H as (y & R' & Y).
    destruct (reads_fun a m B _ _ _ _ R R') as [-> _]. exact Y.
Qed.
