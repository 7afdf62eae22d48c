(* The byte transcoder: what it does for each form of input *)
From Verif Require Import Base ModelIcu SpecIcu IcuUtf8 IcuRead8 IcuEnc IcuView.
Local Open Scope N_scope.
Local Open Scope list_scope.

Section B.
Variables T8 T16 T32 : tcdr.
Notation B := (byte_transcoder T8 T16 T32).
Notation st := (txs T8 T16 T32).
Definition byte (u : N) : Prop := u < 256.

Lemma step_ok (s s' : st) u w l : tx_call T8 T16 T32 s u = Ok (s', w) ->
  finish B s (u :: l) = do (r, ok) <- finish B s' l; Ok (w ++ r, ok).
Proof. intros E. rewrite finish_cons. cbn [tc_op byte_transcoder]. rewrite E. reflexivity. Qed.
Lemma step_ok0 (s s' : st) u l : tx_call T8 T16 T32 s u = Ok (s', []) -> finish B s (u :: l) = finish B s' l.
Proof. intros E. rewrite (step_ok _ _ _ _ _ E). destruct (finish B s' l) as [[r ok]| |]; reflexivity. Qed.
Lemma bind_assoc {X Y Z} (a : outcome X) (f : X -> outcome Y) (g : Y -> outcome Z) : bind (bind a f) g = bind a (fun x => bind (f x) g).
Proof. destruct a; reflexivity. Qed.
Lemma app_nil_bind (x : outcome (list N * bool)) : (do (r, ok) <- x; Ok ([] ++ r, ok)) = x.
Proof. destruct x as [[r ok]| |]; reflexivity. Qed.

Lemma finish_nil (T : tcdr) s : finish T s [] = do (s2, w') <- tc_end T s; Ok (w', tc_wf T s2).
Proof. reflexivity. Qed.
(* --- run mode --- *)
Lemma run8 buf l : forall t, finish B (Txs st_run_8 buf (V8 t)) l = finish T8 t l.
Proof.
  induction l as [|u l IH]; intros t.
  - rewrite !finish_nil. cbn [tc_end byte_transcoder tx_end tx_var]. destruct (tc_end T8 t) as [[t' w]| |]; reflexivity.
  - rewrite !finish_cons. change (tc_op B (Txs st_run_8 buf (V8 t)) u) with
      (do (t', w) <- tc_op T8 t u; Ok (Txs (T8:=T8) (T16:=T16) (T32:=T32) st_run_8 buf (V8 t'), w)).
    destruct (tc_op T8 t u) as [[t' w]| |]; cbn [bind]; try reflexivity. rewrite IH. reflexivity.
Qed.
Lemma lor_bytes a b : a < 256 -> b < 256 -> u16 (N.lor (N.shiftl a 8) b) = a * 256 + b.
Proof.
  intros. rewrite N.lor_comm, lor_low by exact H0. unfold u16. change (2 ^ 8) with 256. change (2 ^ 16) with 65536. nlia.
Qed.
Lemma end16 s buf t : finish B (Txs s buf (V16 t)) [] = finish T16 t [].
Proof. rewrite !finish_nil. cbn [tc_end byte_transcoder tx_end tx_var]. destruct (tc_end T16 t) as [[t' w]| |]; reflexivity. Qed.
Lemma end32 s buf t : finish B (Txs s buf (V32 t)) [] = finish T32 t [].
Proof. rewrite !finish_nil. cbn [tc_end byte_transcoder tx_end tx_var]. destruct (tc_end T32 t) as [[t' w]| |]; reflexivity. Qed.

Definition four (buf : list N) : Prop := exists a b c d, buf = [a; b; c; d].
Lemma four_set0 buf v : four buf -> four (buf_set buf 0 v). Proof. intros (a & b & c & d & ->). do 4 eexists. reflexivity. Qed.
Lemma four_set1 buf v : four buf -> four (buf_set buf 1 v). Proof. intros (a & b & c & d & ->). do 4 eexists. reflexivity. Qed.
Lemma four_set2 buf v : four buf -> four (buf_set buf 2 v). Proof. intros (a & b & c & d & ->). do 4 eexists. reflexivity. Qed.
Lemma four_set3 buf v : four buf -> four (buf_set buf 3 v). Proof. intros (a & b & c & d & ->). do 4 eexists. reflexivity. Qed.

Lemma step16_b1 s0 s1 (be : bool) x y z w a t l : byte x -> byte a ->
  (be = true -> s1 = st_run_16be_byte1 /\ s0 = st_run_16be_byte0) -> (be = false -> s1 = st_run_16le_byte1 /\ s0 = st_run_16le_byte0) ->
  finish B (Txs s1 [x; y; z; w] (V16 t)) (a :: l)
  = do (t', v) <- tc_op T16 t (if be then be16 x a else le16 x a); do (r, ok) <- finish B (Txs s0 [x; y; z; w] (V16 t')) l; Ok (v ++ r, ok).
Proof.
  unfold byte. intros Hx Ha H1 H2. rewrite finish_cons. destruct be.
  - destruct (H1 eq_refl) as [-> ->]. change (tc_op B (Txs st_run_16be_byte1 [x; y; z; w] (V16 t)) a) with
      (do (t', v) <- tc_op T16 t (u16 (N.lor (N.shiftl x 8) a)); Ok (Txs (T8:=T8) (T16:=T16) (T32:=T32) st_run_16be_byte0 [x; y; z; w] (V16 t'), v)).
    rewrite lor_bytes by assumption. unfold be16. change (2 ^ 8) with 256. destruct (tc_op T16 t (x * 256 + a)) as [[t' v]| |]; reflexivity.
  - destruct (H2 eq_refl) as [-> ->]. change (tc_op B (Txs st_run_16le_byte1 [x; y; z; w] (V16 t)) a) with
      (do (t', v) <- tc_op T16 t (u16 (N.lor (N.shiftl a 8) x)); Ok (Txs (T8:=T8) (T16:=T16) (T32:=T32) st_run_16le_byte0 [x; y; z; w] (V16 t'), v)).
    rewrite lor_bytes by assumption. unfold le16. change (2 ^ 8) with 256. destruct (tc_op T16 t (a * 256 + x)) as [[t' v]| |]; reflexivity.
Qed.
Lemma list2_ind (P : list N -> Prop) : P [] -> (forall a, P [a]) -> (forall a b l, P l -> P (a :: b :: l)) -> forall l, P l.
Proof.
  intros H0 H1 H2 l. assert (P l /\ forall a, P (a :: l)) as [H _]; [|exact H]. induction l as [|a l [IH1 IH2]]; auto.
Qed.
Lemma run16be l : Forall byte l -> forall buf t, four buf ->
  finish B (Txs st_run_16be_byte0 buf (V16 t)) l = finish T16 t (units16 be16 l).
Proof.
  induction l as [|a|a b l IH] using list2_ind; intros HB buf t F.
  - apply end16.
  - rewrite (step_ok0 _ (Txs st_run_16be_byte1 (buf_set buf 0 a) (V16 t))) by reflexivity. apply end16.
  - inversion HB as [|? ? Ha HB1]; subst. inversion HB1 as [|? ? Hb HB2]; subst.
    rewrite (step_ok0 _ (Txs st_run_16be_byte1 (buf_set buf 0 a) (V16 t))) by reflexivity.
    destruct F as (x & y & z & w & ->). change (buf_set [x; y; z; w] 0 a) with [a; y; z; w].
    rewrite (step16_b1 st_run_16be_byte0 _ true) by (auto; discriminate). cbn [units16]. rewrite finish_cons.
    destruct (tc_op T16 t (be16 a b)) as [[t' v]| |]; cbn [bind]; try reflexivity.
    rewrite IH; [reflexivity|exact HB2|do 4 eexists; reflexivity].
Qed.
Lemma run16le l : Forall byte l -> forall buf t, four buf ->
  finish B (Txs st_run_16le_byte0 buf (V16 t)) l = finish T16 t (units16 le16 l).
Proof.
  induction l as [|a|a b l IH] using list2_ind; intros HB buf t F.
  - apply end16.
  - rewrite (step_ok0 _ (Txs st_run_16le_byte1 (buf_set buf 0 a) (V16 t))) by reflexivity. apply end16.
  - inversion HB as [|? ? Ha HB1]; subst. inversion HB1 as [|? ? Hb HB2]; subst.
    rewrite (step_ok0 _ (Txs st_run_16le_byte1 (buf_set buf 0 a) (V16 t))) by reflexivity.
    destruct F as (x & y & z & w & ->). change (buf_set [x; y; z; w] 0 a) with [a; y; z; w].
    rewrite (step16_b1 st_run_16le_byte0 _ false) by (auto; discriminate). cbn [units16]. rewrite finish_cons.
    destruct (tc_op T16 t (le16 a b)) as [[t' v]| |]; cbn [bind]; try reflexivity.
    rewrite IH; [reflexivity|exact HB2|do 4 eexists; reflexivity].
Qed.
(* 32 bits *)
Definition le24 (a b c d : N) : N := le32 a b c 0.
Lemma four_bytes a b c d : byte a -> byte b -> byte c -> byte d ->
  N.lor (N.lor (N.lor (N.shiftl a 24) (N.shiftl b 16)) (N.shiftl c 8)) d = be32 a b c d.
Proof.
  unfold byte, be32. intros Ha Hb Hc Hd.
  assert (X1 : N.lor (N.shiftl a 24) (N.shiftl b 16) = N.shiftl (a * 256 + b) 16).
  { rewrite <- (N.shiftl_shiftl a 8 16 : _ = N.shiftl a 24). rewrite <- N.shiftl_lor. f_equal. rewrite N.lor_comm, lor_low by exact Hb. reflexivity. }
  assert (X2 : N.lor (N.shiftl (a * 256 + b) 16) (N.shiftl c 8) = N.shiftl ((a * 256 + b) * 256 + c) 8).
  { rewrite <- (N.shiftl_shiftl (a * 256 + b) 8 8 : _ = N.shiftl (a * 256 + b) 16). rewrite <- N.shiftl_lor. f_equal. rewrite N.lor_comm, lor_low by exact Hc. reflexivity. }
  rewrite X1, X2, N.lor_comm, lor_low by exact Hd. change (2 ^ 8) with 256. change (2 ^ 16) with 65536. change (2 ^ 24) with 16777216. lia.
Qed.
Lemma list4_ind (P : list N -> Prop) : P [] -> (forall a, P [a]) -> (forall a b, P [a; b]) -> (forall a b c, P [a; b; c]) ->
  (forall a b c d l, P l -> P (a :: b :: c :: d :: l)) -> forall l, P l.
Proof.
  intros H0 H1 H2 H3 H4 l. assert (P l /\ (forall a, P (a :: l)) /\ (forall a b, P (a :: b :: l)) /\ (forall a b c, P (a :: b :: c :: l))) as [H _]; [|exact H].
  induction l as [|a l (I1 & I2 & I3 & I4)]; auto.
Qed.
Lemma run32be l : Forall byte l -> forall buf t, four buf ->
  finish B (Txs st_run_32be_byte0 buf (V32 t)) l = finish T32 t (units32 be32 l).
Proof.
  induction l as [|a|a b|a b c|a b c d l IH] using list4_ind; intros HB buf t F.
  - apply end32.
  - rewrite (step_ok0 _ (Txs st_run_32be_byte1 (buf_set buf 0 a) (V32 t))) by reflexivity. apply end32.
  - rewrite (step_ok0 _ (Txs st_run_32be_byte1 (buf_set buf 0 a) (V32 t))) by reflexivity.
    rewrite (step_ok0 _ (Txs st_run_32be_byte2 (buf_set (buf_set buf 0 a) 1 b) (V32 t))) by reflexivity. apply end32.
  - rewrite (step_ok0 _ (Txs st_run_32be_byte1 (buf_set buf 0 a) (V32 t))) by reflexivity.
    rewrite (step_ok0 _ (Txs st_run_32be_byte2 (buf_set (buf_set buf 0 a) 1 b) (V32 t))) by reflexivity.
    rewrite (step_ok0 _ (Txs st_run_32be_byte3 (buf_set (buf_set (buf_set buf 0 a) 1 b) 2 c) (V32 t))) by reflexivity. apply end32.
  - inversion HB as [|? ? Ha HB1]; subst. inversion HB1 as [|? ? Hb HB2]; subst. inversion HB2 as [|? ? Hc HB3]; subst. inversion HB3 as [|? ? Hd HB4]; subst.
    rewrite (step_ok0 _ (Txs st_run_32be_byte1 (buf_set buf 0 a) (V32 t))) by reflexivity.
    rewrite (step_ok0 _ (Txs st_run_32be_byte2 (buf_set (buf_set buf 0 a) 1 b) (V32 t))) by reflexivity.
    rewrite (step_ok0 _ (Txs st_run_32be_byte3 (buf_set (buf_set (buf_set buf 0 a) 1 b) 2 c) (V32 t))) by reflexivity.
    destruct F as (x & y & z & w & ->). change (buf_set (buf_set (buf_set [x; y; z; w] 0 a) 1 b) 2 c) with [a; b; c; w].
    cbn [units32]. rewrite !finish_cons.
    change (tc_op B (Txs st_run_32be_byte3 [a; b; c; w] (V32 t)) d) with
      (do (t', v) <- tc_op T32 t (N.lor (N.lor (N.lor (N.shiftl a 24) (N.shiftl b 16)) (N.shiftl c 8)) d); Ok (Txs (T8:=T8) (T16:=T16) (T32:=T32) st_run_32be_byte0 [a; b; c; w] (V32 t'), v)).
    rewrite four_bytes by assumption.
    destruct (tc_op T32 t (be32 a b c d)) as [[t' v]| |]; cbn [bind]; try reflexivity.
    rewrite IH; [reflexivity|exact HB4|do 4 eexists; reflexivity].
Qed.
Lemma u8_shift v : u8 (N.shiftl v 24) = 0.
Proof. unfold u8. rewrite N.shiftl_mul_pow2. replace (v * 2 ^ 24) with (v * 2 ^ 16 * 2 ^ 8) by (rewrite <- N.mul_assoc; reflexivity). apply N.mod_mul. discriminate. Qed.
Lemma le_bytes a b c d : byte a -> byte b -> byte c ->
  N.lor (N.lor (N.lor (u8 (N.shiftl d 24)) (N.shiftl c 16)) (N.shiftl b 8)) a = le24 a b c d.
Proof.
  intros Ha Hb Hc. rewrite u8_shift. pose proof (four_bytes 0 c b a ltac:(reflexivity) Hc Hb Ha) as E.
  change (N.shiftl 0 24) with 0 in E. rewrite E. unfold le24, le32, be32. lia.
Qed.
Lemma run32le l : Forall byte l -> forall buf t, four buf ->
  finish B (Txs st_run_32le_byte0 buf (V32 t)) l = finish T32 t (units32 le24 l).
Proof.
  induction l as [|a|a b|a b c|a b c d l IH] using list4_ind; intros HB buf t F.
  - apply end32.
  - rewrite (step_ok0 _ (Txs st_run_32le_byte1 (buf_set buf 0 a) (V32 t))) by reflexivity. apply end32.
  - rewrite (step_ok0 _ (Txs st_run_32le_byte1 (buf_set buf 0 a) (V32 t))) by reflexivity.
    rewrite (step_ok0 _ (Txs st_run_32le_byte2 (buf_set (buf_set buf 0 a) 1 b) (V32 t))) by reflexivity. apply end32.
  - rewrite (step_ok0 _ (Txs st_run_32le_byte1 (buf_set buf 0 a) (V32 t))) by reflexivity.
    rewrite (step_ok0 _ (Txs st_run_32le_byte2 (buf_set (buf_set buf 0 a) 1 b) (V32 t))) by reflexivity.
    rewrite (step_ok0 _ (Txs st_run_32le_byte3 (buf_set (buf_set (buf_set buf 0 a) 1 b) 2 c) (V32 t))) by reflexivity. apply end32.
  - inversion HB as [|? ? Ha HB1]; subst. inversion HB1 as [|? ? Hb HB2]; subst. inversion HB2 as [|? ? Hc HB3]; subst. inversion HB3 as [|? ? Hd HB4]; subst.
    rewrite (step_ok0 _ (Txs st_run_32le_byte1 (buf_set buf 0 a) (V32 t))) by reflexivity.
    rewrite (step_ok0 _ (Txs st_run_32le_byte2 (buf_set (buf_set buf 0 a) 1 b) (V32 t))) by reflexivity.
    rewrite (step_ok0 _ (Txs st_run_32le_byte3 (buf_set (buf_set (buf_set buf 0 a) 1 b) 2 c) (V32 t))) by reflexivity.
    destruct F as (x & y & z & w & ->). change (buf_set (buf_set (buf_set [x; y; z; w] 0 a) 1 b) 2 c) with [a; b; c; w].
    cbn [units32]. rewrite !finish_cons.
    change (tc_op B (Txs st_run_32le_byte3 [a; b; c; w] (V32 t)) d) with
      (do (t', v) <- tc_op T32 t (N.lor (N.lor (N.lor (u8 (N.shiftl d 24)) (N.shiftl c 16)) (N.shiftl b 8)) a); Ok (Txs (T8:=T8) (T16:=T16) (T32:=T32) st_run_32le_byte0 [a; b; c; w] (V32 t'), v)).
    rewrite le_bytes by assumption.
    destruct (tc_op T32 t (le24 a b c d)) as [[t' v]| |]; cbn [bind]; try reflexivity.
    rewrite IH; [reflexivity|exact HB4|do 4 eexists; reflexivity].
Qed.

(* --- BOM mode --- *)
(* falling back to UTF-8: the bytes kept so far are decoded first *)
Lemma fallback (s : st) u p buf l :
  tx_call T8 T16 T32 s u = (do (t, w) <- feed T8 (tc_init T8) p; Ok (Txs st_run_8 buf (V8 t), w)) ->
  finish B s (u :: l) = finish T8 (tc_init T8) (p ++ l).
Proof.
  intros E. rewrite finish_cons. cbn [tc_op byte_transcoder]. rewrite E. unfold finish at 2. rewrite feed_app.
  destruct (feed T8 (tc_init T8) p) as [[t w]| |]; cbn [bind]; try reflexivity.
  rewrite run8. unfold finish. destruct (feed T8 t l) as [[t' w']| |]; cbn [bind]; try reflexivity.
  destruct (tc_end T8 t') as [[t'' w'']| |]; cbn [bind]; try reflexivity. now rewrite app_assoc.
Qed.
Notation init := (tx_init T8 T16 T32).
Notation mono s buf := (Txs s buf (@Vmono T8 T16 T32)).
Lemma start_EF l : finish B init (0xEF :: l) = finish B (mono st_utf8_bom_byte1 [0xEF; 0; 0; 0]) l.
Proof. apply step_ok0. reflexivity. Qed.
Lemma start_FE l : finish B init (0xFE :: l) = finish B (mono st_utf16_be_bom_byte1 [0xFE; 0; 0; 0]) l.
Proof. apply step_ok0. reflexivity. Qed.
Lemma start_FF l : finish B init (0xFF :: l) = finish B (mono st_utf32_or_16_le_bom_byte1 [0xFF; 0; 0; 0]) l.
Proof. apply step_ok0. reflexivity. Qed.
Lemma start_00 l : finish B init (0 :: l) = finish B (mono st_utf32_or_16_be_bom_byte1 [0; 0; 0; 0]) l.
Proof. apply step_ok0. reflexivity. Qed.
Lemma start_other u l : u <> 0xEF -> u <> 0xFE -> u <> 0xFF -> u <> 0 -> finish B init (u :: l) = finish T8 (tc_init T8) (u :: l).
Proof.
  intros H1 H2 H3 H4. apply (fallback init u [u] [u; 0; 0; 0] l).
  apply N.eqb_neq in H1, H2, H3, H4.
  change (tx_call T8 T16 T32 init u) with (start_state T8 T16 T32 init u). unfold start_state. rewrite H1, H2, H3, H4. reflexivity.
Qed.
(* one more byte of a BOM, and the fallback when it does not match *)
Lemma bom_more s s' buf u l : tx_call T8 T16 T32 (mono s buf) u = Ok (mono s' (buf_set buf (byte_no s) u), []) ->
  finish B (mono s buf) (u :: l) = finish B (mono s' (buf_set buf (byte_no s) u)) l.
Proof. apply step_ok0. Qed.

Lemma call_bom_byte1_EF u : u <> 0xBB -> tx_call T8 T16 T32 (mono st_utf8_bom_byte1 [0xEF; 0; 0; 0]) u = (do (t, w) <- feed T8 (tc_init T8) [0xEF; u]; Ok (Txs st_run_8 [0xEF; u; 0; 0] (V8 t), w)).
Proof.
  intros H. apply N.eqb_neq in H.
  change (tx_call T8 T16 T32 (mono st_utf8_bom_byte1 [0xEF; 0; 0; 0]) u) with (bom_step T8 T16 T32 (mono st_utf8_bom_byte1 [0xEF; 0; 0; 0]) u).
  unfold bom_step. change (bom_byte (tx_state (mono st_utf8_bom_byte1 [0xEF; 0; 0; 0]))) with (@Ok N 0xBB). cbn [bind]. rewrite H. reflexivity.
Qed.
Lemma bom_byte1_EF u : u <> 0xBB -> forall l, finish B (mono st_utf8_bom_byte1 [0xEF; 0; 0; 0]) (u :: l) = finish T8 (tc_init T8) (0xEF :: u :: l).
Proof. intros H l. apply (fallback _ u [0xEF; u] [0xEF; u; 0; 0]). now apply call_bom_byte1_EF. Qed.
Lemma call_bom_byte2_EF u : u <> 0xBF -> tx_call T8 T16 T32 (mono st_utf8_bom_byte2 [0xEF; 0xBB; 0; 0]) u = (do (t, w) <- feed T8 (tc_init T8) [0xEF; 0xBB; u]; Ok (Txs st_run_8 [0xEF; 0xBB; u; 0] (V8 t), w)).
Proof.
  intros H. apply N.eqb_neq in H.
  change (tx_call T8 T16 T32 (mono st_utf8_bom_byte2 [0xEF; 0xBB; 0; 0]) u) with (run8_start T8 T16 T32 (negb (u =? 0xBF)) (mono st_utf8_bom_byte2 [0xEF; 0xBB; u; 0])).
  rewrite H. reflexivity.
Qed.
Lemma bom_byte2_EF u : u <> 0xBF -> forall l, finish B (mono st_utf8_bom_byte2 [0xEF; 0xBB; 0; 0]) (u :: l) = finish T8 (tc_init T8) (0xEF :: 0xBB :: u :: l).
Proof. intros H l. apply (fallback _ u [0xEF; 0xBB; u] [0xEF; 0xBB; u; 0]). now apply call_bom_byte2_EF. Qed.
Lemma call_bom_byte1_FE u : u <> 0xFF -> tx_call T8 T16 T32 (mono st_utf16_be_bom_byte1 [0xFE; 0; 0; 0]) u = (do (t, w) <- feed T8 (tc_init T8) [0xFE; u]; Ok (Txs st_run_8 [0xFE; u; 0; 0] (V8 t), w)).
Proof.
  intros H. apply N.eqb_neq in H.
  change (tx_call T8 T16 T32 (mono st_utf16_be_bom_byte1 [0xFE; 0; 0; 0]) u) with
    (if u =? 0xFF then do s'' <- run16_start T8 T16 T32 (mono st_utf16_be_bom_byte1 [0xFE; u; 0; 0]); Ok (s'', []) else run8_start T8 T16 T32 true (mono st_utf16_be_bom_byte1 [0xFE; u; 0; 0])).
  rewrite H. reflexivity.
Qed.
Lemma bom_byte1_FE u : u <> 0xFF -> forall l, finish B (mono st_utf16_be_bom_byte1 [0xFE; 0; 0; 0]) (u :: l) = finish T8 (tc_init T8) (0xFE :: u :: l).
Proof. intros H l. apply (fallback _ u [0xFE; u] [0xFE; u; 0; 0]). now apply call_bom_byte1_FE. Qed.
Lemma call_bom_byte1_FF u : u <> 0xFE -> tx_call T8 T16 T32 (mono st_utf32_or_16_le_bom_byte1 [0xFF; 0; 0; 0]) u = (do (t, w) <- feed T8 (tc_init T8) [0xFF; u]; Ok (Txs st_run_8 [0xFF; u; 0; 0] (V8 t), w)).
Proof.
  intros H. apply N.eqb_neq in H.
  change (tx_call T8 T16 T32 (mono st_utf32_or_16_le_bom_byte1 [0xFF; 0; 0; 0]) u) with (bom_step T8 T16 T32 (mono st_utf32_or_16_le_bom_byte1 [0xFF; 0; 0; 0]) u).
  unfold bom_step. change (bom_byte (tx_state (mono st_utf32_or_16_le_bom_byte1 [0xFF; 0; 0; 0]))) with (@Ok N 0xFE). cbn [bind]. rewrite H. reflexivity.
Qed.
Lemma bom_byte1_FF u : u <> 0xFE -> forall l, finish B (mono st_utf32_or_16_le_bom_byte1 [0xFF; 0; 0; 0]) (u :: l) = finish T8 (tc_init T8) (0xFF :: u :: l).
Proof. intros H l. apply (fallback _ u [0xFF; u] [0xFF; u; 0; 0]). now apply call_bom_byte1_FF. Qed.
Lemma call_bom_byte1_00 u : u <> 0 -> tx_call T8 T16 T32 (mono st_utf32_or_16_be_bom_byte1 [0; 0; 0; 0]) u = (do (t, w) <- feed T8 (tc_init T8) [0; u]; Ok (Txs st_run_8 [0; u; 0; 0] (V8 t), w)).
Proof.
  intros H. apply N.eqb_neq in H.
  change (tx_call T8 T16 T32 (mono st_utf32_or_16_be_bom_byte1 [0; 0; 0; 0]) u) with (bom_step T8 T16 T32 (mono st_utf32_or_16_be_bom_byte1 [0; 0; 0; 0]) u).
  unfold bom_step. change (bom_byte (tx_state (mono st_utf32_or_16_be_bom_byte1 [0; 0; 0; 0]))) with (@Ok N 0). cbn [bind]. rewrite H. reflexivity.
Qed.
Lemma bom_byte1_00 u : u <> 0 -> forall l, finish B (mono st_utf32_or_16_be_bom_byte1 [0; 0; 0; 0]) (u :: l) = finish T8 (tc_init T8) (0 :: u :: l).
Proof. intros H l. apply (fallback _ u [0; u] [0; u; 0; 0]). now apply call_bom_byte1_00. Qed.
Lemma call_bom_byte2_00 u : u <> 0xFE -> tx_call T8 T16 T32 (mono st_utf32_be_bom_byte2 [0; 0; 0; 0]) u = (do (t, w) <- feed T8 (tc_init T8) [0; 0; u]; Ok (Txs st_run_8 [0; 0; u; 0] (V8 t), w)).
Proof.
  intros H. apply N.eqb_neq in H.
  change (tx_call T8 T16 T32 (mono st_utf32_be_bom_byte2 [0; 0; 0; 0]) u) with (bom_step T8 T16 T32 (mono st_utf32_be_bom_byte2 [0; 0; 0; 0]) u).
  unfold bom_step. change (bom_byte (tx_state (mono st_utf32_be_bom_byte2 [0; 0; 0; 0]))) with (@Ok N 0xFE). cbn [bind]. rewrite H. reflexivity.
Qed.
Lemma bom_byte2_00 u : u <> 0xFE -> forall l, finish B (mono st_utf32_be_bom_byte2 [0; 0; 0; 0]) (u :: l) = finish T8 (tc_init T8) (0 :: 0 :: u :: l).
Proof. intros H l. apply (fallback _ u [0; 0; u] [0; 0; u; 0]). now apply call_bom_byte2_00. Qed.
Lemma call_bom_byte3_00 u : u <> 0xFF -> tx_call T8 T16 T32 (mono st_utf32_be_bom_byte3 [0; 0; 0xFE; 0]) u = (do (t, w) <- feed T8 (tc_init T8) [0; 0; 0xFE; u]; Ok (Txs st_run_8 [0; 0; 0xFE; u] (V8 t), w)).
Proof.
  intros H. apply N.eqb_neq in H.
  change (tx_call T8 T16 T32 (mono st_utf32_be_bom_byte3 [0; 0; 0xFE; 0]) u) with
    (if u =? 0xFF then Ok (Txs st_run_32be_byte0 [0; 0; 0xFE; u] (@V32 T8 T16 T32 (tc_init T32)), []) else run8_start T8 T16 T32 true (mono st_utf32_be_bom_byte3 [0; 0; 0xFE; u])).
  rewrite H. reflexivity.
Qed.
Lemma bom_byte3_00 u : u <> 0xFF -> forall l, finish B (mono st_utf32_be_bom_byte3 [0; 0; 0xFE; 0]) (u :: l) = finish T8 (tc_init T8) (0 :: 0 :: 0xFE :: u :: l).
Proof. intros H l. apply (fallback _ u [0; 0; 0xFE; u] [0; 0; 0xFE; u]). now apply call_bom_byte3_00. Qed.
Lemma call_bom_byte3_FF u : u <> 0 -> tx_call T8 T16 T32 (mono st_utf32_le_bom_byte3 [0xFF; 0xFE; 0; 0]) u = (do (t, w) <- feed T8 (tc_init T8) [0xFF; 0xFE; 0; u]; Ok (Txs st_run_8 [0xFF; 0xFE; 0; u] (V8 t), w)).
Proof.
  intros H. apply N.eqb_neq in H.
  change (tx_call T8 T16 T32 (mono st_utf32_le_bom_byte3 [0xFF; 0xFE; 0; 0]) u) with
    (if u =? 0 then Ok (Txs st_run_32le_byte0 [0xFF; 0xFE; 0; u] (@V32 T8 T16 T32 (tc_init T32)), []) else run8_start T8 T16 T32 true (mono st_utf32_le_bom_byte3 [0xFF; 0xFE; 0; u])).
  rewrite H. reflexivity.
Qed.
Lemma bom_byte3_FF u : u <> 0 -> forall l, finish B (mono st_utf32_le_bom_byte3 [0xFF; 0xFE; 0; 0]) (u :: l) = finish T8 (tc_init T8) (0xFF :: 0xFE :: 0 :: u :: l).
Proof. intros H l. apply (fallback _ u [0xFF; 0xFE; 0; u] [0xFF; 0xFE; 0; u]). now apply call_bom_byte3_FF. Qed.

(* --- the results --- *)
Ltac f4 := do 4 eexists; reflexivity.
Lemma byte_bom8 r : transcode B (bom8 ++ r) = transcode T8 r.
Proof.
  rewrite !transcode_finish. cbn [bom8 app tc_init byte_transcoder]. rewrite start_EF.
  rewrite (step_ok0 _ (mono st_utf8_bom_byte2 [0xEF; 0xBB; 0; 0])) by reflexivity.
  rewrite (step_ok0 _ (Txs st_run_8 [0xEF; 0xBB; 0xBF; 0] (V8 (tc_init T8)))) by reflexivity. apply run8.
Qed.
Lemma byte_bom16be r : Forall byte r -> transcode B (bom16be ++ r) = transcode T16 (units16 be16 r).
Proof.
  intros H. rewrite !transcode_finish. cbn [bom16be app tc_init byte_transcoder]. rewrite start_FE.
  rewrite (step_ok0 _ (Txs st_run_16be_byte0 [0xFE; 0xFF; 0; 0] (V16 (tc_init T16)))) by reflexivity. apply run16be; [exact H|f4].
Qed.
Lemma byte_bom32be r : Forall byte r -> transcode B (bom32be ++ r) = transcode T32 (units32 be32 r).
Proof.
  intros H. rewrite !transcode_finish. cbn [bom32be app tc_init byte_transcoder]. rewrite start_00.
  rewrite (step_ok0 _ (mono st_utf32_be_bom_byte2 [0; 0; 0; 0])) by reflexivity.
  rewrite (step_ok0 _ (mono st_utf32_be_bom_byte3 [0; 0; 0xFE; 0])) by reflexivity.
  rewrite (step_ok0 _ (Txs st_run_32be_byte0 [0; 0; 0xFE; 0xFF] (V32 (tc_init T32)))) by reflexivity. apply run32be; [exact H|f4].
Qed.
Lemma byte_bom32le r : Forall byte r -> transcode B (bom32le ++ r) = transcode T32 (units32 le24 r).
Proof.
  intros H. rewrite !transcode_finish. cbn [bom32le app tc_init byte_transcoder]. rewrite start_FF.
  rewrite (step_ok0 _ (mono st_utf32_or_16_le_bom_byte2 [0xFF; 0xFE; 0; 0])) by reflexivity.
  rewrite (step_ok0 _ (mono st_utf32_le_bom_byte3 [0xFF; 0xFE; 0; 0])) by reflexivity.
  rewrite (step_ok0 _ (Txs st_run_32le_byte0 [0xFF; 0xFE; 0; 0] (V32 (tc_init T32)))) by reflexivity. apply run32le; [exact H|f4].
Qed.
Lemma byte_bom16le b r : b <> 0 -> Forall byte (b :: r) -> transcode B (bom16le ++ b :: r) = transcode T16 (units16 le16 (b :: r)).
Proof.
  intros Hb H. rewrite !transcode_finish. cbn [bom16le app tc_init byte_transcoder]. rewrite start_FF.
  rewrite (step_ok0 _ (mono st_utf32_or_16_le_bom_byte2 [0xFF; 0xFE; 0; 0])) by reflexivity.
  apply N.eqb_neq in Hb.
  rewrite (step_ok0 _ (Txs st_run_16le_byte1 [b; 0xFE; 0; 0] (V16 (tc_init T16)))).
  - rewrite <- (run16le (b :: r) H [b; 0xFE; 0; 0]) by f4. symmetry.
    apply step_ok0. reflexivity.
  - change (tx_call T8 T16 T32 (mono st_utf32_or_16_le_bom_byte2 [0xFF; 0xFE; 0; 0]) b) with
      (if negb (b =? 0) then Ok (Txs st_run_16le_byte1 [b; 0xFE; 0; 0] (@V16 T8 T16 T32 (tc_init T16)), []) else bom_step T8 T16 T32 (mono st_utf32_or_16_le_bom_byte2 [0xFF; 0xFE; 0; 0]) b).
    rewrite Hb. reflexivity.
Qed.
Lemma byte_bom16le_zero b r : b <> 0 -> transcode B (bom16le ++ 0 :: b :: r) = transcode T8 (bom16le ++ 0 :: b :: r).
Proof.
  intros Hb. rewrite !transcode_finish. cbn [bom16le app tc_init byte_transcoder]. rewrite start_FF.
  rewrite (step_ok0 _ (mono st_utf32_or_16_le_bom_byte2 [0xFF; 0xFE; 0; 0])) by reflexivity.
  rewrite (step_ok0 _ (mono st_utf32_le_bom_byte3 [0xFF; 0xFE; 0; 0])) by reflexivity.
  now apply bom_byte3_FF.
Qed.
Lemma no_bom (l : list N) : (forall m, In m all_boms -> ~ prefix_of m l /\ ~ prefix_of l m) -> transcode B l = transcode T8 l.
Proof.
  intros H. rewrite !transcode_finish. cbn [tc_init byte_transcoder].
  assert (H8 := H bom8 ltac:(cbn; tauto)). assert (Hb := H bom16be ltac:(cbn; tauto)). assert (Hl := H bom16le ltac:(cbn; tauto)).
  assert (H3 := H bom32be ltac:(cbn; tauto)). clear H.
  destruct l as [|a l]; [exfalso; apply (proj2 H8); exists bom8; reflexivity|].
  destruct (N.eq_dec a 0xEF) as [->|N1].
  { rewrite start_EF. destruct l as [|b l]; [exfalso; apply (proj2 H8); eexists; reflexivity|].
    destruct (N.eq_dec b 0xBB) as [->|]; [|now apply bom_byte1_EF].
    rewrite (step_ok0 _ (mono st_utf8_bom_byte2 [0xEF; 0xBB; 0; 0])) by reflexivity.
    destruct l as [|c l]; [exfalso; apply (proj2 H8); eexists; reflexivity|].
    destruct (N.eq_dec c 0xBF) as [->|]; [exfalso; apply (proj1 H8); eexists; reflexivity|now apply bom_byte2_EF]. }
  destruct (N.eq_dec a 0xFE) as [->|N2].
  { rewrite start_FE. destruct l as [|b l]; [exfalso; apply (proj2 Hb); eexists; reflexivity|].
    destruct (N.eq_dec b 0xFF) as [->|]; [exfalso; apply (proj1 Hb); eexists; reflexivity|now apply bom_byte1_FE]. }
  destruct (N.eq_dec a 0xFF) as [->|N3].
  { rewrite start_FF. destruct l as [|b l]; [exfalso; apply (proj2 Hl); eexists; reflexivity|].
    destruct (N.eq_dec b 0xFE) as [->|]; [exfalso; apply (proj1 Hl); eexists; reflexivity|now apply bom_byte1_FF]. }
  destruct (N.eq_dec a 0) as [->|N4].
  { rewrite start_00. destruct l as [|b l]; [exfalso; apply (proj2 H3); eexists; reflexivity|].
    destruct (N.eq_dec b 0) as [->|]; [|now apply bom_byte1_00].
    rewrite (step_ok0 _ (mono st_utf32_be_bom_byte2 [0; 0; 0; 0])) by reflexivity.
    destruct l as [|c l]; [exfalso; apply (proj2 H3); eexists; reflexivity|].
    destruct (N.eq_dec c 0xFE) as [->|]; [|now apply bom_byte2_00].
    rewrite (step_ok0 _ (mono st_utf32_be_bom_byte3 [0; 0; 0xFE; 0])) by reflexivity.
    destruct l as [|d l]; [exfalso; apply (proj2 H3); eexists; reflexivity|].
    destruct (N.eq_dec d 0xFF) as [->|]; [exfalso; apply (proj1 H3); eexists; reflexivity|now apply bom_byte3_00]. }
  now apply start_other.
Qed.
(* an unfinished BOM: end_cp decodes it as UTF-8 together with a zero byte that was never received *)
Definition unfinished (p : list N) : Prop :=
  In p [[0xEF]; [0xEF; 0xBB]; [0xFE]; [0xFF]; [0xFF; 0xFE]; [0xFF; 0xFE; 0]; [0]; [0; 0]; [0; 0; 0xFE]].
Lemma end_bom q buf x : tx_end T8 T16 T32 (mono q buf) = (do (t, w) <- feed T8 (tc_init T8) x; Ok (Txs st_run_8 buf (V8 t), w)) ->
  finish B (mono q buf) [] = do (s, w) <- feed T8 (tc_init T8) x; Ok (w, tc_wf T8 s).
Proof. intros E. rewrite finish_nil. cbn [tc_end byte_transcoder]. rewrite E. destruct (feed T8 (tc_init T8) x) as [[t w]| |]; reflexivity. Qed.
Lemma byte_unfinished p : unfinished p ->
  transcode B p = do (s, w) <- feed T8 (tc_init T8) (p ++ [0]); Ok (w, tc_wf T8 s).
Proof.
  intros H. rewrite transcode_finish. unfold unfinished in H. cbn [In] in H. cbn [tc_init byte_transcoder].
  destruct H as [<-|[<-|[<-|[<-|[<-|[<-|[<-|[<-|[<-|[]]]]]]]]]].
  - rewrite start_EF. apply end_bom. reflexivity.
  - rewrite start_EF. rewrite (step_ok0 _ (mono st_utf8_bom_byte2 [0xEF; 0xBB; 0; 0])) by reflexivity. apply end_bom. reflexivity.
  - rewrite start_FE. apply end_bom. reflexivity.
  - rewrite start_FF. apply end_bom. reflexivity.
  - rewrite start_FF. rewrite (step_ok0 _ (mono st_utf32_or_16_le_bom_byte2 [0xFF; 0xFE; 0; 0])) by reflexivity. apply end_bom. reflexivity.
  - rewrite start_FF. rewrite (step_ok0 _ (mono st_utf32_or_16_le_bom_byte2 [0xFF; 0xFE; 0; 0])) by reflexivity.
    rewrite (step_ok0 _ (mono st_utf32_le_bom_byte3 [0xFF; 0xFE; 0; 0])) by reflexivity. apply end_bom. reflexivity.
  - rewrite start_00. apply end_bom. reflexivity.
  - rewrite start_00. rewrite (step_ok0 _ (mono st_utf32_be_bom_byte2 [0; 0; 0; 0])) by reflexivity. apply end_bom. reflexivity.
  - rewrite start_00. rewrite (step_ok0 _ (mono st_utf32_be_bom_byte2 [0; 0; 0; 0])) by reflexivity.
    rewrite (step_ok0 _ (mono st_utf32_be_bom_byte3 [0; 0; 0xFE; 0])) by reflexivity. apply end_bom. reflexivity.
Qed.
Lemma byte_empty : transcode B [] = Ok ([], tc_wf T8 (tc_init T8)).
Proof. reflexivity. Qed.
(* these cases are all there is *)
Lemma byte_cover l : l = [] \/ unfinished l \/ (exists m r, In m [bom8; bom16be; bom32be; bom32le] /\ l = m ++ r)
  \/ (exists b r, b <> 0 /\ (l = bom16le ++ b :: r \/ l = bom16le ++ 0 :: b :: r))
  \/ (forall m, In m all_boms -> ~ prefix_of m l /\ ~ prefix_of l m).
Proof.
  destruct l as [|a l]; [auto|]. right.
  destruct (N.eq_dec a 0xEF) as [->|N1].
  { destruct l as [|b l]; [left; cbn; tauto|]. destruct (N.eq_dec b 0xBB) as [->|N2].
    - destruct l as [|c l]; [left; cbn; tauto|]. destruct (N.eq_dec c 0xBF) as [->|N3].
      + right; left. exists bom8, l. split; [cbn; tauto|reflexivity].
      + right; right; right. intros m Hm. cbn [In all_boms] in Hm.
        repeat (destruct Hm as [<-|Hm]); [..|destruct Hm]; split; intros [x E]; cbn in E; inversion E; congruence.
    - right; right; right. intros m Hm. cbn [In all_boms] in Hm.
      repeat (destruct Hm as [<-|Hm]); [..|destruct Hm]; split; intros [x E]; cbn in E; inversion E; congruence. }
  destruct (N.eq_dec a 0xFE) as [->|N2].
  { destruct l as [|b l]; [left; cbn; tauto|]. destruct (N.eq_dec b 0xFF) as [->|N3].
    - right; left. exists bom16be, l. split; [cbn; tauto|reflexivity].
    - right; right; right. intros m Hm. cbn [In all_boms] in Hm.
      repeat (destruct Hm as [<-|Hm]); [..|destruct Hm]; split; intros [x E]; cbn in E; inversion E; congruence. }
  destruct (N.eq_dec a 0xFF) as [->|N3].
  { destruct l as [|b l]; [left; cbn; tauto|]. destruct (N.eq_dec b 0xFE) as [->|N4].
    - destruct l as [|c l]; [left; cbn; tauto|]. destruct (N.eq_dec c 0) as [->|N5].
      + destruct l as [|d l]; [left; cbn; tauto|]. destruct (N.eq_dec d 0) as [->|N6].
        * right; left. exists bom32le, l. split; [cbn; tauto|reflexivity].
        * right; right; left. exists d, l. split; [exact N6|right; reflexivity].
      + right; right; left. exists c, l. split; [exact N5|left; reflexivity].
    - right; right; right. intros m Hm. cbn [In all_boms] in Hm.
      repeat (destruct Hm as [<-|Hm]); [..|destruct Hm]; split; intros [x E]; cbn in E; inversion E; congruence. }
  destruct (N.eq_dec a 0) as [->|N4].
  { destruct l as [|b l]; [left; cbn; tauto|]. destruct (N.eq_dec b 0) as [->|N5].
    - destruct l as [|c l]; [left; cbn; tauto|]. destruct (N.eq_dec c 0xFE) as [->|N6].
      + destruct l as [|d l]; [left; cbn; tauto|]. destruct (N.eq_dec d 0xFF) as [->|N7].
        * right; left. exists bom32be, l. split; [cbn; tauto|reflexivity].
        * right; right; right. intros m Hm. cbn [In all_boms] in Hm.
          repeat (destruct Hm as [<-|Hm]); [..|destruct Hm]; split; intros [x E]; cbn in E; inversion E; congruence.
      + right; right; right. intros m Hm. cbn [In all_boms] in Hm.
        repeat (destruct Hm as [<-|Hm]); [..|destruct Hm]; split; intros [x E]; cbn in E; inversion E; congruence.
    - right; right; right. intros m Hm. cbn [In all_boms] in Hm.
      repeat (destruct Hm as [<-|Hm]); [..|destruct Hm]; split; intros [x E]; cbn in E; inversion E; congruence. }
  right; right; right. intros m Hm. cbn [In all_boms] in Hm.
  repeat (destruct Hm as [<-|Hm]); [..|destruct Hm]; split; intros [x E]; cbn in E; inversion E; congruence.
Qed.

(* --- selected_encoding() --- *)
Definition states_of (e : encoding) : list N :=
  match e with
  | enc_unknown => []
  | enc_utf8 => [st_run_8]
  | enc_utf16be => [st_run_16be_byte0; st_run_16be_byte1]
  | enc_utf16le => [st_run_16le_byte0; st_run_16le_byte1]
  | enc_utf32be => [st_run_32be_byte0; st_run_32be_byte1; st_run_32be_byte2; st_run_32be_byte3]
  | enc_utf32le => [st_run_32le_byte0; st_run_32le_byte1; st_run_32le_byte2; st_run_32le_byte3]
  end.
Lemma states_selected e (s : st) : In (tx_state s) (states_of e) -> selected_encoding T8 T16 T32 s = Ok e.
Proof.
  destruct s as [q buf v]. cbn [tx_state]. unfold selected_encoding. cbn [tx_state].
  destruct e; cbn [states_of In]; intros H; repeat (destruct H as [<-|H]); try destruct H; reflexivity.
Qed.
Lemma states_step e (s s' : st) u w : In (tx_state s) (states_of e) -> tx_call T8 T16 T32 s u = Ok (s', w) -> In (tx_state s') (states_of e).
Proof.
  destruct s as [q buf v]. cbn [tx_state].
  destruct e; cbn [states_of In]; intros H E; repeat (destruct H as [<-|H]); try destruct H; lazy in E;
    repeat match type of E with context [match ?x with _ => _ end] => destruct x; try discriminate end;
    injection E as <- <-; lazy; auto.
Qed.
Lemma states_feed e l : forall (s s' : st) w, In (tx_state s) (states_of e) -> feed B s l = Ok (s', w) -> In (tx_state s') (states_of e).
Proof.
  induction l as [|u l IH]; intros s s' w H E; cbn [feed] in E; [injection E as <- <-; exact H|].
  destruct (tc_op B s u) as [[s1 w1]| |] eqn:E1; cbn [bind] in E; try discriminate.
  destruct (feed B s1 l) as [[s2 w2]| |] eqn:E2; cbn [bind] in E; try discriminate. injection E as <- <-.
  eapply IH; [|exact E2]. eapply states_step; [exact H|exact E1].
Qed.
Lemma selected_run e p r (s0 s : st) w : feed B init p = Ok (s0, []) -> In (tx_state s0) (states_of e) ->
  feed B init (p ++ r) = Ok (s, w) -> selected_encoding T8 T16 T32 s = Ok e.
Proof.
  intros E H F. rewrite feed_app, E in F. cbn [bind] in F. destruct (feed B s0 r) as [[s1 w1]| |] eqn:E1; cbn [bind] in F; try discriminate.
  injection F as <- <-. apply states_selected. eapply states_feed; [exact H|exact E1].
Qed.
Lemma selected_bom8 r s w : feed B init (bom8 ++ r) = Ok (s, w) -> selected_encoding T8 T16 T32 s = Ok enc_utf8.
Proof. eapply selected_run; [reflexivity|]. cbn; auto. Qed.
Lemma selected_bom16be r s w : feed B init (bom16be ++ r) = Ok (s, w) -> selected_encoding T8 T16 T32 s = Ok enc_utf16be.
Proof. eapply selected_run; [reflexivity|]. cbn; auto. Qed.
Lemma selected_bom32be r s w : feed B init (bom32be ++ r) = Ok (s, w) -> selected_encoding T8 T16 T32 s = Ok enc_utf32be.
Proof. eapply selected_run; [reflexivity|]. cbn; auto. Qed.
Lemma selected_bom32le r s w : feed B init (bom32le ++ r) = Ok (s, w) -> selected_encoding T8 T16 T32 s = Ok enc_utf32le.
Proof. eapply selected_run; [reflexivity|]. cbn; auto. Qed.
Lemma selected_bom16le b r s w : b <> 0 -> feed B init (bom16le ++ b :: r) = Ok (s, w) -> selected_encoding T8 T16 T32 s = Ok enc_utf16le.
Proof.
  intros Hb. change (bom16le ++ b :: r) with ((bom16le ++ [b]) ++ r). eapply selected_run.
  - rewrite feed_app. change (feed B init bom16le) with (@Ok (st * list N) (mono st_utf32_or_16_le_bom_byte2 [0xFF; 0xFE; 0; 0], [])).
    apply N.eqb_neq in Hb. cbn [bind feed tc_op byte_transcoder].
    change (tx_call T8 T16 T32 (mono st_utf32_or_16_le_bom_byte2 [0xFF; 0xFE; 0; 0]) b) with
      (if negb (b =? 0) then Ok (Txs st_run_16le_byte1 [b; 0xFE; 0; 0] (@V16 T8 T16 T32 (tc_init T16)), []) else bom_step T8 T16 T32 (mono st_utf32_or_16_le_bom_byte2 [0xFF; 0xFE; 0; 0]) b).
    rewrite Hb. reflexivity.
  - cbn; auto.
Qed.
Lemma selected_unfinished p : p = [] \/ unfinished p -> exists s, feed B init p = Ok (s, []) /\ selected_encoding T8 T16 T32 s = Ok enc_unknown.
Proof.
  intros [->|H]; [eexists; split; reflexivity|]. unfold unfinished in H. cbn [In] in H.
  repeat (destruct H as [<-|H]); [..|destruct H]; eexists; (split; [reflexivity|reflexivity]).
Qed.
Lemma selected_fall q buf u x buf' p r s w : feed B init p = Ok (mono q buf, []) ->
  tx_call T8 T16 T32 (mono q buf) u = (do (t, w) <- feed T8 (tc_init T8) x; Ok (Txs st_run_8 buf' (V8 t), w)) ->
  feed B init (p ++ u :: r) = Ok (s, w) -> selected_encoding T8 T16 T32 s = Ok enc_utf8.
Proof.
  intros E C F. rewrite feed_app, E in F. cbn [bind feed tc_op byte_transcoder] in F. rewrite C in F.
  destruct (feed T8 (tc_init T8) x) as [[t v]| |]; cbn [bind] in F; try discriminate.
  change (txs T8 T16 T32) with (tc_st B) in F.
  destruct (feed B (Txs st_run_8 buf' (V8 t)) r) as [[s1 w1]| |] eqn:E1; cbn [bind] in F; try discriminate.
  injection F as <- <-. apply states_selected. eapply states_feed; [|exact E1]. cbn; auto.
Qed.
Lemma selected_16le_zero b r s w : b <> 0 -> feed B init (bom16le ++ 0 :: b :: r) = Ok (s, w) -> selected_encoding T8 T16 T32 s = Ok enc_utf8.
Proof.
  intros Hb. change (bom16le ++ 0 :: b :: r) with ((bom16le ++ [0]) ++ b :: r). eapply selected_fall; [reflexivity|]. now apply call_bom_byte3_FF.
Qed.
Lemma selected_no_bom l s w : (forall m, In m all_boms -> ~ prefix_of m l /\ ~ prefix_of l m) ->
  feed B init l = Ok (s, w) -> selected_encoding T8 T16 T32 s = Ok enc_utf8.
Proof.
  intros H.
  assert (H8 := H bom8 ltac:(cbn; tauto)). assert (Hb := H bom16be ltac:(cbn; tauto)). assert (Hl := H bom16le ltac:(cbn; tauto)).
  assert (H3 := H bom32be ltac:(cbn; tauto)). clear H.
  destruct l as [|a l]; [exfalso; apply (proj2 H8); exists bom8; reflexivity|].
  destruct (N.eq_dec a 0xEF) as [->|N1].
  { destruct l as [|b l]; [exfalso; apply (proj2 H8); eexists; reflexivity|].
    destruct (N.eq_dec b 0xBB) as [->|]; [|change (0xEF :: b :: l) with ([0xEF] ++ b :: l); eapply selected_fall; [reflexivity|now apply call_bom_byte1_EF]].
    destruct l as [|c l]; [exfalso; apply (proj2 H8); eexists; reflexivity|].
    destruct (N.eq_dec c 0xBF) as [->|]; [exfalso; apply (proj1 H8); eexists; reflexivity|].
    change (0xEF :: 0xBB :: c :: l) with ([0xEF; 0xBB] ++ c :: l); eapply selected_fall; [reflexivity|now apply call_bom_byte2_EF]. }
  destruct (N.eq_dec a 0xFE) as [->|N2].
  { destruct l as [|b l]; [exfalso; apply (proj2 Hb); eexists; reflexivity|].
    destruct (N.eq_dec b 0xFF) as [->|]; [exfalso; apply (proj1 Hb); eexists; reflexivity|].
    change (0xFE :: b :: l) with ([0xFE] ++ b :: l); eapply selected_fall; [reflexivity|now apply call_bom_byte1_FE]. }
  destruct (N.eq_dec a 0xFF) as [->|N3].
  { destruct l as [|b l]; [exfalso; apply (proj2 Hl); eexists; reflexivity|].
    destruct (N.eq_dec b 0xFE) as [->|]; [exfalso; apply (proj1 Hl); eexists; reflexivity|].
    change (0xFF :: b :: l) with ([0xFF] ++ b :: l); eapply selected_fall; [reflexivity|now apply call_bom_byte1_FF]. }
  destruct (N.eq_dec a 0) as [->|N4].
  { destruct l as [|b l]; [exfalso; apply (proj2 H3); eexists; reflexivity|].
    destruct (N.eq_dec b 0) as [->|]; [|change (0 :: b :: l) with ([0] ++ b :: l); eapply selected_fall; [reflexivity|now apply call_bom_byte1_00]].
    destruct l as [|c l]; [exfalso; apply (proj2 H3); eexists; reflexivity|].
    destruct (N.eq_dec c 0xFE) as [->|]; [|change (0 :: 0 :: c :: l) with ([0; 0] ++ c :: l); eapply selected_fall; [reflexivity|now apply call_bom_byte2_00]].
    destruct l as [|d l]; [exfalso; apply (proj2 H3); eexists; reflexivity|].
    destruct (N.eq_dec d 0xFF) as [->|]; [exfalso; apply (proj1 H3); eexists; reflexivity|].
    change (0 :: 0 :: 0xFE :: d :: l) with ([0; 0; 0xFE] ++ d :: l); eapply selected_fall; [reflexivity|now apply call_bom_byte3_00]. }
  change (a :: l) with ([] ++ a :: l). eapply (selected_fall st_start [0; 0; 0; 0] a [a] [a; 0; 0; 0] []); [reflexivity|].
  apply N.eqb_neq in N1, N2, N3, N4.
  change (tx_call T8 T16 T32 (mono st_start [0; 0; 0; 0]) a) with (start_state T8 T16 T32 init a). unfold start_state. rewrite N1, N2, N3, N4. reflexivity.
Qed.
End B.
