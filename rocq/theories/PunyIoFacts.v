(* Proofs about Punycode with what it does to the outside *)
From Verif Require Import Base ModelAlgo ModelPuny ModelPunyIo SpecPunyIo.
From Coq Require Import Lia.
Local Open Scope nat_scope.

(* --- histories --- *)
Section H.
Context {X : Type}.
Implicit Types h : list (event X).
Lemma writes_app h h' : writes (h ++ h') = writes h ++ writes h'. Proof. apply flat_map_app. Qed.
Lemma reads_app h h' : reads (h ++ h') = reads h ++ reads h'. Proof. apply flat_map_app. Qed.
Lemma grows_app h h' : grows (h ++ h') = grows h ++ grows h'. Proof. apply flat_map_app. Qed.
Lemma run_from_returned {A} r h todo (o : outcome A) h' o' : run_from r h todo o = Returned h' o' -> h' = h ++ todo /\ o' = o
  /\ forall a e b, todo = a ++ e :: b -> r (h ++ a) e = false.
Proof.
  revert h. induction todo as [|e todo IH]; intros h; cbn [run_from].
  - intros E. injection E as <- <-. rewrite app_nil_r. repeat split. intros [|] ? ?; discriminate.
  - destruct (r h e) eqn:R; [discriminate|]. intros E. destruct (IH _ E) as (-> & -> & K). rewrite <- app_assoc. repeat split.
    intros [|x a] e' b E'; injection E' as -> E'; [now rewrite app_nil_r|]. subst todo. specialize (K a e' b eq_refl). now rewrite <- app_assoc in K.
Qed.
Lemma run_from_threw {A} r h todo (o : outcome A) h' e : run_from r h todo o = Threw h' e ->
  exists a b, todo = a ++ e :: b /\ h' = h ++ a /\ r h' e = true /\ forall a1 e1 b1, a = a1 ++ e1 :: b1 -> r (h ++ a1) e1 = false.
Proof.
  revert h. induction todo as [|x todo IH]; intros h; cbn [run_from]; [discriminate|]. destruct (r h x) eqn:R.
  - intros E. injection E as <- <-. exists [], todo. rewrite app_nil_r. repeat split; [exact R|]. intros [|] ? ?; discriminate.
  - intros E. destruct (IH _ E) as (a & b & -> & -> & T & K). exists (x :: a), b. rewrite <- app_assoc in *. repeat split; [exact T|].
    intros [|y a1] e1 b1 E'; injection E' as -> E'; [now rewrite app_nil_r|]. specialize (K a1 e1 b1 E'). now rewrite <- app_assoc in K.
Qed.
(* as long as nothing in it is refused it returns; otherwise it throws at the first thing that is *)
Lemma run_from_quiet {A} r h todo (o : outcome A) : (forall a e b, todo = a ++ e :: b -> r (h ++ a) e = false) -> run_from r h todo o = Returned (h ++ todo) o.
Proof.
  revert h. induction todo as [|e todo IH]; intros h Q; cbn [run_from]; [now rewrite app_nil_r|].
  pose proof (Q [] e todo eq_refl) as R. rewrite app_nil_r in R. rewrite R. rewrite (IH (h ++ [e])); [now rewrite <- app_assoc|].
  intros a e' b ->. rewrite <- app_assoc. cbn. apply (Q (e :: a) e' b eq_refl).
Qed.
End H.

Lemma emit_fst {X A} (e : event X) (k : unit -> tr X A) : fst (andthen (emit e) k) = e :: fst (k tt). Proof. reflexivity. Qed.
Lemma emit_snd {X A} (e : event X) (k : unit -> tr X A) : snd (andthen (emit e) k) = snd (k tt). Proof. reflexivity. Qed.
Lemma writes_cons {X} (e : event X) h : writes (e :: h) = match e with Write c => c :: writes h | _ => writes h end. Proof. now destruct e. Qed.
Lemma reads_cons {X} (e : event X) h : reads (e :: h) = match e with Read x => x :: reads h | _ => reads h end. Proof. now destruct e. Qed.
Lemma grows_cons {X} (e : event X) h : grows (e :: h) = match e with Grow n => n :: grows h | _ => grows h end. Proof. now destruct e. Qed.

(* --- encode --- *)
(* what a function that writes to out gives, from what it does and returns *)
Definition onto {X A B} (out : str) (t : tr X A) (f : str -> A -> outcome B) : outcome B :=
  match snd t with Ok a => f (out ++ writes (fst t)) a | Fault e => Fault e | Diverge => Diverge end.
Lemma onto_then {X A B C} out (m : tr X A) (g : A -> tr X B) (f : str -> B -> outcome C) :
  onto out (andthen m g) f = onto out m (fun o a => onto o (g a) f).
Proof.
  unfold onto, andthen. destruct (snd m) as [a| |]; cbn [fst snd]; try reflexivity. destruct (snd (g a)); try reflexivity. now rewrite writes_app, app_assoc.
Qed.
Lemma onto_pure {X A B} out (o : outcome A) (f : str -> A -> outcome B) : onto (X:=X) out (pure o) f = bind o (f out).
Proof. unfold onto, pure. cbn [fst snd]. destruct o; cbn; now rewrite ?app_nil_r. Qed.
Lemma onto_ret {X A B} out (a : A) (f : str -> A -> outcome B) : onto (X:=X) out (ret a) f = f out a.
Proof. unfold onto, ret. cbn. now rewrite app_nil_r. Qed.
Lemma onto_emit {X B} out (e : event X) (f : str -> unit -> outcome B) : onto out (emit e) f = f (out ++ writes [e]) tt.
Proof. reflexivity. Qed.
Lemma onto_ext {X A B} out (t : tr X A) (f g : str -> A -> outcome B) : (forall o a, f o a = g o a) -> onto out t f = onto out t g.
Proof. intros H. unfold onto. destruct (snd t); auto. Qed.

Lemma vli_is fuel : forall k q bias out, encode_vli_loop fuel k q bias out = onto out (encode_vli_loop_t fuel k q bias) (fun o _ => Ok o).
Proof.
  induction fuel as [|fuel IH]; intros k q bias out; cbn [encode_vli_loop encode_vli_loop_t]; [reflexivity|]. cbv zeta.
  destruct (q <? clamp k bias)%N; [rewrite onto_then, onto_pure; destruct (encode_digit _); reflexivity|].
  destruct (base <? _)%N; [reflexivity|]. destruct (base - _ =? 0)%N; [reflexivity|].
  rewrite onto_then, onto_pure. destruct (encode_digit _); cbn [bind]; try reflexivity. rewrite onto_then, onto_emit. apply IH.
Qed.
Definition state_of (out : str) (s : N * N * N) : enc_state :=
  let '(i, delta, bias) := s in {| e_out := out; e_i := i; e_delta := delta; e_bias := bias |}.
Lemma pass_is range n nb : forall s out, encode_pass range n nb (state_of out s) = onto out (encode_pass_t range n nb s) (fun o s => Ok (state_of o s)).
Proof.
  induction range as [|c range IH]; intros [[i delta] bias] out; cbn [encode_pass encode_pass_t]; [now rewrite onto_ret|].
  rewrite onto_then, onto_emit. cbn [writes flat_map state_of e_out e_i e_delta e_bias]. rewrite app_nil_r.
  destruct (c <? n)%N. { apply (IH (i, w64 (delta + 1), bias)%N out). }
  destruct (c =? n)%N; [|apply (IH (i, delta, bias) out)].
  rewrite onto_then. unfold encode_vli, encode_vli_t. rewrite vli_is. unfold onto at 1 2. destruct (snd (encode_vli_loop_t _ _ _ _)); cbn [bind]; try reflexivity.
  rewrite onto_then, onto_pure. destruct (adapt _ _ _); cbn [bind]; try reflexivity. apply (IH (w64 (i + 1), 0, _)%N).
Qed.
Lemma loop_is range nb nbs : forall n s out, encode_loop nbs range n nb (state_of out s) = onto out (encode_loop_t nbs range n nb s) (fun o _ => Ok o).
Proof.
  induction nbs as [|m nbs IH]; intros n [[i delta] bias] out; cbn [encode_loop encode_loop_t]; [now rewrite onto_ret|].
  destruct (m <? n)%N; [reflexivity|]. cbn [state_of e_out e_i e_delta e_bias]. rewrite onto_then.
  pose proof (pass_is range m nb (i, w64 (delta + w64 ((m - n) * w64 (i + 1))), bias)%N out) as P. cbn [state_of] in P. rewrite P.
  unfold onto at 1 2. destruct (snd (encode_pass_t _ _ _ _)) as [[[i' delta'] bias']| |]; cbn [bind]; try reflexivity.
  cbn [state_of e_out e_i e_delta e_bias]. apply (IH (w64 (m + 1)) (i', w64 (delta' + 1), bias')%N).
Qed.
Lemma w64_step k : w64 (w64 k + 1) = w64 (k + 1).
Proof. unfold w64. apply N.add_mod_idemp_l. discriminate. Qed.
Definition nonb (c : N) : bool := negb (is_basic_code_point c).
Lemma first_is range : forall nbs k, 
  snd (first_pass_t range nbs (w64 k)) = Ok (nbs ++ filter nonb range, w64 (k + N.of_nat (length (filter is_basic_code_point range))))
  /\ writes (fst (first_pass_t range nbs (w64 k))) = map (fun cp => chr cp) (filter is_basic_code_point range)
  /\ reads (fst (first_pass_t range nbs (w64 k))) = range
  /\ grows (fst (first_pass_t range nbs (w64 k))) = seq (S (length nbs)) (length (filter nonb range)).
Proof.
  induction range as [|c range IH]; intros nbs k; cbn [first_pass_t].
  - cbn. rewrite app_nil_r, N.add_0_r. auto.
  - rewrite !emit_fst, !emit_snd. cbn [filter]. replace (nonb c) with (negb (is_basic_code_point c)) by reflexivity.
    destruct (is_basic_code_point c) eqn:B; cbn [negb]; rewrite !emit_fst, !emit_snd.
    + rewrite w64_step. destruct (IH nbs (k + 1)%N) as (A1 & A2 & A3 & A4). rewrite !writes_cons, !reads_cons, !grows_cons, A1, A2, A3, A4. cbn. repeat split. f_equal. f_equal. f_equal. lia.
    + destruct (IH (nbs ++ [c]) k) as (A1 & A2 & A3 & A4). rewrite !writes_cons, !reads_cons, !grows_cons, A1, A2, A3, A4. rewrite <- app_assoc, app_length. cbn. rewrite Nat.add_1_r. auto.
Qed.
Theorem encode_is range plain : encode range plain = onto [] (encode_t range plain) (fun o b => Ok (o, b)).
Proof.
  unfold encode, encode_t. rewrite onto_then. destruct (first_is range [] 0%N) as (A1 & A2 & _ & _). change (w64 0) with 0%N in A1, A2. unfold onto at 1. rewrite A1, A2. cbn [app]. rewrite N.add_0_l.
  change (filter (fun cp => negb (is_basic_code_point cp)) range) with (filter nonb range). cbv zeta. set (nbs := filter nonb range).
  destruct (plain && _)%bool; [now rewrite onto_ret|]. rewrite onto_then.
  set (out := map _ _). set (k := w64 _). set (ds := sort_and_remove_duplicates nbs).
  assert (L : forall o, (do o' <- encode_loop ds range initial_n k (state_of o (k, 0%N, initial_bias)); Ok (o', match ds with [] => false | _ :: _ => true end))
    = onto o (tdo _ <- encode_loop_t ds range initial_n k (k, 0%N, initial_bias); ret match ds with [] => false | _ :: _ => true end) (fun o b => Ok (o, b))).
  { intros o. rewrite onto_then, loop_is. unfold onto at 1 2. destruct (snd (encode_loop_t _ _ _ _ _)); cbn [bind]; try reflexivity. now rewrite onto_ret. }
  destruct (0 <? k)%N.
  - rewrite onto_emit. apply L.
  - rewrite onto_ret. apply L.
Qed.
Lemma then_fst {X A B} (m : tr X A) (f : A -> tr X B) a : snd m = Ok a -> fst (andthen m f) = fst m ++ fst (f a).
Proof. unfold andthen. now intros ->. Qed.
Lemma then_snd {X A B} (m : tr X A) (f : A -> tr X B) a : snd m = Ok a -> snd (andthen m f) = snd (f a).
Proof. unfold andthen. now intros ->. Qed.
Lemma then_cases {X A B} (m : tr X A) (f : A -> tr X B) : andthen m f = match snd m with Ok a => (fst m ++ fst (f a), snd (f a)) | Fault e => (fst m, Fault e) | Diverge => (fst m, Diverge) end.
Proof. reflexivity. Qed.
Lemma pure_then {X A B} (o : outcome A) (f : A -> tr X B) : andthen (pure o) f = match o with Ok a => f a | Fault e => pure (Fault e) | Diverge => pure Diverge end.
Proof. unfold andthen, pure. destruct o; cbn; try reflexivity. now destruct (f a). Qed.
Lemma vli_calm fuel : forall k q bias, reads (fst (encode_vli_loop_t fuel k q bias)) = [] /\ grows (fst (encode_vli_loop_t fuel k q bias)) = [].
Proof.
  induction fuel as [|fuel IH]; intros k q bias; cbn [encode_vli_loop_t]; [auto|]. cbv zeta. rewrite !pure_then.
  destruct (q <? _)%N; [destruct (encode_digit _); auto|]. destruct (base <? _)%N; [auto|]. destruct (base - _ =? 0)%N; [auto|].
  destruct (encode_digit _); [|auto|auto]. rewrite !emit_fst, reads_cons, grows_cons. apply IH.
Qed.
Lemma pass_calm range n nb : forall s, grows (fst (encode_pass_t range n nb s)) = [] /\ forall s', snd (encode_pass_t range n nb s) = Ok s' -> reads (fst (encode_pass_t range n nb s)) = range.
Proof.
  induction range as [|c range IH]; intros [[i delta] bias]; cbn [encode_pass_t]; [auto|]. rewrite !emit_fst, !emit_snd, reads_cons, grows_cons.
  destruct (c <? n)%N. { destruct (IH (i, w64 (delta + 1), bias)%N) as [A B]. split; [exact A|]. intros s' E. f_equal. exact (B s' E). }
  destruct (c =? n)%N. 2: { destruct (IH (i, delta, bias)%N) as [A B]. split; [exact A|]. intros s' E. f_equal. exact (B s' E). }
  unfold encode_vli_t. destruct (vli_calm fuel64 base delta bias) as [V1 V2]. set (V := encode_vli_loop_t fuel64 base delta bias) in *.
  rewrite !(then_cases V). destruct (snd V); cbn [fst snd]; rewrite ?grows_app, ?reads_app, ?V1, ?V2; [|split; [reflexivity|discriminate]..].
  rewrite !pure_then. destruct (adapt _ _ _) as [b| |]; [|split; [reflexivity|discriminate]..].
  destruct (IH (w64 (i + 1), 0, b)%N) as [A B]. split; [exact A|]. intros s' E. cbn [app]. f_equal. exact (B s' E).
Qed.
Lemma loop_calm range nb nbs : forall n s, grows (fst (encode_loop_t nbs range n nb s)) = []
  /\ forall x, snd (encode_loop_t nbs range n nb s) = Ok x -> reads (fst (encode_loop_t nbs range n nb s)) = concat (repeat range (length nbs)).
Proof.
  induction nbs as [|m nbs IH]; intros n [[i delta] bias]; cbn [encode_loop_t]; [auto|]. destruct (m <? n)%N; [split; [reflexivity|discriminate]|].
  destruct (pass_calm range m nb (i, w64 (delta + w64 ((m - n) * w64 (i + 1))), bias)%N) as [P1 P2]. set (P := encode_pass_t _ _ _ _) in *.
  unfold andthen. destruct (snd P) as [[[i' delta'] bias']| |]; cbn [fst snd]; [|split; [exact P1|discriminate]..].
  specialize (P2 _ eq_refl). destruct (IH (w64 (m + 1)) (i', w64 (delta' + 1), bias')%N) as [A B]. rewrite grows_app, reads_app, P1, P2. split; [exact A|]. intros x E. cbn [repeat length concat]. now rewrite (B x E).
Qed.
Lemma encode_grows range plain : grows (fst (encode_t range plain)) = seq 1 (length (filter nonb range)).
Proof.
  unfold encode_t. destruct (first_is range [] 0%N) as (A1 & _ & _ & A4). change (w64 0) with 0%N in *. rewrite (then_fst _ _ _ A1), grows_app, A4. cbn [app length].
  set (nbs := filter nonb range). destruct (plain && _)%bool; [cbn; now rewrite app_nil_r|]. set (k := w64 _). set (ds := sort_and_remove_duplicates nbs).
  rewrite (then_fst _ _ tt) by (destruct (0 <? k)%N; reflexivity). rewrite grows_app.
  destruct (loop_calm range k ds initial_n (k, 0%N, initial_bias)) as [B _]. set (l := encode_loop_t _ _ _ _ _) in *.
  assert (G : forall b : bool, grows (fst (andthen l (fun _ => ret b))) = []). { intros b. unfold andthen. destruct (snd l); cbn [fst]; [|exact B..]. rewrite grows_app, B. reflexivity. }
  rewrite G. destruct (0 <? k)%N; cbn; now rewrite app_nil_r.
Qed.
Lemma encode_reads range plain b : snd (encode_t range plain) = Ok b ->
  reads (fst (encode_t range plain)) = range ++ (if plain && negb (existsb nonb range) then [] else concat (repeat range (length (sort_and_remove_duplicates (filter nonb range))))).
Proof.
  unfold encode_t. destruct (first_is range [] 0%N) as (A1 & _ & A3 & _). change (w64 0) with 0%N in *. rewrite (then_fst _ _ _ A1), (then_snd _ _ _ A1), reads_app, A3. cbn [app length].
  assert (X : match filter nonb range with [] => false | _ :: _ => true end = existsb nonb range).
  { clear. induction range as [|c l IH]; [reflexivity|]. cbn. destruct (nonb c); [reflexivity|exact IH]. }
  rewrite X. set (nbs := filter nonb range). destruct (plain && _)%bool; [reflexivity|]. set (k := w64 _). set (ds := sort_and_remove_duplicates nbs).
  assert (K : snd (if (0 <? k)%N then emit (X:=N) (Write delimiter) else ret tt) = Ok tt) by (destruct (0 <? k)%N; reflexivity).
  rewrite (then_fst _ _ tt K), (then_snd _ _ tt K), reads_app. destruct (loop_calm range k ds initial_n (k, 0%N, initial_bias)) as [_ B]. set (l := encode_loop_t _ _ _ _ _) in *.
  unfold andthen. destruct (snd l) as [x| |] eqn:E; cbn [fst snd]; try discriminate. intros _. rewrite reads_app, (B x eq_refl). destruct (0 <? k)%N; cbn; now rewrite app_nil_r.
Qed.
Lemma unique_length l : sort l = l -> length (unique l) <= length l.
Proof. intros _. induction l as [|x l IH]; [apply le_n|]. cbn [unique]. destruct l as [|y l]; [apply le_n|]. destruct (x =? y)%N; cbn [length] in *; lia. Qed.

(* --- decode --- *)
Lemma dvli_is first : forall k w vli bias, snd (decode_vli_loop_t first k w vli bias) = decode_vli_loop first k w vli bias
  /\ grows (fst (decode_vli_loop_t first k w vli bias)) = []
  /\ (exists rest, first = reads (fst (decode_vli_loop_t first k w vli bias)) ++ rest)
  /\ forall v r, snd (decode_vli_loop_t first k w vli bias) = Ok (inl (v, r)) -> first = reads (fst (decode_vli_loop_t first k w vli bias)) ++ r /\ length r < length first.
Proof.
  induction first as [|c first IH]; intros k w vli bias; cbn [decode_vli_loop_t decode_vli_loop].
  { repeat split; [now exists []|discriminate..]. }
  rewrite !emit_fst, !emit_snd, reads_cons, grows_cons. cbv zeta.
  assert (D : forall o : outcome (dresult (N * str)), (forall v r, o = Ok (inl (v, r)) -> r = first) -> snd (pure (X:=ascii) o) = o /\ grows (fst (pure (X:=ascii) o)) = []
     /\ (exists rest, c :: first = (c :: reads (fst (pure (X:=ascii) o))) ++ rest) /\ forall v r, snd (pure (X:=ascii) o) = Ok (inl (v, r)) -> c :: first = (c :: reads (fst (pure (X:=ascii) o))) ++ r /\ length r < length (c :: first)).
  { intros o H. cbn. repeat split; [now exists first|intros; now rewrite (H _ _ H0)|rewrite (H _ _ H0); lia]. }
  destruct (base <? _)%N; [apply D; discriminate|]. destruct (base <=? _)%N; [apply (D (Ok (inr bad_input))); discriminate|]. destruct (w =? 0)%N; [apply D; discriminate|].
  destruct (_ <? _)%N; [apply (D (Ok (inr overflow))); discriminate|]. destruct (_ <? clamp k bias)%N; [apply (D (Ok (inl (_, first)))); intros v r E; now injection E|].
  destruct (_ =? 0)%N; [apply D; discriminate|]. destruct (_ <? w)%N; [apply (D (Ok (inr overflow))); discriminate|].
  set (vli' := w64 (vli + _)). set (w' := w64 (w * _)). destruct (IH (w32 (k + base)) w' vli' bias) as (A & B & (rest & C) & E). repeat split.
  - exact A.
  - exact B.
  - exists rest. cbn. now f_equal.
  - cbn. f_equal. now apply (E v r).
  - apply E in H as [_ H]. cbn. lia.
Qed.
Lemma dloop_is fuel : forall inp n index bias out, snd (decode_loop_t fuel inp n index bias out) = decode_loop fuel inp n index bias out
  /\ (exists rest, inp = reads (fst (decode_loop_t fuel inp n index bias out)) ++ rest)
  /\ exists m, grows (fst (decode_loop_t fuel inp n index bias out)) = seq (S (length out)) m /\ m <= length inp
     /\ forall o, snd (decode_loop_t fuel inp n index bias out) = Ok (inl o) -> length o = length out + m /\ inp = reads (fst (decode_loop_t fuel inp n index bias out)).
Proof.
  induction fuel as [|fuel IH]; intros inp n index bias out.
  { destruct inp; cbn; (split; [reflexivity|]; split; [eexists; reflexivity|]; exists 0; repeat split; try lia; try discriminate). injection H as <-. lia. }
  destruct inp as [|c inp]. { cbn. split; [reflexivity|]. split; [eexists; reflexivity|]. exists 0. repeat split; try lia. injection H as <-. lia. }
  cbn [decode_loop_t decode_loop]. set (full := c :: inp). unfold decode_vli_t, decode_vli. destruct (dvli_is full base 1 index bias) as (A & B & (rest & C) & E). set (V := decode_vli_loop_t full base 1 index bias) in *.
  assert (Stop : forall o : outcome (dresult (list N)), (forall x, o <> Ok (inl x)) -> snd (fst V ++ [], o) = o /\ (exists rest, full = reads (fst (fst V ++ [], o)) ++ rest)
    /\ exists m, grows (fst (fst V ++ [], o)) = seq (S (length out)) m /\ m <= length full /\ forall x, snd (fst V ++ [], o) = Ok (inl x) -> length x = length out + m /\ full = reads (fst (fst V ++ [], o))).
  { intros o H. cbn [fst snd]. rewrite app_nil_r. split; [reflexivity|]. split; [now exists rest|]. exists 0. split; [exact B|]. split; [lia|]. intros x E'. now destruct (H x). }
  rewrite <- A. clear A. rewrite !(then_cases V). destruct (snd V) as [[[index' inp']|err]|e|] eqn:EV; cbn [bind].
  - destruct (E _ _ eq_refl) as [C' L]. cbv zeta. set (ol := w64 _). destruct (index' <? index)%N; [cbn [pure fst snd]; apply (Stop (Fault assert_failed)); discriminate|].
    rewrite !pure_then. destruct (adapt _ _ _) as [bias'|e|]; cbn [bind]; [|cbn [pure fst snd]; apply (Stop (Fault e)); discriminate|cbn [pure fst snd]; apply (Stop Diverge); discriminate].
    destruct (2 ^ 32 - 1 <? n)%N; [cbn [pure fst snd]; apply (Stop (Fault assert_failed)); discriminate|]. destruct (_ <? index' / ol)%N; [cbn [ret fst snd]; apply (Stop (Ok (inr overflow))); discriminate|].
    rewrite !emit_fst, !emit_snd. rewrite !pure_then. set (n' := w64 (n + index' / ol)). set (i := (index' mod ol)%N).
    unfold string_insert. destruct (N.of_nat (length out) <? i)%N eqn:G.
    + cbn [bind pure fst snd]. split; [reflexivity|]. rewrite reads_app, grows_app, B. split; [exists rest; cbn; now rewrite app_nil_r|]. exists 1. split; [reflexivity|]. split; [unfold full; cbn; lia|]. discriminate.
    + cbn [bind]. set (out' := firstn _ out ++ _ :: skipn _ out). assert (LO : length out' = S (length out)). { unfold out'. rewrite app_length. cbn [length]. rewrite firstn_length, skipn_length. lia. }
      destruct (IH inp' n' (w64 (i + 1)) bias' out') as (A1 & (rest1 & A2) & m & A3 & A4 & A5). cbn [fst snd]. split; [exact A1|].
      change (list N + derr)%type with (dresult (list N)). set (U := fst (decode_loop_t fuel inp' n' (w64 (i + 1)) bias' out')) in *.
      assert (GU : grows (fst V ++ Grow (S (length out)) :: U) = S (length out) :: seq (S (length out')) m) by (rewrite grows_app, B, <- A3; reflexivity).
      assert (RU : reads (fst V ++ Grow (S (length out)) :: U) = reads (fst V) ++ reads U) by (rewrite reads_app; reflexivity).
      rewrite GU, RU, LO. split. { exists rest1. rewrite <- app_assoc, <- A2. exact C'. }
      exists (S m). split; [reflexivity|]. split; [lia|]. intros o H. destruct (A5 o H) as [H1 H2]. rewrite LO in H1. split; [lia|]. rewrite <- H2. exact C'.
  - cbn [ret fst snd]. apply (Stop (Ok (inr err))). discriminate.
  - cbn [fst snd]. rewrite <- (app_nil_r (fst V)). apply (Stop (Fault e)). discriminate.
  - cbn [fst snd]. rewrite <- (app_nil_r (fst V)). apply (Stop Diverge). discriminate.
Qed.
Lemma copy_is s : forall out, snd (copy_basic_t s out) = Ok (copy_basic s out) /\ (exists rest, s = reads (fst (copy_basic_t s out)) ++ rest)
  /\ exists m, grows (fst (copy_basic_t s out)) = seq (S (length out)) m /\ m <= length s /\ forall o, copy_basic s out = inl o -> length o = length out + m /\ m = length s.
Proof.
  induction s as [|c s IH]; intros out; cbn [copy_basic_t copy_basic].
  - split; [reflexivity|]. split; [now exists []|]. exists 0. repeat split; try lia. injection H as <-. lia.
  - rewrite !emit_fst, !emit_snd, reads_cons, grows_cons. destruct (is_basic_code_point (code c)).
    + rewrite !emit_fst, !emit_snd, reads_cons, grows_cons. destruct (IH (out ++ [code c])) as (A & (rest & B) & m & C & D & E). rewrite app_length in *. cbn [length] in *. rewrite Nat.add_1_r in *.
      split; [exact A|]. split; [exists rest; cbn; now f_equal|]. exists (S m). rewrite C. repeat split; try lia; apply E in H; lia.
    + cbn [ret fst snd]. split; [reflexivity|]. split; [exists s; reflexivity|]. exists 0. repeat split; try lia; discriminate.
Qed.
Lemma reads_reading s : reads (reading s) = s /\ grows (reading s) = [].
Proof. unfold reading. induction s as [|c s [A B]]; [auto|]. cbn [map]. rewrite reads_cons, grows_cons, A, B. auto. Qed.
Lemma copy_part_is asserts s : snd (copy_plain_ascii_part_t asserts s) = copy_plain_ascii_part s
  /\ length (reads (fst (copy_plain_ascii_part_t asserts s))) <= (if asserts then 3 else 2) * length s
  /\ exists m, grows (fst (copy_plain_ascii_part_t asserts s)) = seq 1 m /\ m <= length s
     /\ forall out inp, snd (copy_plain_ascii_part_t asserts s) = Ok (inl (out, inp)) -> length out = m /\ m + length inp <= length s
        /\ length (reads (fst (copy_plain_ascii_part_t asserts s))) + length inp <= (if asserts then 3 else 2) * length s.
Proof.
  unfold copy_plain_ascii_part_t, copy_plain_ascii_part, search_t. set (is := fun c => Ascii.eqb c delimiter). rewrite then_cases. cbn [fst snd].
  set (R := reading (firstn _ _) ++ _). assert (RR : length (reads R) <= (if asserts then 2 else 1) * length s /\ grows R = []).
  { unfold R. rewrite reads_app, grows_app, app_length. destruct (reads_reading (firstn (S (ranges_find is (rev s))) (rev s))) as [-> ->]. rewrite firstn_length, rev_length.
    destruct asserts; cbn [andb]; [|cbn [reads grows flat_map length]; split; [lia|reflexivity]]. destruct (existsb is s); [destruct (reads_reading s) as [-> ->]|cbn [reads grows flat_map length]]; (split; [lia|reflexivity]). }
  destruct RR as [R1 R2]. destruct (find_last_bidi is s) as [[b e]|f|]; cbn [bind fst snd].
  2,3: split; [reflexivity|]; split; [destruct asserts; lia|]; exists 0; split; [exact R2|]; split; [lia|discriminate].
  destruct (Nat.eqb b e).
  - cbn [ret fst snd]. rewrite app_nil_r. split; [reflexivity|]. split; [destruct asserts; lia|]. exists 0. split; [exact R2|]. split; [lia|]. intros out inp E. injection E as <- <-. cbn [length]. repeat split; destruct asserts; lia.
  - destruct (copy_is (firstn b s) []) as (A & (rest & B) & m & C & D & E). set (Cp := copy_basic_t (firstn b s) []) in *.
    rewrite !(then_cases Cp), A. cbn [fst snd].
    assert (LB : length (reads (fst Cp)) <= length (firstn b s)). { apply (f_equal (@length ascii)) in B. rewrite app_length in B. lia. }
    pose proof (firstn_length b s) as LF. pose proof (skipn_length (S b) s) as LS.
    destruct (copy_basic (firstn b s) []) as [out|err]; cbn [ret fst snd]; rewrite !app_nil_r, !reads_app, !grows_app, !app_length, R2, C; cbn [app length]; (split; [reflexivity|]); (split; [destruct asserts; lia|]); exists m; (split; [reflexivity|]); (split; [lia|]).
    + intros o i H. injection H as <- <-. destruct (E out eq_refl) as [E1 E2]. cbn [length] in E1. unfold str in *. change (match s with [] => [] | _ :: l => skipn b l end) with (skipn (S b) s). repeat split; try lia; destruct asserts; lia.
    + discriminate.
Qed.
Theorem decode_is asserts s : snd (decode_t asserts s) = decode s
  /\ length (reads (fst (decode_t asserts s))) <= (if asserts then 3 else 2) * length s
  /\ exists m, grows (fst (decode_t asserts s)) = seq 1 m /\ m <= length s /\ forall u, decode s = Ok (inl u) -> length u = m.
Proof.
  unfold decode_t, decode. destruct (copy_part_is asserts s) as (A & B & m & C & D & E). set (P := copy_plain_ascii_part_t asserts s) in *. rewrite then_cases, <- A.
  destruct (snd P) as [[[out inp]|err]|f|] eqn:EP; cbn [bind fst snd ret].
  - destruct (E _ _ eq_refl) as (E1 & E2 & E3). destruct (dloop_is (S (length inp)) inp initial_n 0%N initial_bias out) as (A1 & (rest & A2) & m' & A3 & A4 & A5).
    split; [exact A1|]. rewrite reads_app, grows_app, app_length, C, A3, E1. split. { assert (length (reads (fst (decode_loop_t (S (length inp)) inp initial_n 0 initial_bias out))) <= length inp) by (apply (f_equal (@length ascii)) in A2; rewrite app_length in A2; unfold str in *; lia). unfold str in *; lia. }
    exists (m + m'). split; [now rewrite seq_app|]. split; [lia|]. intros u H. rewrite <- A1 in H. destruct (A5 u H) as [H1 _]. lia.
  - rewrite app_nil_r. split; [reflexivity|]. split; [exact B|]. exists m. split; [exact C|]. split; [exact D|discriminate].
  - split; [reflexivity|]. split; [exact B|]. exists m. split; [exact C|]. split; [exact D|discriminate].
  - split; [reflexivity|]. split; [exact B|]. exists m. split; [exact C|]. split; [exact D|discriminate].
Qed.

(* --- destinations, sources and memories that throw --- *)
Section Refuse.
Context {X A : Type}.
Implicit Types (h todo : list (event X)) (o : outcome A).
Lemma run_takes k todo o : forall h, length (writes h) <= k ->
  if Nat.ltb k (length (writes (h ++ todo))) then exists h' c, run_from (takes k) h todo o = Threw h' (Write c) /\ writes h' = firstn k (writes (h ++ todo))
  else run_from (takes k) h todo o = Returned (h ++ todo) o.
Proof.
  induction todo as [|e todo IH]; intros h L; cbn [run_from].
  - rewrite app_nil_r. destruct (Nat.ltb_spec k (length (writes h))); [lia|reflexivity].
  - specialize (IH (h ++ [e])). rewrite <- app_assoc in IH. cbn [app] in IH.
    destruct e as [x|c|n]; cbn [takes].
    + apply IH. rewrite writes_app. cbn. now rewrite app_nil_r.
    + destruct (Nat.leb_spec k (length (writes h))) as [G|G].
      * assert (E : k = length (writes h)) by lia. rewrite writes_app, app_length, writes_cons. cbn [length]. destruct (Nat.ltb_spec k (length (writes h) + S (length (writes todo)))); [|lia].
        exists h, c. split; [reflexivity|]. subst k. rewrite firstn_app, firstn_all, Nat.sub_diag. cbn. now rewrite app_nil_r.
      * apply IH. rewrite writes_app, app_length. cbn. lia.
    + apply IH. rewrite writes_app. cbn. now rewrite app_nil_r.
Qed.
Lemma run_gives k todo o : forall h, length (reads h) <= k ->
  if Nat.ltb k (length (reads (h ++ todo))) then exists h' x, run_from (gives k) h todo o = Threw h' (Read x) /\ reads h' = firstn k (reads (h ++ todo))
  else run_from (gives k) h todo o = Returned (h ++ todo) o.
Proof.
  induction todo as [|e todo IH]; intros h L; cbn [run_from].
  - rewrite app_nil_r. destruct (Nat.ltb_spec k (length (reads h))); [lia|reflexivity].
  - specialize (IH (h ++ [e])). rewrite <- app_assoc in IH. cbn [app] in IH.
    destruct e as [x|c|n]; cbn [gives].
    + destruct (Nat.leb_spec k (length (reads h))) as [G|G].
      * assert (E : k = length (reads h)) by lia. rewrite reads_app, app_length, reads_cons. cbn [length]. destruct (Nat.ltb_spec k (length (reads h) + S (length (reads todo)))); [|lia].
        exists h, x. split; [reflexivity|]. subst k. rewrite firstn_app, firstn_all, Nat.sub_diag. cbn. now rewrite app_nil_r.
      * apply IH. rewrite reads_app, app_length. cbn. lia.
    + apply IH. rewrite reads_app. cbn. now rewrite app_nil_r.
    + apply IH. rewrite reads_app. cbn. now rewrite app_nil_r.
Qed.
Lemma run_memory room todo o : forall h m j, grows todo = seq (S j) m -> j <= room ->
  if Nat.leb (j + m) room then run_from (memory room) h todo o = Returned (h ++ todo) o
  else exists a b, todo = a ++ Grow (S room) :: b /\ run_from (memory room) h todo o = Threw (h ++ a) (Grow (S room)) /\ length (grows a) = room - j.
Proof.
  induction todo as [|e todo IH]; intros h m j G L; cbn [run_from].
  - destruct m; [|discriminate]. destruct (Nat.leb_spec (j + 0) room); [now rewrite app_nil_r|lia].
  - assert (Other : (forall n, e <> Grow n) -> if Nat.leb (j + m) room then run_from (memory room) (h ++ [e]) todo o = Returned (h ++ e :: todo) o
      else exists a b, e :: todo = a ++ Grow (S room) :: b /\ run_from (memory room) (h ++ [e]) todo o = Threw (h ++ a) (Grow (S room)) /\ length (grows a) = room - j).
    { intros N. assert (G' : grows todo = seq (S j) m). { rewrite grows_cons in G. destruct e; [exact G|exact G|now destruct (N size)]. }
      specialize (IH (h ++ [e]) m j G' L). rewrite <- app_assoc in IH. destruct (Nat.leb (j + m) room); [exact IH|]. destruct IH as (a & b & -> & E & K). exists (e :: a), b. rewrite <- app_assoc in E. repeat split; [exact E|].
      rewrite grows_cons. destruct e; [exact K|exact K|now destruct (N size)]. }
    destruct e as [x|c|n]; cbn [memory]; [apply Other; discriminate|apply Other; discriminate|]. clear Other. rewrite grows_cons in G. destruct m as [|m]; [discriminate|]. cbn [seq] in G. injection G as -> G.
    destruct (Nat.ltb_spec room (S j)) as [R|R].
    + assert (j = room) by lia. subst j. destruct (Nat.leb_spec (room + S m) room); [lia|]. exists [], todo. rewrite app_nil_r. cbn. repeat split. lia.
    + specialize (IH (h ++ [Grow (S j)]) m (S j) G R). rewrite <- app_assoc in IH. cbn [app] in IH. replace (S j + m) with (j + S m) in IH by lia.
      destruct (Nat.leb (j + S m) room); [exact IH|]. destruct IH as (a & b & -> & E & K). exists (Grow (S j) :: a), b. rewrite <- app_assoc in E. repeat split; [exact E|].
      rewrite grows_cons. cbn [length]. lia.
Qed.
End Refuse.
(* where in the first pass the string grows *)
Lemma first_cut range : forall nbs k a b n, fst (first_pass_t range nbs k) = a ++ Grow n :: b ->
  exists u c u', range = u ++ c :: u' /\ nonb c = true /\ writes a = map (fun cp => chr cp) (filter is_basic_code_point u) /\ length (grows a) = length (filter nonb u).
Proof.
  induction range as [|c range IH]; intros nbs k a b n; cbn [first_pass_t]; [now destruct a|]. rewrite emit_fst.
  destruct a as [|e a]; [discriminate|]. cbn [app]. intros E. injection E as <- E. rewrite writes_cons, grows_cons. destruct (is_basic_code_point c) eqn:B; rewrite emit_fst in E.
  - destruct a as [|e a]; [discriminate|]. cbn [app] in E. injection E as <- E. apply IH in E as (u & x & u' & -> & Hx & W & G). exists (c :: u), x, u'. rewrite writes_cons, grows_cons. cbn [filter].
    replace (nonb c) with false by (unfold nonb; now rewrite B). rewrite B. cbn [map]. rewrite W. auto.
  - destruct a as [|e a]; cbn [app] in E.
    + exists [], c, range. unfold nonb. rewrite B. auto.
    + injection E as <- E. apply IH in E as (u & x & u' & -> & Hx & W & G). exists (c :: u), x, u'. rewrite writes_cons, grows_cons. cbn [filter]. replace (nonb c) with true by (unfold nonb; now rewrite B). rewrite B. cbn [length]. auto.
Qed.
Lemma encode_cut range plain a b n : fst (encode_t range plain) = a ++ Grow n :: b ->
  exists u c u', range = u ++ c :: u' /\ nonb c = true /\ writes a = map (fun cp => chr cp) (filter is_basic_code_point u) /\ length (grows a) = length (filter nonb u).
Proof.
  intros E. pose proof (encode_grows range plain) as G. revert E G. unfold encode_t. destruct (first_is range [] 0%N) as (A1 & _ & _ & A4). change (w64 0) with 0%N in *.
  rewrite (then_fst _ _ _ A1). match goal with |- _ ++ ?r = _ -> _ => set (R := r) end. intros E G. rewrite grows_app, A4 in G. cbn [length] in G. assert (G' : grows R = []). { apply (app_inv_head (seq 1 (length (filter nonb range)))). now rewrite app_nil_r. } clear G. rename G' into G.
  apply app_eq_app in E as [l [[E1 E2]|[E1 E2]]].
  - destruct l as [|e l].
    + cbn in E2. rewrite <- E2 in G. discriminate.
    + injection E2 as <- E2. eapply first_cut. exact E1.
  - rewrite E2, grows_app, grows_cons in G. destruct (grows l); discriminate.
Qed.
(* decoding writes nothing *)
Definition silent {X A} (t : tr X A) : Prop := writes (fst t) = [].
Lemma silent_then {X A B} (m : tr X A) (f : A -> tr X B) : silent m -> (forall a, silent (f a)) -> silent (andthen m f).
Proof. unfold silent. intros H K. rewrite then_cases. destruct (snd m); cbn [fst]; [|exact H..]. rewrite writes_app, H. apply K. Qed.
Lemma silent_pure {X A} (o : outcome A) : silent (X:=X) (pure o). Proof. reflexivity. Qed.
Lemma silent_ret {X A} (a : A) : silent (X:=X) (ret a). Proof. reflexivity. Qed.
Ltac calm := repeat match goal with
  | |- silent (if ?c then _ else _) => destruct c
  | |- silent (ret _) => reflexivity
  | |- silent (pure _) => reflexivity
  | |- silent (emit _) => reflexivity
  | |- silent (andthen _ _) => apply silent_then
  | |- forall _, _ => intro
  end.
Lemma silent_vli first : forall k w vli bias, silent (decode_vli_loop_t first k w vli bias).
Proof. induction first as [|c first IH]; intros; cbn [decode_vli_loop_t]; calm. apply IH. Qed.
Lemma silent_copy s : forall out, silent (copy_basic_t s out).
Proof. induction s as [|c s IH]; intros; cbn [copy_basic_t]; calm. apply IH. Qed.
Lemma silent_loop fuel : forall inp n index bias out, silent (decode_loop_t fuel inp n index bias out).
Proof.
  induction fuel as [|fuel IH]; intros [|c inp] n index bias out; cbn [decode_loop_t]; calm; [apply silent_vli|]. destruct a as [[i r]|err]; calm. apply IH.
Qed.
Lemma decode_silent asserts s : writes (fst (decode_t asserts s)) = [].
Proof.
  change (silent (decode_t asserts s)). unfold decode_t, copy_plain_ascii_part_t. calm.
  - unfold silent, search_t. cbn [fst]. assert (R : forall l, writes (reading l) = []) by (unfold reading; induction l; [reflexivity|assumption]). rewrite writes_app, R. destruct (asserts && _)%bool; [apply R|reflexivity].
  - destruct a as [b e]. calm; [apply silent_copy|]. destruct a; calm.
  - destruct a as [[out inp]|err]; calm. apply silent_loop.
Qed.
