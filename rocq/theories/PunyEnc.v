(* Punycode: the encoder against the RFC 3492 decoding relation. *)
From Coq Require Import Sorting.Sorted.
From Verif Require Import Base ModelAlgo ModelPuny SpecPuny AlgoFacts PunyFacts PunyLoop.
From Verif Require PctFacts.
Local Open Scope N_scope.
Local Open Scope list_scope.

Notation len l := (N.of_nat (length l)).

(* ---- sort and unique ---------------------------------------------------------------------------------- *)
Lemma insert_sorted_in x l y : In y (insert_sorted x l) <-> y = x \/ In y l.
Proof.
  induction l as [|z l IH]; cbn; [intuition|]. destruct (x <=? z); cbn; [intuition|]. rewrite IH. intuition.
Qed.
Lemma insert_sorted_sorted x l : Sorted N.le l -> Sorted N.le (insert_sorted x l).
Proof.
  induction l as [|z l IH]; intros H; cbn; [repeat constructor|]. destruct (N.leb_spec x z).
  - constructor; [exact H|]. constructor. lia.
  - inversion H; subst. constructor; auto. destruct l as [|y l]; cbn; [constructor; lia|].
    destruct (x <=? y); constructor; [lia|]. inversion H4; auto.
Qed.
Lemma sort_in l y : In y (sort l) <-> In y l.
Proof. induction l as [|x l IH]; cbn; [reflexivity|]. rewrite insert_sorted_in, IH. intuition. Qed.
Lemma sort_sorted l : Sorted N.le (sort l).
Proof. induction l; cbn; [constructor|]. apply insert_sorted_sorted; auto. Qed.
Lemma unique_cons x y l : unique (x :: y :: l) = if x =? y then unique (y :: l) else x :: unique (y :: l).
Proof. reflexivity. Qed.
Lemma unique_in l y : In y (unique l) <-> In y l.
Proof.
  induction l as [|x [|z l] IH]; [reflexivity|reflexivity|]. rewrite unique_cons.
  destruct (N.eqb_spec x z) as [->|]; [rewrite IH; cbn; intuition|]. cbn [In] in *. rewrite IH. intuition.
Qed.
Lemma unique_strict l : Sorted N.le l -> StronglySorted N.lt (unique l).
Proof.
  intros H. apply Sorted_StronglySorted in H; [|intros a b c; lia].
  induction H as [|x l Hs IH Hf]; [constructor|].
  destruct l as [|z l]; [repeat constructor|]. rewrite unique_cons.
  destruct (N.eqb_spec x z) as [->|Hne]; [exact IH|]. constructor; [exact IH|].
  apply Forall_forall. intros y Hy. apply (proj1 (unique_in _ _)) in Hy.
  assert (x <= z) by (rewrite Forall_forall in Hf; apply Hf; left; reflexivity).
  destruct Hy as [<-|Hy]; [lia|]. inversion Hs; subst. rewrite Forall_forall in *.
  assert (z <= y) by auto. lia.
Qed.

(* ---- filters -------------------------------------------------------------------------------------------- *)
Lemma filter_len_le {A} (f : A -> bool) l : (length (filter f l) <= length l)%nat.
Proof. induction l; cbn; [lia|]. destruct (f a); cbn; lia. Qed.
Lemma filter_ext_in' {A} (f g : A -> bool) l : (forall x, In x l -> f x = g x) -> filter f l = filter g l.
Proof. apply filter_ext_in. Qed.

(* ---- one pass over the input ---------------------------------------------------------------------------- *)
(* The RFC decoder's state (n0, i0, bias, out) after reading what has been written so far, and the
   encoder's view of it: out = lo ++ hi, the code points before / after the point of scanning. *)
Definition inv (nb n : N) (lo hi : list N) (n0 i0 : N) (s : enc_state) : Prop :=
  e_i s = len lo + len hi /\ 128 <= n0 <= n /\ n <= p32 /\ e_bias s <= 450 /\
  (i0 =? 0) = (e_i s =? nb) /\ nb <= e_i s /\
  i0 + e_delta s = (n - n0) * (e_i s + 1) + len lo.

Lemma inv_delta nb n lo hi n0 i0 s : inv nb n lo hi n0 i0 s -> len lo + len hi < p32 -> e_delta s <= p32 * p32 - 127 * p32.
Proof.
  intros (Ei & Hn & Hn2 & _ & _ & _ & E) H. assert (p32 = 4294967296) by reflexivity.
  rewrite Ei in E. assert ((n - n0) * (len lo + len hi + 1) <= (p32 - 128) * p32) by nia. nia.
Qed.

Lemma div_mod_unique' b q r : r < b -> (q * b + r) / b = q /\ (q * b + r) mod b = r.
Proof.
  intros H. split.
  - symmetry. apply (N.div_unique _ _ _ r); lia.
  - symmetry. apply (N.mod_unique _ _ q); lia.
Qed.

Lemma pass_ok nb n todo : forall done n0 i0 s, n < p32 -> len done + len todo < p32 ->
  inv nb n (filter (fun c => c <=? n) done) (filter (fun c => c <? n) todo) n0 i0 s ->
  exists s' text n0' i0', encode_pass todo n nb s = Ok s'
    /\ inv nb n (filter (fun c => c <=? n) (done ++ todo)) [] n0' i0' s'
    /\ e_out s' = e_out s ++ text /\ (forall c, In c text -> In c lower_digits)
    /\ forall rest final,
       decoding n0' i0' (e_bias s') (filter (fun c => c <=? n) (done ++ todo)) rest final ->
       decoding n0 i0 (e_bias s) (filter (fun c => c <=? n) done ++ filter (fun c => c <? n) todo) (text ++ rest) final.
Proof.
  assert (Hp : p32 = 4294967296) by reflexivity.
  induction todo as [|c todo IH]; intros done n0 i0 s Hn Hl Hinv.
  - exists s, [], n0, i0. cbn [encode_pass filter app] in *. rewrite !app_nil_r. repeat split; auto; try apply Hinv. intros ? [].
  - replace (done ++ c :: todo) with ((done ++ [c]) ++ todo) by (rewrite <- app_assoc; reflexivity).
    assert (Hl' : len (done ++ [c]) + len todo < p32) by (rewrite app_length; cbn [length] in *; lia).
    pose proof (filter_len_le (fun c => c <=? n) done) as Hlo. pose proof (filter_len_le (fun c => c <? n) (c :: todo)) as Hhi.
    pose proof (inv_delta _ _ _ _ _ _ _ Hinv ltac:(lia)) as Hdelta.
    destruct Hinv as (Ei & Hn0 & Hn32 & Hb & Hft & Hnb & E).
    cbn [encode_pass]. destruct (N.ltb_spec c n) as [Hlt|Hge].
    + (* passed over: delta counts it *)
      rewrite (w64_small (e_delta s + 1)) by (rewrite sz; lia).
      set (s1 := {| e_out := e_out s; e_i := e_i s; e_delta := e_delta s + 1; e_bias := e_bias s |}).
      specialize (IH (done ++ [c]) n0 i0 s1 Hn Hl').
      rewrite filter_app in IH. cbn [filter] in *.
      rewrite (proj2 (N.ltb_lt c n) Hlt) in *. rewrite (proj2 (N.leb_le c n) ltac:(lia)) in IH.
      destruct IH as (s' & text & n0' & i0' & E1 & Hi' & Eo & Hd & Hdec).
      { unfold inv, s1; cbn [e_i e_delta e_bias]. rewrite app_length. cbn [length] in *. repeat split; auto; try lia. }
      exists s', text, n0', i0'. split; [exact E1|]. split; [exact Hi'|]. split; [exact Eo|]. split; [exact Hd|].
      intros rest final H. apply Hdec in H. rewrite <- app_assoc in H. exact H.
    + destruct (N.eqb_spec c n) as [->|Hne].
      * (* emitted *)
        destruct (encode_vli_ok (e_delta s) (e_bias s) (e_out s)) as (word & Ew & Hv & Hw); [rewrite sz; lia|exact Hb|].
        rewrite Ew. cbn [bind]. cbn [filter] in *. rewrite N.ltb_irrefl in *.
        set (lo := filter (fun c => c <=? n) done) in *. set (hi := filter (fun c => c <? n) todo) in *.
        rewrite (w64_small (e_i s + 1)) by (rewrite sz; nia).
        destruct (adapt_ok (e_delta s) (e_i s + 1) (e_i s =? nb)) as (b' & Eb & Hab & Hb'); [rewrite sz; lia|lia|].
        rewrite Eb. cbn [bind].
        set (s1 := {| e_out := e_out s ++ word; e_i := e_i s + 1; e_delta := 0; e_bias := b' |}).
        specialize (IH (done ++ [n]) n (len lo + 1) s1 Hn Hl').
        rewrite filter_app in IH. cbn [filter] in IH. rewrite N.leb_refl in IH. fold lo hi in IH.
        destruct IH as (s' & text & n0' & i0' & E1 & Hi' & Eo & Hd & Hdec).
        { unfold inv, s1; cbn [e_i e_delta e_bias]. rewrite app_length. cbn [length]. repeat split; auto; lia. }
        exists s', (word ++ text), n0', i0'. split; [exact E1|]. split; [exact Hi'|].
        split; [rewrite Eo; unfold s1; cbn [e_out]; rewrite app_assoc; reflexivity|].
        split; [intros x Hx; apply in_app_or in Hx as [Hx|Hx]; auto|].
        intros rest final H. apply Hdec in H. rewrite <- app_assoc in H |- *. cbn [app] in H.
        assert (Hsize : len (lo ++ hi) + 1 = e_i s + 1) by (rewrite app_length; lia).
        destruct (div_mod_unique' (e_i s + 1) (n - n0) (len lo)) as [Hq Hr]; [lia|].
        apply (dc_step n0 i0 (e_bias s) lo hi (e_delta s) b' n (len lo) word (text ++ rest) final Hv); rewrite ?Hsize.
        -- rewrite Hft. exact Hab.
        -- rewrite E, Hq. lia.
        -- rewrite E, Hr. reflexivity.
        -- reflexivity.
        -- exact H.
      * (* not yet *)
        specialize (IH (done ++ [c]) n0 i0 s Hn Hl').
        rewrite filter_app in IH. cbn [filter] in *.
        rewrite (proj2 (N.ltb_ge c n) Hge) in *. rewrite (proj2 (N.leb_gt c n) ltac:(lia)) in IH.
        rewrite app_nil_r in IH. apply IH. unfold inv. repeat split; auto; lia.
Qed.

(* ---- all passes ------------------------------------------------------------------------------------------ *)
Lemma loop_ok nb u ms : forall n n0 i0 s, len u < p32 -> (forall c, In c u -> c < p32) -> n <= p32 ->
  (forall c, In c u -> n <= c -> In c ms) -> (forall m, In m ms -> In m u /\ n <= m) -> StronglySorted N.lt ms ->
  inv nb n [] (filter (fun c => c <? n) u) n0 i0 s ->
  exists text, encode_loop ms u n nb s = Ok (e_out s ++ text) /\ (forall c, In c text -> In c lower_digits)
    /\ decoding n0 i0 (e_bias s) (filter (fun c => c <? n) u) text u.
Proof.
  assert (Hp : p32 = 4294967296) by reflexivity.
  induction ms as [|m ms IH]; intros n n0 i0 s Hl Hu Hn Hall Hms Hsort Hinv.
  - exists []. rewrite app_nil_r. split; [reflexivity|]. split; [intros ? []|].
    assert (E : filter (fun c => c <? n) u = u); [|rewrite E; constructor].
    clear - Hall. induction u as [|c u IH]; cbn; [reflexivity|].
    destruct (N.ltb_spec c n); [rewrite IH; [reflexivity|]|destruct (Hall c (or_introl eq_refl) H)].
    intros x Hx; apply Hall; right; exact Hx.
  - destruct (Hms m (or_introl eq_refl)) as [Hmu Hnm]. pose proof (Hu m Hmu) as Hm.
    cbn [encode_loop]. destruct (N.ltb_spec m n); [lia|].
    inversion Hsort as [|? ? Hs Hf]; subst. rewrite Forall_forall in Hf.
    assert (Efil : filter (fun c => c <? n) u = filter (fun c => c <? m) u).
    { apply filter_ext_in. intros c Hc. destruct (N.ltb_spec c n), (N.ltb_spec c m); auto; [lia|].
      exfalso. destruct (Hall c Hc ltac:(lia)) as [<-|Hin]; [lia|]. apply Hf in Hin. lia. }
    rewrite Efil in *. pose proof (filter_len_le (fun c => c <? m) u) as Hfl.
    pose proof (inv_delta _ _ _ _ _ _ _ Hinv ltac:(cbn [length]; lia)) as Hdelta.
    destruct Hinv as (Ei & Hn0 & Hn32 & Hb & Hft & Hnb & E). cbn [length] in Ei, E.
    assert (Hnew : i0 + (e_delta s + (m - n) * (e_i s + 1)) = (m - n0) * (e_i s + 1) + 0).
    { replace (m - n0) with ((m - n) + (n - n0)) by lia. rewrite N.mul_add_distr_r. lia. }
    assert (Hsmall : (m - n0) * (e_i s + 1) <= (p32 - 128) * p32) by (rewrite Ei; nia).
    rewrite (w64_small (e_i s + 1)) by (rewrite sz; nia).
    rewrite (w64_small ((m - n) * _)) by (rewrite sz; nia).
    rewrite (w64_small (e_delta s + _)) by (rewrite sz; nia).
    set (s1 := {| e_out := e_out s; e_i := e_i s; e_delta := e_delta s + (m - n) * (e_i s + 1); e_bias := e_bias s |}).
    destruct (pass_ok nb m u [] n0 i0 s1) as (s' & text & n0' & i0' & E1 & Hi' & Eo & Hd & Hdec); [lia|cbn [length]; lia| |].
    { unfold inv, s1; cbn [e_i e_delta e_bias length filter]. repeat split; auto; lia. }
    cbn [app] in *. rewrite E1. cbn [bind].
    assert (Efil2 : filter (fun c => c <=? m) u = filter (fun c => c <? m + 1) u).
    { apply filter_ext_in. intros c _. destruct (N.leb_spec c m), (N.ltb_spec c (m + 1)); auto; lia. }
    rewrite Efil2 in *. pose proof (filter_len_le (fun c => c <? m + 1) u) as Hfl2.
    pose proof (inv_delta _ _ _ _ _ _ _ Hi' ltac:(cbn [length]; lia)) as Hdelta'.
    destruct Hi' as (Ei' & Hn0' & Hn32' & Hb' & Hft' & Hnb' & E'). cbn [length] in Ei', E'.
    rewrite (w64_small (m + 1)) by (rewrite sz; nia). rewrite (w64_small (e_delta s' + 1)) by (rewrite sz; nia).
    set (s2 := {| e_out := e_out s'; e_i := e_i s'; e_delta := e_delta s' + 1; e_bias := e_bias s' |}).
    destruct (IH (m + 1) n0' i0' s2) as (text2 & E2 & Hd2 & Hdec2); auto; try lia.
    + intros c Hc Hle. destruct (Hall c Hc ltac:(lia)) as [<-|Hin]; [lia|exact Hin].
    + intros x Hx. split; [apply Hms; right; exact Hx|]. apply Hf in Hx. lia.
    + unfold inv, s2; cbn [e_i e_delta e_bias length]. repeat split; auto; try lia.
      replace (m + 1 - n0') with ((m - n0') + 1) by lia. rewrite N.mul_add_distr_r. lia.
    + exists (text ++ text2). rewrite E2. unfold s2, s1 in *; cbn [e_out e_bias] in *. rewrite Eo.
      split; [rewrite <- app_assoc; reflexivity|]. split; [intros x Hx; apply in_app_or in Hx as [Hx|Hx]; auto|].
      apply (Hdec text2 u). exact Hdec2.
Qed.

(* ---- encode ------------------------------------------------------------------------------------------------ *)
Definition basics (u : list N) : str := map chr (filter (fun c => c <? 0x80) u).
Definition has_non_basic (u : list N) : bool := existsb (fun c => negb (c <? 0x80)) u.

Lemma codes_basics u : map code (basics u) = filter (fun c => c <? 0x80) u.
Proof.
  unfold basics. rewrite map_map. induction u as [|c u IH]; cbn; [reflexivity|].
  destruct (N.ltb_spec c 128); cbn; [|exact IH]. rewrite IH. f_equal. apply PctFacts.code_chr. lia.
Qed.

Lemma encode_ok u plain : len u < p32 -> (forall c, In c u -> c < p32) ->
  (plain = true /\ has_non_basic u = false /\ encode u plain = Ok (basics u, false)) \/
  exists digits, encode u plain = Ok ((if existsb (fun c => c <? 0x80) u then basics u ++ [hyphen] else []) ++ digits, has_non_basic u)
    /\ (plain = false \/ has_non_basic u = true)
    /\ (forall c, In c digits -> In c lower_digits)
    /\ decoding rfc_initial_n 0 rfc_initial_bias (filter (fun c => c <? 0x80) u) digits u.
Proof.
  intros Hl Hu. assert (Hp : p32 = 4294967296) by reflexivity. unfold encode.
  set (nonb := filter (fun cp => negb (is_basic_code_point cp)) u).
  assert (Hany : match nonb with [] => false | _ => true end = has_non_basic u).
  { unfold nonb, has_non_basic. clear. induction u as [|c u IH]; cbn; [reflexivity|].
    unfold is_basic_code_point at 1. destruct (c <? 128); cbn; [exact IH|reflexivity]. }
  rewrite Hany. destruct (plain && negb (has_non_basic u)) eqn:Epl.
  { left. apply andb_prop in Epl as [-> Hn]. apply negb_true_iff in Hn. auto. }
  right. pose proof (filter_len_le is_basic_code_point u) as Hfl.
  rewrite w64_small by (rewrite sz; nia).
  set (nb := len (filter is_basic_code_point u)).
  set (ms := sort_and_remove_duplicates nonb).
  assert (Hin : forall c, In c ms <-> In c u /\ 128 <= c).
  { intros c. unfold ms, sort_and_remove_duplicates. rewrite unique_in, sort_in. unfold nonb. rewrite filter_In.
    unfold is_basic_code_point. rewrite negb_true_iff, N.ltb_ge. reflexivity. }
  assert (Hany2 : match ms with [] => false | _ => true end = has_non_basic u).
  { rewrite <- Hany. destruct ms eqn:Em, nonb eqn:En; auto.
    - exfalso. assert (In n nonb) by (rewrite En; left; reflexivity). unfold nonb in H. apply filter_In in H as [H1 H2].
      apply (Hin n). split; [exact H1|]. unfold is_basic_code_point in H2. apply negb_true_iff, N.ltb_ge in H2. exact H2.
    - exfalso. unfold ms in Em. discriminate. }
  rewrite Hany2.
  set (out0 := if 0 <? nb then _ else _).
  destruct (loop_ok nb u ms initial_n 128 0 {| e_out := out0; e_i := nb; e_delta := 0; e_bias := initial_bias |}) as (text & E & Hd & Hdec); auto.
  - unfold initial_n; lia.
  - intros c Hc Hge. apply Hin. auto.
  - intros c Hc. apply Hin in Hc. exact Hc.
  - unfold ms, sort_and_remove_duplicates. apply unique_strict, sort_sorted.
  - unfold inv; cbn [e_i e_delta e_bias length]. unfold initial_n, initial_bias.
    repeat split; try lia; try reflexivity.
  - rewrite E. cbn [bind]. exists text. split; [|split; [|split; [exact Hd|exact Hdec]]].
    + do 3 f_equal. unfold e_out, out0. 
      assert (Hex : (0 <? nb) = existsb (fun c => c <? 128) u).
      { unfold nb, is_basic_code_point. clear. induction u as [|c u IH]; cbn; [reflexivity|]. destruct (c <? 128); cbn; [reflexivity|exact IH]. }
      rewrite Hex. unfold basics, is_basic_code_point. destruct (existsb _ u) eqn:Ee; [reflexivity|].
      assert (filter (fun c => c <? 128) u = []) as ->; [|reflexivity].
      clear - Ee. induction u as [|c u IH]; cbn in *; [reflexivity|]. destruct (c <? 128); [discriminate|]. apply IH, Ee.
    + destruct plain; [right|left; reflexivity]. destruct (has_non_basic u); [reflexivity|discriminate].
Qed.
