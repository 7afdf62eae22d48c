(* UTF-8: the form of scalar values, table 3-7, and the decoder's automaton *)
From Verif Require Import Base ModelIcu SpecIcu.
Local Open Scope N_scope.
Local Open Scope list_scope.
Ltac pw := change (2 ^ 6) with 64 in *; change (2 ^ 12) with 4096 in *; change (2 ^ 18) with 262144 in *; change (2 ^ 10) with 1024 in *.
Ltac nlia := pw; zify; Z.to_euclidean_division_equations; lia.

Lemma utf8_scalar c w : utf8_of c w -> scalar c.
Proof. intros []; unfold scalar in *; nlia. Qed.
Lemma utf8_nonempty c w : utf8_of c w -> w <> [].
Proof. intros []; discriminate. Qed.

Lemma utf8_row c w : utf8_of c w -> table_3_7 w.
Proof.
  intros [x H|x H1 H2|x H1 H2 [H3|H3]|x H1 H2].
  - apply row1. unfold between; nlia.
  - apply row2; unfold between; nlia.
  - destruct (N.lt_ge_cases x 0x1000).
    + replace (0xE0 + x / 2 ^ 12) with 0xE0 by nlia. apply row3; unfold between; nlia.
    + destruct (N.lt_ge_cases x 0xD000).
      * apply row4; unfold between; nlia.
      * replace (0xE0 + x / 2 ^ 12) with 0xED by nlia. apply row5; unfold between; nlia.
  - apply row6; unfold between; nlia.
  - destruct (N.lt_ge_cases x 0x40000).
    + replace (0xF0 + x / 2 ^ 18) with 0xF0 by nlia. apply row7; unfold between; nlia.
    + destruct (N.lt_ge_cases x 0x100000).
      * apply row8; unfold between; nlia.
      * replace (0xF0 + x / 2 ^ 18) with 0xF4 by nlia. apply row9; unfold between; nlia.
Qed.

Lemma utf8_2' a b : between 0xC2 0xDF a -> between 0x80 0xBF b -> utf8_of ((a - 0xC0) * 64 + (b - 0x80)) [a; b].
Proof.
  unfold between. intros. set (c := (a - 0xC0) * 64 + (b - 0x80)).
  assert (E : [a; b] = [0xC0 + c / 2 ^ 6; 0x80 + c mod 2 ^ 6]) by (repeat f_equal; unfold c; nlia).
  rewrite E. apply utf8_2; unfold c; nlia.
Qed.
Lemma utf8_3' a b d : between 0xE0 0xEF a -> between 0x80 0xBF b -> between 0x80 0xBF d ->
  let c := ((a - 0xE0) * 64 + (b - 0x80)) * 64 + (d - 0x80) in 0x800 <= c -> scalar c -> utf8_of c [a; b; d].
Proof.
  intros ? ? ? c ? ?. unfold between in *.
  assert (E : [a; b; d] = [0xE0 + c / 2 ^ 12; 0x80 + c / 2 ^ 6 mod 2 ^ 6; 0x80 + c mod 2 ^ 6]) by (repeat f_equal; unfold c; nlia).
  rewrite E. apply utf8_3; try assumption; unfold c; nlia.
Qed.
Lemma utf8_4' a b d e : between 0xF0 0xF4 a -> between 0x80 0xBF b -> between 0x80 0xBF d -> between 0x80 0xBF e ->
  let c := (((a - 0xF0) * 64 + (b - 0x80)) * 64 + (d - 0x80)) * 64 + (e - 0x80) in 0x10000 <= c -> c < 0x110000 -> utf8_of c [a; b; d; e].
Proof.
  intros ? ? ? ? c ? ?. unfold between in *.
  assert (E : [a; b; d; e] = [0xF0 + c / 2 ^ 18; 0x80 + c / 2 ^ 12 mod 2 ^ 6; 0x80 + c / 2 ^ 6 mod 2 ^ 6; 0x80 + c mod 2 ^ 6])
    by (repeat f_equal; unfold c; nlia).
  rewrite E. apply utf8_4; assumption.
Qed.

Lemma row_utf8 w : table_3_7 w -> exists c, utf8_of c w.
Proof.
  unfold between. intros []; unfold between in *.
  - eexists. apply utf8_1. nlia.
  - eexists. apply utf8_2'; unfold between; nlia.
  - eexists. apply utf8_3'; unfold between, scalar; nlia.
  - eexists. apply utf8_3'; unfold between, scalar; nlia.
  - eexists. apply utf8_3'; unfold between, scalar; nlia.
  - eexists. apply utf8_3'; unfold between, scalar; nlia.
  - eexists. apply utf8_4'; unfold between; nlia.
  - eexists. apply utf8_4'; unfold between; nlia.
  - eexists. apply utf8_4'; unfold between; nlia.
Qed.

(* the form determines the value *)
Lemma utf8_value c w : utf8_of c w -> match w with
  | [a] => c = a
  | [a; b] => c = (a - 0xC0) * 64 + (b - 0x80)
  | [a; b; d] => c = ((a - 0xE0) * 64 + (b - 0x80)) * 64 + (d - 0x80)
  | [a; b; d; e] => c = (((a - 0xF0) * 64 + (b - 0x80)) * 64 + (d - 0x80)) * 64 + (e - 0x80)
  | _ => False
  end.
Proof. intros [x H|x H1 H2|x H1 H2 [H3|H3]|x H1 H2]; nlia. Qed.

Ltac rows := match goal with H : table_3_7 _ |- _ => inversion H; subst; clear H end; unfold between in *.

Lemma row_prefix w v : table_3_7 w -> table_3_7 (w ++ v) -> v = [].
Proof.
  intros H H'. destruct H; cbn [app] in H'; inversion H'; subst; try reflexivity; unfold between in *; exfalso; nlia.
Qed.
Lemma utf8_prefix c c' w v : utf8_of c w -> utf8_of c' (w ++ v) -> v = [] /\ c = c'.
Proof.
  intros H H'. assert (E : v = []) by exact (row_prefix w v (utf8_row _ _ H) (utf8_row _ _ H')). split; [exact E|].
  subst v. rewrite app_nil_r in H'. apply utf8_value in H. apply utf8_value in H'.
  destruct w as [|a [|b [|d [|e [|]]]]]; try contradiction; congruence.
Qed.

(* --- the automaton ---------------------------------------------------------------------------------------- *)
Definition cls (u : N) : N :=
  if u <? 0x80 then 0 else if u <? 0x90 then 1 else if u <? 0xA0 then 9 else if u <? 0xC0 then 7
  else if u <? 0xC2 then 8 else if u <? 0xE0 then 2 else if u <? 0xE1 then 10 else if u <? 0xED then 3
  else if u <? 0xEE then 4 else if u <? 0xF0 then 3 else if u <? 0xF1 then 11 else if u <? 0xF4 then 6
  else if u <? 0xF5 then 5 else 8.
Lemma cls_table u : u < 256 -> nth_error utf8d (N.to_nat u) = Some (cls u).
Proof.
  intros H. assert (B : forallb (fun k => match nth_error utf8d k with Some x => x =? cls (N.of_nat k) | None => false end) (seq 0 256) = true)
    by (vm_compute; reflexivity).
  rewrite forallb_forall in B. specialize (B (N.to_nat u)). rewrite in_seq in B.
  specialize (B ltac:(lia)). rewrite N2Nat.id in B. destruct (nth_error utf8d (N.to_nat u)) as [x|]; [|discriminate].
  apply N.eqb_eq in B. congruence.
Qed.

(* what has been read of the current form, and the automaton's fields after it *)
Inductive pending : list N -> N -> N -> Prop :=
| pd_2 a : between 0xC2 0xDF a -> pending [a] 24 (a - 0xC0)
| pd_E0 : pending [0xE0] 48 0
| pd_E a : between 0xE1 0xEC a \/ between 0xEE 0xEF a -> pending [a] 36 (a - 0xE0)
| pd_ED : pending [0xED] 60 0xD
| pd_E2 a b : between 0xE0 0xEF a -> between 0x80 0xBF b -> (a = 0xE0 -> 0xA0 <= b) -> (a = 0xED -> b < 0xA0) ->
    pending [a; b] 24 ((a - 0xE0) * 64 + (b - 0x80))
| pd_F0 : pending [0xF0] 72 0
| pd_F a : between 0xF1 0xF3 a -> pending [a] 84 (a - 0xF0)
| pd_F4 : pending [0xF4] 96 4
| pd_F2 a b : between 0xF0 0xF4 a -> between 0x80 0xBF b -> (a = 0xF0 -> 0x90 <= b) -> (a = 0xF4 -> b < 0x90) ->
    pending [a; b] 36 ((a - 0xF0) * 64 + (b - 0x80))
| pd_F3 a b c : between 0xF0 0xF4 a -> between 0x80 0xBF b -> (a = 0xF0 -> 0x90 <= b) -> (a = 0xF4 -> b < 0x90) ->
    between 0x80 0xBF c -> pending [a; b; c] 24 (((a - 0xF0) * 64 + (b - 0x80)) * 64 + (c - 0x80)).

Inductive inv8 : list N -> s8 -> Prop :=
| i8_accept cp wf : inv8 [] (S8 cp wf 0)
| i8_pending p st cp wf : pending p st cp -> inv8 p (S8 cp wf st).

Lemma land_3f u : N.land u 0x3F = u mod 64.
Proof. change 0x3F with (N.ones 6). rewrite N.land_ones. reflexivity. Qed.
Lemma land_high a b k : a < 2 ^ k -> N.land a (b * 2 ^ k) = 0.
Proof.
  intros H. destruct (N.eq_dec a 0) as [->|Z]; [apply N.land_0_l|].
  apply N.bits_inj. intros i. rewrite N.land_spec, N.bits_0.
  destruct (N.lt_ge_cases i k) as [L|L].
  - rewrite N.mul_pow2_bits_low by exact L. apply andb_false_r.
  - rewrite (N.bits_above_log2 a i); [reflexivity|].
    apply N.log2_lt_pow2; [lia|]. eapply N.lt_le_trans; [exact H|]. apply N.pow_le_mono_r; lia.
Qed.
Lemma lor_low a b k : a < 2 ^ k -> N.lor a (N.shiftl b k) = b * 2 ^ k + a.
Proof.
  intros H. rewrite N.shiftl_mul_pow2, N.add_comm.
  rewrite <- N.lxor_lor by (apply land_high; exact H).
  symmetry. apply N.add_nocarry_lxor. apply land_high; exact H.
Qed.
Lemma continue_cp cp u : cp < 2 ^ 15 -> N.lor (N.land u 0x3F) (N.shiftl cp 6 mod 2 ^ 32) mod 2 ^ code_point_bits = cp * 64 + u mod 64.
Proof.
  intros H. change (2 ^ 15) with 32768 in H. rewrite (N.mod_small (N.shiftl cp 6)).
  - rewrite land_3f, lor_low.
    + change (2 ^ code_point_bits) with 2097152. change (2 ^ 6) with 64. nlia.
    + change (2 ^ 6) with 64. apply N.mod_lt. discriminate.
  - rewrite N.shiftl_mul_pow2. change (2 ^ 6) with 64. change (2 ^ 32) with 4294967296. lia.
Qed.

Definition dead8 (w : list N) : Prop := ~ incomplete8 w /\ ~ exists c, utf8_of c w.
Lemma dead8_rows w : (forall v, ~ table_3_7 (w ++ v)) -> dead8 w.
Proof.
  intros H. split.
  - intros (c & v & _ & U). apply (H v). eapply utf8_row; eassumption.
  - intros (c & U). apply (H []). rewrite app_nil_r. eapply utf8_row; eassumption.
Qed.

Lemma first_cp u : u < 256 -> cls u <> 8 -> cls u <> 1 -> cls u <> 9 -> cls u <> 7 ->
  N.land (N.shiftr 0xFF (cls u)) u mod 2 ^ code_point_bits =
  u - (if u <? 0x80 then 0 else if u <? 0xE0 then 0xC0 else if u <? 0xF0 then 0xE0 else 0xF0).
Proof.
  intros H.
  assert (B : forallb (fun k => let u := N.of_nat k in
     (cls u =? 8) || (cls u =? 1) || (cls u =? 9) || (cls u =? 7) ||
     (N.land (N.shiftr 0xFF (cls u)) u mod 2 ^ code_point_bits =?
      u - (if u <? 0x80 then 0 else if u <? 0xE0 then 0xC0 else if u <? 0xF0 then 0xE0 else 0xF0))) (seq 0 256) = true)
    by (vm_compute; reflexivity).
  rewrite forallb_forall in B. specialize (B (N.to_nat u)). rewrite in_seq in B.
  specialize (B ltac:(lia)). cbv beta zeta in B. rewrite N2Nat.id in B. intros.
  repeat (apply orb_prop in B; destruct B as [B|B]); apply N.eqb_eq in B; congruence.
Qed.

Lemma cls_cases u : u < 256 ->
  (u < 0x80 /\ cls u = 0) \/ (between 0x80 0x8F u /\ cls u = 1) \/ (between 0x90 0x9F u /\ cls u = 9)
  \/ (between 0xA0 0xBF u /\ cls u = 7) \/ (between 0xC0 0xC1 u /\ cls u = 8) \/ (between 0xC2 0xDF u /\ cls u = 2)
  \/ (u = 0xE0 /\ cls u = 10) \/ (between 0xE1 0xEC u /\ cls u = 3) \/ (u = 0xED /\ cls u = 4)
  \/ (between 0xEE 0xEF u /\ cls u = 3) \/ (u = 0xF0 /\ cls u = 11) \/ (between 0xF1 0xF3 u /\ cls u = 6)
  \/ (u = 0xF4 /\ cls u = 5) \/ (between 0xF5 0xFF u /\ cls u = 8).
Proof.
  unfold between. intros H. unfold cls.
  repeat match goal with |- context [?a <? ?b] => destruct (N.ltb_spec a b) end; lia.
Qed.

Ltac dead := apply dead8_rows; intros v Hv; cbn [app] in Hv; inversion Hv; subst; unfold between in *; lia.
Ltac clsplit H := repeat (destruct H as [H|H]); destruct H as [Hu Hc].

Lemma utf8_eq c c' w : utf8_of c' w -> c = c' -> utf8_of c w.
Proof. congruence. Qed.
Lemma pending_eq p st cp cp' : pending p st cp' -> cp = cp' -> pending p st cp.
Proof. congruence. Qed.

Lemma step8_accept cp wf u : u < 256 ->
  (exists c, utf8_of c [u] /\ t8_32_call (S8 cp wf 0) u = Ok (S8 c wf 0, [c]))
  \/ (exists st cp', pending [u] st cp' /\ t8_32_call (S8 cp wf 0) u = Ok (S8 cp' wf st, []))
  \/ (dead8 [u] /\ exists cp', t8_32_call (S8 cp wf 0) u = Ok (S8 cp' false 0, [fffd])).
Proof.
  intros H. unfold t8_32_call. rewrite (cls_table _ H). cbn [s8_state s8_cp s8_wf].
  change (negb (0 =? accept)) with false. cbv beta iota zeta.
  pose proof (first_cp u H) as F.
  set (x := N.land (N.shiftr 0xFF (cls u)) u mod 2 ^ code_point_bits) in *. clearbody x.
  pose proof (cls_cases u H) as C. clsplit C; rewrite Hc in *;
    match goal with |- context [nth_error utf8d (N.to_nat ?k)] =>
      let y := eval vm_compute in (nth_error utf8d (N.to_nat k)) in change (nth_error utf8d (N.to_nat k)) with y end;
    cbv beta iota; cbn [N.eqb accept reject Pos.eqb];
    try (right; right; split; [dead|eexists; reflexivity]);
    (assert (F' := F ltac:(discriminate) ltac:(discriminate) ltac:(discriminate) ltac:(discriminate))); clear F;
    unfold between in *.
  - left. destruct (N.ltb_spec u 0x80); [|lia]. exists x. split; [|reflexivity]. rewrite F', N.sub_0_r. now apply utf8_1.
  - right; left. do 2 eexists; split; [|reflexivity]. eapply pending_eq; [apply pd_2; exact Hu|].
    rewrite F'. destruct (N.ltb_spec u 0x80); [lia|]. destruct (N.ltb_spec u 0xE0); lia.
  - right; left. do 2 eexists; split; [|reflexivity]. subst u. rewrite F'. apply pd_E0.
  - right; left. do 2 eexists; split; [|reflexivity]. eapply pending_eq; [apply pd_E; left; exact Hu|].
    rewrite F'. destruct (N.ltb_spec u 0x80); [lia|]. destruct (N.ltb_spec u 0xE0); [lia|]. destruct (N.ltb_spec u 0xF0); lia.
  - right; left. do 2 eexists; split; [|reflexivity]. subst u. rewrite F'. apply pd_ED.
  - right; left. do 2 eexists; split; [|reflexivity]. eapply pending_eq; [apply pd_E; right; exact Hu|].
    rewrite F'. destruct (N.ltb_spec u 0x80); [lia|]. destruct (N.ltb_spec u 0xE0); [lia|]. destruct (N.ltb_spec u 0xF0); lia.
  - right; left. do 2 eexists; split; [|reflexivity]. subst u. rewrite F'. apply pd_F0.
  - right; left. do 2 eexists; split; [|reflexivity]. eapply pending_eq; [apply pd_F; exact Hu|].
    rewrite F'. destruct (N.ltb_spec u 0x80); [lia|]. destruct (N.ltb_spec u 0xE0); [lia|]. destruct (N.ltb_spec u 0xF0); lia.
  - right; left. do 2 eexists; split; [|reflexivity]. subst u. rewrite F'. apply pd_F4.
Qed.

Lemma pending_small p st cp : pending p st cp -> cp < 2 ^ 15.
Proof. change (2 ^ 15) with 32768. intros []; unfold between in *; lia. Qed.
Lemma cont_mod u : between 0x80 0xBF u -> u mod 64 = u - 0x80.
Proof. unfold between. nlia. Qed.

Lemma step8_pending p st cp wf u : pending p st cp -> u < 256 ->
  (exists c, utf8_of c (p ++ [u]) /\ t8_32_call (S8 cp wf st) u = Ok (S8 c wf 0, [c]))
  \/ (exists st' cp', pending (p ++ [u]) st' cp' /\ t8_32_call (S8 cp wf st) u = Ok (S8 cp' wf st', []))
  \/ (dead8 (p ++ [u]) /\ exists cp', t8_32_call (S8 cp wf st) u = Ok (S8 cp' false 0, [fffd])).
Proof.
  intros P H. unfold t8_32_call. rewrite (cls_table _ H). cbn [s8_state s8_cp s8_wf].
  pose proof (continue_cp cp u (pending_small _ _ _ P)) as F.
  assert (NA : negb (st =? accept) = true) by (destruct P; reflexivity). rewrite NA. clear NA. cbv beta iota zeta.
  rewrite F. clear F.
  assert (M : between 0x80 0xBF u -> u mod 64 = u - 0x80) by apply cont_mod.
  set (m := u mod 64) in *. clearbody m.
  pose proof (cls_cases u H) as C.
  destruct P; clsplit C; rewrite Hc in *;
    match goal with |- context [nth_error utf8d (N.to_nat ?k)] =>
      let y := eval vm_compute in (nth_error utf8d (N.to_nat k)) in change (nth_error utf8d (N.to_nat k)) with y end;
    cbv beta iota; cbn [N.eqb accept reject Pos.eqb app];
    try (right; right; split; [dead|eexists; reflexivity]);
    (rewrite M by (unfold between in *; lia)); clear M;
    first
    [ left; eexists; split; [|reflexivity];
      first [ apply utf8_2'; unfold between in *; lia
            | apply utf8_3'; unfold between, scalar in *; lia
            | apply utf8_4'; unfold between in *; lia
            | eapply utf8_eq; [apply utf8_3'; unfold between, scalar in *; lia|lia]
            | eapply utf8_eq; [apply utf8_4'; unfold between in *; lia|lia] ]
    | right; left; do 2 eexists; split; [|reflexivity];
      first [ eapply pending_eq; [apply pd_E2; unfold between in *; lia|lia]
            | eapply pending_eq; [apply pd_F2; unfold between in *; lia|lia]
            | eapply pending_eq; [apply pd_F3; unfold between in *; lia|lia] ] ].
Qed.
