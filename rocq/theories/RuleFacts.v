(* rule.hpp combinators, for arbitrary match functions *)
From Verif Require Import Base ModelRule SpecPeg.
From Coq Require Import Lia ZifyBool ZifyNat ZifyN.
Ltac inv H := inversion H; subst; clear H.

Section R.
Context {A : Type}.
Local Notation matcher := (ModelRule.matcher A).

(* a match function that accepts the empty string makes star() with the default bounds spin for ever *)
Lemma star_nullable_loop (f : matcher) s : f (rule_of s) = Ok (Some ([], [])) ->
  forall fuel len acc count, (count < 2 ^ 32)%N -> star_loop fuel f uint_max s len acc count = Diverge.
Proof.
  intros H. induction fuel as [|fuel IH]; intros len acc count Hc; cbn [star_loop]; auto.
  rewrite H. cbn [bind]. destruct (N.ltb_spec uint_max (uint_incr count)) as [H1|H1].
  { unfold uint_max, uint_incr in H1. pose proof (N.mod_lt (count + 1) (2 ^ 32)). lia. }
  cbn. apply IH. unfold uint_incr. apply N.mod_lt. lia.
Qed.
Lemma star_nullable (f : matcher) s min : f (rule_of s) = Ok (Some ([], [])) ->
  forall fuel, star fuel f min uint_max (rule_of s) = Diverge.
Proof. intros H fuel. unfold star. cbn [tail rule_of]. rewrite star_nullable_loop; auto. lia. Qed.

(* n one-character matches leave n mod 2^32 in the counter *)
Lemma star_count (f : matcher) c :
  (forall t, f (rule_of (c :: t)) = Ok (Some ([c], []))) -> f (rule_of []) = Ok None ->
  forall n fuel len acc count, n < fuel -> (count < 2 ^ 32)%N ->
  star_loop fuel f uint_max (repeat c n) len acc count = Ok (len + n, acc, ((count + N.of_nat n) mod 2 ^ 32)%N).
Proof.
  intros Hc He. induction n as [|n IH]; intros fuel len acc count Hf Hn.
  - destruct fuel; [lia|]. cbn [star_loop repeat]. rewrite He. cbn [bind].
    rewrite Nat.add_0_r, N.add_0_r, N.mod_small by auto. reflexivity.
  - destruct fuel as [|fuel]; [lia|]. cbn [star_loop repeat]. rewrite Hc. cbn [bind].
    destruct (N.ltb_spec uint_max (uint_incr count)) as [H1|H1].
    { unfold uint_max, uint_incr in H1. pose proof (N.mod_lt (count + 1) (2 ^ 32)). lia. }
    change (Nat.ltb (length (c :: repeat c n)) (length [c])) with (Nat.leb (S (length (c :: repeat c n))) 1). 
    destruct (Nat.leb_spec (S (length (c :: repeat c n))) 1) as [H2|H2]; [cbn in H2; lia|].
    cbn [length skipn]. rewrite app_nil_r, IH; [|lia|unfold uint_incr; apply N.mod_lt; lia].
    unfold uint_incr. rewrite N.add_mod_idemp_l by lia.
    replace (len + 1 + n) with (len + S n) by lia.
    replace (count + 1 + N.of_nat n)%N with (count + N.of_nat (S n))%N by lia. reflexivity.
Qed.
Lemma star_wrap (f : matcher) c n fuel : (forall t, f (rule_of (c :: t)) = Ok (Some ([c], []))) -> f (rule_of []) = Ok None ->
  N.of_nat n = (2 ^ 32)%N -> n < fuel ->
  star fuel f 1 uint_max (rule_of (repeat c n)) = Ok rule_fail.
Proof.
  intros H1 H2 Hn Hf. unfold star. cbn [tail rule_of].
  rewrite (star_count f c H1 H2); [|exact Hf|lia]. cbn [bind].
  rewrite Hn, N.add_0_l, N.mod_same by lia. reflexivity.
Qed.

Local Notation acceptors := (ModelRule.acceptors A).
Local Notation rule := (ModelRule.rule A).

Lemma substr_from_app (a b : str) : substr_from (length a) (a ++ b) = Ok b.
Proof.
  unfold substr_from. rewrite app_length. destruct (Nat.ltb_spec (length a + length b) (length a)); [lia|].
  rewrite skipn_app, skipn_all, Nat.sub_diag. reflexivity.
Qed.
Lemma concat_impl_consumes (f : matcher) g o t acc m a rest : consumes f t m a rest ->
  concat_impl f g o (mkrule (Some t) acc) =
  Ok (mkrule (Some rest) (acc ++ match g with Some x => a ++ [(x, m)] | None => a end)).
Proof.
  intros [H1 H2]. unfold concat_impl. cbn [tail]. rewrite H1. cbn [bind]. unfold join_rule_m. cbn [tail accs fst snd].
  rewrite H2, substr_from_app. destruct g; reflexivity.
Qed.
Lemma concat_impl_rejects (f : matcher) g o t acc : rejects f t ->
  concat_impl f g o (mkrule (Some t) acc) = Ok (if o then mkrule (Some t) acc else rule_fail).
Proof. intros H. unfold concat_impl. cbn [tail]. rewrite H. reflexivity. Qed.
Lemma optional_consumes (f : matcher) g t acc m a rest : consumes f t m a rest ->
  optional_impl f g (mkrule (Some t) acc) =
  Ok (mkrule (Some rest) (acc ++ match g with Some x => a ++ [(x, m)] | None => a end)).
Proof.
  intros H. unfold optional_impl. cbn [tail]. unfold rule_of. rewrite (concat_impl_consumes f g true _ _ _ _ _ H).
  cbn [bind tail]. reflexivity.
Qed.
Lemma optional_rejects (f : matcher) g t acc : rejects f t ->
  optional_impl f g (mkrule (Some t) acc) = Ok (mkrule (Some t) acc).
Proof.
  intros H. unfold optional_impl. cbn [tail]. unfold rule_of. rewrite (concat_impl_rejects f g true _ _ H).
  cbn [bind tail]. unfold join_rule_r. cbn. now rewrite app_nil_r.
Qed.
Lemma alternative_first (pre : list matcher) f post t acc m a rest :
  Forall (fun f => rejects f t) pre -> consumes f t m a rest ->
  alternative (pre ++ f :: post) (mkrule (Some t) acc) = Ok (mkrule (Some rest) (acc ++ a)).
Proof.
  intros Hp [H1 H2]. induction Hp as [|g pre Hg _ IH]; cbn [app alternative tail].
  - rewrite H1. cbn [bind]. unfold join_rule_m. cbn [tail accs fst snd]. now rewrite H2, substr_from_app.
  - rewrite Hg. cbn [bind]. exact IH.
Qed.
Lemma alternative_none (fs : list matcher) t acc :
  Forall (fun f => rejects f t) fs -> alternative fs (mkrule (Some t) acc) = Ok rule_fail.
Proof. induction 1 as [|g pre Hg _ IH]; cbn [alternative tail]; auto. rewrite Hg. cbn [bind]. exact IH. Qed.

Lemma star_loop_greedy (f : matcher) max t items rest : greedy f max t items rest ->
  forall fuel maxN len acc count,
  (count + N.of_nat (length items) < 2 ^ 32)%N -> length items < fuel ->
  match max with Some n => (maxN = count + n)%N /\ (maxN < uint_max)%N | None => maxN = uint_max end ->
  exists over, star_loop fuel f maxN t len acc count =
    Ok (len + length (List.concat (map fst items)), acc ++ List.concat (map snd items),
        (count + N.of_nat (length items) + over)%N) /\ (over = 0 \/ over = 1 /\ Some maxN = Some (count + N.of_nat (length items)) )%N.
Proof.
  induction 1 as [max t H|t r H|max t m a t' l rest H Hmax _ IH]; intros fuel maxN len acc count Hc Hf Hm;
    (destruct fuel as [|fuel]; [cbn [length] in Hf; lia|]); cbn [star_loop].
  - rewrite H. cbn. exists 0%N. rewrite Nat.add_0_r, app_nil_r, !N.add_0_r. auto.
  - rewrite H. cbn [bind length map List.concat]. destruct Hm as [Hm1 Hm2]. destruct r as [[ms a]|].
    + assert (Hu : uint_incr count = (count + 1)%N). { unfold uint_incr. apply N.mod_small. unfold uint_max in Hm2. lia. }
      rewrite Hu. destruct (N.ltb_spec maxN (count + 1)) as [Hl|Hl]; [|lia].
      exists 1%N. rewrite Nat.add_0_r, app_nil_r. cbn. rewrite !N.add_0_r. split; auto. right. split; auto. f_equal; lia.
    + exists 0%N. rewrite Nat.add_0_r, app_nil_r, !N.add_0_r. auto.
  - destruct H as [H1 H2]. rewrite H1. cbn [bind length map List.concat fst snd].
    cbn [length] in Hc, Hf.
    assert (Hu : uint_incr count = (count + 1)%N). { unfold uint_incr. apply N.mod_small. lia. }
    rewrite Hu. destruct (N.ltb_spec maxN (count + 1)) as [Hl|Hl].
    { exfalso. destruct max as [n|]. - destruct Hm. assert (n <> 0)%N by congruence. lia.
      - subst maxN. unfold uint_max in Hl. lia. }
    destruct (Nat.ltb_spec (length t) (length m)) as [Hl2|Hl2]. { subst t. rewrite app_length in Hl2. lia. }
    subst t. rewrite skipn_app, skipn_all, Nat.sub_diag. cbn [skipn app].
    destruct (IH fuel maxN (len + length m) (acc ++ a) (count + 1)%N) as (o & Ho & Hor); [lia|lia| |].
    { destruct max as [n|]; cbn [one_less option_map]; auto. destruct Hm. split; auto. assert (n <> 0)%N by congruence. lia. }
    exists o. rewrite Ho. split.
    + rewrite app_length, <- app_assoc. f_equal. f_equal; [f_equal; lia|lia].
    + destruct Hor as [->|[-> Hor]]; [auto|right]. split; auto. rewrite Hor. f_equal. lia.
Qed.
Lemma greedy_prefix (f : matcher) max t items rest : greedy f max t items rest -> t = List.concat (map fst items) ++ rest.
Proof.
  induction 1 as [| |max t m a t' l rest H _ _ IH]; auto. destruct H as [_ H]. cbn. rewrite <- app_assoc, <- IH. exact H.
Qed.
Lemma greedy_le (f : matcher) max t items rest : greedy f max t items rest ->
  match max with Some n => (N.of_nat (length items) <= n)%N | None => True end.
Proof.
  induction 1 as [max t H|t r H|max t m a t' l rest H Hm _ IH]; cbn [length].
  - destruct max; [lia|auto]. - lia.
  - destruct max as [n|]; auto. cbn [one_less option_map] in IH. assert (n <> 0)%N by congruence. lia.
Qed.
Lemma star_greedy (f : matcher) min max t items rest fuel acc : greedy f max t items rest ->
  (min <= max_arg max)%N -> max_ok max -> (N.of_nat (length items) < 2 ^ 32)%N -> length items < fuel ->
  star fuel f min (max_arg max) (mkrule (Some t) acc) =
  Ok (if (N.of_nat (length items) <? min)%N then rule_fail
      else mkrule (Some rest) (acc ++ List.concat (map snd items))).
Proof.
  intros H Hmin Hmax Hn Hf. unfold star. cbn [tail accs].
  destruct (star_loop_greedy f max t items rest H fuel (max_arg max) 0 acc 0%N) as (o & Ho & Hor); auto.
  { destruct max as [n|]; cbn [max_arg max_ok] in *; auto. }
  rewrite Ho. cbn [bind]. rewrite N.add_0_l, Nat.add_0_l. rewrite (greedy_prefix _ _ _ _ _ H) at 1.
  rewrite substr_from_app. cbn [bind].
  destruct Hor as [->|[-> Hor]].
  - rewrite N.add_0_r. destruct (N.ltb_spec (N.of_nat (length items)) min); reflexivity.
  - inv Hor. rewrite N.add_0_l in *. rewrite H1 in *.
    destruct (N.ltb_spec (N.of_nat (length items) + 1) min); destruct (N.ltb_spec (N.of_nat (length items)) min); try lia; reflexivity.
Qed.
(* a match function that never matches the empty string can always be repeated *)
Lemma greedy_exists (f : matcher) : (forall t, rejects f t \/ exists m a rest, consumes f t m a rest /\ m <> []) ->
  forall t max, exists items rest, greedy f max t items rest /\ length items <= length t.
Proof.
  intros Hf t. remember (length t) as n eqn:Hn. revert t Hn. induction n as [n IH] using lt_wf_ind. intros t Hn max.
  destruct (Hf t) as [H|(m & a & r & H & Hm)].
  - exists [], t. split; [now constructor|cbn;lia].
  - assert (D : max = Some 0%N \/ max <> Some 0%N).
    { destruct max as [[|k]|]; auto; right; discriminate. }
    destruct D as [->|D].
    + exists [], t. split; [|cbn;lia]. destruct H as [H _]. eapply greedy_max; eauto.
    + destruct (IH (length r)) with (t := r) (max := one_less max) as (l & rest & Hg & Hl); auto.
      { destruct H as [_ ->]. rewrite Hn, app_length. destruct m; [congruence|cbn;lia]. }
      exists ((m, a) :: l), rest. split; [eapply greedy_step; eauto|].
      destruct H as [_ ->]. rewrite Hn, app_length. destruct m; [congruence|cbn in *;lia].
Qed.
Lemma matched_prefix acc0 m rest acc :
  matched (mkrule (Some (m ++ rest)) acc0) (mkrule (Some rest) acc) = Ok (Some (m, acc) : matched_result A).
Proof.
  unfold matched. cbn [tail accs]. rewrite app_length.
  destruct (Nat.ltb_spec (length m + length rest) (length rest)); [lia|].
  replace (length m + length rest - length rest) with (length m) by lia.
  rewrite firstn_app, firstn_all, Nat.sub_diag. cbn. now rewrite app_nil_r.
Qed.

(* --- the statements of PropRule.v --- *)
Lemma concat_spec (f : matcher) (g : option A) t acc :
  (forall m a rest, consumes f t m a rest ->
     concat_impl f g false (mkrule (Some t) acc) =
     Ok (mkrule (Some rest) (acc ++ a ++ match g with Some x => [(x, m)] | None => [] end)))
  /\ (rejects f t -> concat_impl f g false (mkrule (Some t) acc) = Ok rule_fail).
Proof.
  split; intros. - erewrite concat_impl_consumes by eassumption. destruct g; rewrite ?app_nil_r; auto.
  - rewrite concat_impl_rejects; auto.
Qed.
Lemma optional_spec (f : matcher) (g : option A) t acc :
  (forall m a rest, consumes f t m a rest ->
     optional_impl f g (mkrule (Some t) acc) =
     Ok (mkrule (Some rest) (acc ++ a ++ match g with Some x => [(x, m)] | None => [] end)))
  /\ (rejects f t -> optional_impl f g (mkrule (Some t) acc) = Ok (mkrule (Some t) acc)).
Proof.
  split; intros. - erewrite optional_consumes by eassumption. destruct g; rewrite ?app_nil_r; auto.
  - now apply optional_rejects.
Qed.
Lemma star_spec (f : matcher) min max t items rest fuel acc : greedy f max t items rest ->
  (min <= max_arg max)%N -> max_ok max -> (N.of_nat (length items) < 2 ^ 32)%N -> length items < fuel ->
  t = List.concat (map fst items) ++ rest
  /\ (forall n, max = Some n -> (N.of_nat (length items) <= n)%N)
  /\ star fuel f min (max_arg max) (mkrule (Some t) acc) =
     Ok (if (N.of_nat (length items) <? min)%N then rule_fail
         else mkrule (Some rest) (acc ++ List.concat (map snd items))).
Proof.
  intros H ? ? ? ?. split; [eapply greedy_prefix; eauto|]. split; [|now apply star_greedy].
  intros n ->. exact (greedy_le _ _ _ _ _ H).
Qed.
Lemma failure_absorbing (f : matcher) fs g min max fuel acc :
  let r := mkrule None acc : rule in
  concat_impl f g false r = Ok r /\ optional_impl f g r = Ok r /\ star fuel f min max r = Ok r
  /\ alternative (f :: fs) r = Ok r /\ matched (rule_of []) r = Ok None.
Proof. repeat split. Qed.
Lemma done_no_effect {St} (run : A -> str -> St -> outcome St) (r : rule) st :
  tail r <> Some [] -> done run r st = Ok (false, st).
Proof. unfold done. intros H. destruct (tail r) as [[|]|]; [exfalso; now apply H|reflexivity|reflexivity]. Qed.
End R.
