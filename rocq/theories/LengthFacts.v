(* How long the results of join, encode and decode are *)
From Verif Require Import Base ModelUri SpecPath SpecSteps SpecPct SpecPuny SpecIcu SpecStore SpecViews SpecLayers PathFacts StepsFacts InfluenceFacts.
From Verif Require Import PctFacts PunyProps SendFacts CommuteUri PartsHost PartsDec PartsProps PartsEnc LayersFacts WorkPuny.
From Verif Require PropSplitFacts PropAlike ResolveFacts CaseHost ModelPuny ModelWork.
From Coq Require Import Lia.
Local Open Scope list_scope.

(* --- a path ------------------------------------------------------------------------------------------------ *)
Definition total_len (l : list str) : nat := list_sum (map (@length ascii) l).
Lemma total_app a b : total_len (a ++ b) = total_len a + total_len b.
Proof. unfold total_len. now rewrite map_app, list_sum_app. Qed.
Lemma total_cons a b : total_len (a :: b) = length a + total_len b.
Proof. reflexivity. Qed.
Lemma loop_length l : forall p, length (path_string_loop (ss "/") l p) = length p + length l + total_len l.
Proof. induction l as [|x l IH]; intros p; cbn [path_string_loop]; [cbn; lia|]. rewrite IH, !app_length, total_cons. cbn [length ss]. change (length (ss "/")) with 1. lia. Qed.
Definition plen (abs : bool) (l : list str) : nat := match l with [] => 0 | _ => (if abs then 1 else 0) + (length l - 1) + total_len l end.
Lemma path_length p : length (path_string p) = plen (absolute p) (segments p).
Proof.
  unfold path_string, plen. destruct (segments p) as [|x l]; [reflexivity|]. cbn [path_string_loop]. rewrite loop_length, !app_length, total_cons. cbn [length].
  destruct (absolute p); cbn; lia.
Qed.
Lemma plen_le abs l l' : length l <= length l' -> total_len l <= total_len l' -> l' <> [] -> plen abs l <= plen abs l'.
Proof. intros A B N. unfold plen. destruct l as [|x l], l' as [|x' l']; cbn [length] in *; try congruence; lia. Qed.

(* --- removing the dots --- *)
Lemma removelast_le {X} (l : list X) : length (removelast l) <= length l.
Proof. induction l as [|x [|y l] IH]; cbn [removelast length] in *; lia. Qed.
Lemma removelast_total l : total_len (removelast l) <= total_len l.
Proof. destruct l as [|x l _] using rev_ind; [cbn; lia|]. rewrite removelast_last, total_app. lia. Qed.
Lemma stk_le l : forall st, length (stk st l) <= length st + length l /\ total_len (stk st l) <= total_len st + total_len l.
Proof.
  induction l as [|x l IH]; intros st; cbn [stk]; [cbn; lia|]. rewrite total_cons. cbn [length]. destruct (is_dot x); [specialize (IH st); lia|].
  destruct (is_dotdot x).
  - specialize (IH (removelast st)). pose proof (removelast_le st). pose proof (removelast_total st). lia.
  - specialize (IH (st ++ [x])). rewrite app_length, total_app in IH. cbn [length] in IH. rewrite total_cons in IH. change (total_len []) with 0 in IH. lia.
Qed.
Lemma fin_le k : length (fin k true) <= S (length k) /\ total_len (fin k true) = total_len k.
Proof.
  unfold fin. destruct k as [|x k]; [cbn; lia|]. destruct (is_empty _); [lia|]. rewrite app_length, total_app. cbn. lia.
Qed.
Lemma rds_le l : length (rds_segments l) <= length l /\ total_len (rds_segments l) <= total_len l.
Proof.
  destruct l as [|y l _] using rev_ind; [cbn; lia|]. rewrite rds_fin. destruct (stk_le (l ++ [y]) []) as [A B]. cbn [length] in A. change (total_len []) with 0 in B.
  destruct (dirlike y) eqn:D; [|unfold fin; lia]. destruct (fin_le (stk [] (l ++ [y]))) as [C E]. rewrite E. split; [|lia].
  rewrite stk_app in *. cbn [stk] in *. destruct (stk_le l []) as [F G]. cbn [length] in F. rewrite app_length. cbn [length].
  unfold dirlike in D. destruct (is_dot y) eqn:D1; [lia|]. destruct (is_dotdot y) eqn:D2; [pose proof (removelast_le (stk [] l)); lia|]. destruct (is_empty_spec y) as [->|]; [|discriminate D].
  rewrite fin_empty, app_length. cbn [length]. unfold str in *. lia.
Qed.
Lemma rds_plen abs l : plen abs (rds_segments l) <= plen abs l.
Proof. destruct l as [|x l]; [cbn; lia|]. destruct (rds_le (x :: l)). apply plen_le; [assumption|assumption|discriminate]. Qed.
Lemma rds_path_length p : length (path_string (remove_dot_segments p)) <= length (path_string p).
Proof. rewrite !path_length. apply rds_plen. Qed.
Lemma rds_empty p : path_is_empty (remove_dot_segments p) = path_is_empty p.
Proof.
  unfold path_is_empty. cbn. pose proof (rds_nonempty (segments p)). destruct (segments p) as [|x l]; [reflexivity|].
  destruct (rds_segments (x :: l)); [elim H; [discriminate|reflexivity]|reflexivity].
Qed.

(* --- compose --- *)
Definition olen (k : nat) (o : option str) : nat := match o with Some s => k + length s | None => 0 end.
Definition slash (p : ModelUri.path) : nat := if negb (path_is_empty p) && negb (absolute p) then 1 else 0.
Definition alen (o : option ModelUri.authority) (p : ModelUri.path) : nat :=
  match o with Some a => 2 + length (authority_string a) + slash p | None => 0 end.
Lemma compose_length p : length (compose p) = olen 1 (p_scheme p) + alen (p_authority p) (p_path p) + length (path_string (p_path p)) + olen 1 (p_query p) + olen 1 (p_fragment p).
Proof.
  unfold compose, olen, alen, slash. rewrite !app_length.
  destruct (p_scheme p), (p_authority p), (p_query p), (p_fragment p), (negb (path_is_empty (p_path p)) && negb (absolute (p_path p))); rewrite ?app_length; cbn [length];
    change (length (ss ":")) with 1; change (length (ss "//")) with 2; change (length (ss "/")) with 1; change (length (ss "?")) with 1; change (length (ss "#")) with 1; lia.
Qed.
Lemma slash_rds p : slash (remove_dot_segments p) = slash p.
Proof. unfold slash. now rewrite rds_empty. Qed.
Lemma alen_rds a p : alen a (remove_dot_segments p) = alen a p.
Proof. unfold alen. now rewrite slash_rds. Qed.

Lemma plen_app abs abs' d l : d <> [] -> l <> [] -> plen abs (d ++ l) = plen abs d + 1 + plen abs' l - (if abs' then 1 else 0).
Proof. intros A B. unfold plen. destruct d as [|x d]; [congruence|]. destruct l as [|y l]; [congruence|]. cbn [app]. rewrite !total_cons, !total_app, total_cons. cbn [length]. rewrite !app_length. cbn [length]. destruct abs, abs'; lia. Qed.
Lemma plen_removelast abs l : 2 <= length l -> plen abs (removelast l) + 1 <= plen abs l /\ removelast l <> [].
Proof.
  intros H. destruct l as [|x l _] using rev_ind; [cbn in H; lia|]. rewrite removelast_last. rewrite app_length in H. cbn in H. destruct l as [|y l]; [cbn in H; lia|].
  split; [|discriminate]. unfold plen. cbn [app]. rewrite !total_cons, total_app. cbn [length]. rewrite app_length. cbn [length]. destruct abs; lia.
Qed.
(* the character that may be added: the '/' between the base and what follows it *)
Definition extra (b : parts) : nat := match segments (p_path b) with [] => match p_authority b with Some _ => 1 | None => 0 end | [_] => 1 | _ => 0 end.
(* an absolute path without segments (a state no text leads to) writes its '/' only when segments come *)
Definition tidy_path (p : ModelUri.path) : Prop := segments p = [] -> absolute p = false.
Lemma merge_length b r : segments (p_path r) <> [] -> absolute (p_path r) = false -> tidy_path (p_path b) ->
  length (path_string (merge b r)) + alen (p_authority b) (merge b r) <= length (path_string (p_path b)) + alen (p_authority b) (p_path b) + length (path_string (p_path r)) + extra b.
Proof.
  intros N A T. rewrite !path_length, merge_directory. cbn [absolute segments]. unfold alen, slash, path_is_empty, extra, directory, tidy_path in *. rewrite A. cbn [absolute segments].
  remember (segments (p_path r)) as l eqn:L. clear L. assert (X : forall d, match d ++ l with [] => true | _ :: _ => false end = false) by (intros [|]; [destruct l; [congruence|]|]; reflexivity).
  rewrite X. assert (Y : forall abs, plen abs l = (if abs then 1 else 0) + plen false l) by (intros abs; unfold plen; destruct l; [congruence|]; destruct abs; lia).
  destruct (segments (p_path b)) as [|x [|y bs]] eqn:B.
  - rewrite (T eq_refl). cbn [app negb andb]. destruct (p_authority b); rewrite Y; cbn; lia.
  - rewrite (plen_app _ false [x] l) by (discriminate || assumption). destruct (p_authority b), (absolute (p_path b)); cbn; lia.
  - destruct (plen_removelast (absolute (p_path b)) (x :: y :: bs)) as [P Q]; [cbn; lia|].
    rewrite (plen_app _ false _ l Q N). destruct (p_authority b), (absolute (p_path b)); cbn [negb andb]; lia.
Qed.
Lemma join_length b r strict : tidy_path (p_path b) -> length (compose (join_parts b r strict)) <= length (compose b) + length (compose r) + extra b.
Proof.
  intros T. rewrite join_eff. assert (E : forall s, eff b r strict = Some s -> p_scheme r = Some s) by (intros s; unfold eff; destruct (negb strict && _); [discriminate|auto]).
  destruct (eff b r strict) as [s|].
  - rewrite !compose_length. cbn [p_scheme p_authority p_path p_query p_fragment]. rewrite (E s eq_refl), alen_rds. pose proof (rds_path_length (p_path r)). lia.
  - clear E. destruct (p_authority r) as [a|] eqn:A.
    + rewrite !compose_length. cbn [p_scheme p_authority p_path p_query p_fragment]. rewrite A, alen_rds. pose proof (rds_path_length (p_path r)). lia.
    + destruct (path_is_empty (p_path r)) eqn:P.
      * rewrite !compose_length. cbn [p_scheme p_authority p_path p_query p_fragment]. destruct (p_query r); cbn [olen]; lia.
      * assert (N : segments (p_path r) <> []) by (unfold path_is_empty in P; destruct (segments (p_path r)); [discriminate P|discriminate]).
        destruct (absolute (p_path r)) eqn:B.
        -- rewrite !compose_length. cbn [p_scheme p_authority p_path p_query p_fragment]. rewrite A, alen_rds. pose proof (rds_path_length (p_path r)).
           assert (alen (p_authority b) (p_path r) <= alen (p_authority b) (p_path b)) by (unfold alen, slash; rewrite P, B; cbn; destruct (p_authority b); lia). lia.
        -- rewrite !compose_length. cbn [p_scheme p_authority p_path p_query p_fragment]. rewrite alen_rds. pose proof (rds_path_length (merge b r)). pose proof (merge_length b r N B T). rewrite A. lia.
Qed.

(* --- encode and decode ------------------------------------------------------------------------------------------- *)
(* a relation that makes no component longer than k times makes no URI longer than k times *)
Lemma len_sum (R : str -> str -> Prop) k l l' : (forall s t, R s t -> length t <= k * length s) -> Forall2 R l l' -> length l' = length l /\ total_len l' <= k * total_len l.
Proof. intros H F. induction F as [|s t l l' X F [IH1 IH2]]; [cbn; lia|]. rewrite !total_cons. cbn [length]. apply H in X. lia. Qed.
Lemma authority_length u h po : length (authority_string (mkauth u h po)) = olen 1 u + length h + olen 1 po.
Proof. unfold authority_string. cbn [ModelUri.userinfo ModelUri.host ModelUri.port]. rewrite !app_length. destruct u as [u|], h as [|c h], po as [[|d po]|]; cbn [olen]; rewrite ?app_length; cbn; lia. Qed.
Lemma parts_length (R : field -> str -> str -> Prop) k p q : 1 <= k -> (forall f s t, R f s t -> length t <= k * length s) -> parts_rel R p q -> length (compose q) <= k * length (compose p).
Proof.
  intros K H (R1 & R2 & R3 & R4 & R5 & R6). rewrite !compose_length, !path_length.
  assert (O : forall f o o', opt_rel (R f) o o' -> olen 1 o' <= k * olen 1 o) by (intros f o o' X; destruct X as [|s t X]; cbn [olen]; [lia|]; apply H in X; lia).
  destruct (len_sum _ k _ _ (H Segment) R4) as [L T].
  assert (P : plen (absolute (p_path q)) (segments (p_path q)) <= k * plen (absolute (p_path p)) (segments (p_path p))).
  { rewrite R3. unfold plen. destruct (segments (p_path p)) as [|x l], (segments (p_path q)) as [|x' l']; cbn [length] in L; try discriminate L; [lia|]. injection L as L. cbn [length].
    rewrite L. destruct (absolute (p_path q)); nia. }
  assert (S : slash (p_path q) = slash (p_path p)).
  { unfold slash, path_is_empty. rewrite R3. destruct (segments (p_path p)), (segments (p_path q)); cbn [length] in L; try discriminate L; reflexivity. }
  assert (A : alen (p_authority q) (p_path q) <= k * alen (p_authority p) (p_path p)).
  { unfold alen. rewrite S. assert (slash (p_path p) <= k * slash (p_path p)) by nia. destruct R2 as [|[u h po] [u' h' po'] (B1 & B2 & B3)]; [lia|]. cbn [ModelUri.userinfo ModelUri.host ModelUri.port] in *.
    rewrite !authority_length. apply O in B1. apply O in B3. apply H in B2. lia. }
  apply O in R1. apply O in R5. apply O in R6. lia.
Qed.

(* --- percent-encoding: two characters more for every byte of the set, in every layer --- *)
Section Count.
  Context (P : ascii -> Prop) (f : ascii -> bool) (Hf : forall c, f c = true <-> P c) (Hhex : forall n, ~ P (upper_hex n)).
  Definition cnt (s : str) : nat := length (filter f s).
  Lemma f_no c : ~ P c -> f c = false.
  Proof. intros H. destruct (f c) eqn:E; [elim H; now apply Hf|reflexivity]. Qed.
  Lemma encodes_count s e : encodes P s e -> length e = length s + 2 * cnt s /\ cnt e = (if f percent then cnt s else 0).
  Proof.
    unfold cnt. induction 1 as [|c s t M _ [IH1 IH2]|c s t M _ [IH1 IH2]]; [split; [reflexivity|now destruct (f percent)]| |].
    - unfold escape. cbn [app filter length]. change "%"%char with percent. rewrite (f_no _ (Hhex (code c / 16))), (f_no _ (Hhex (code c mod 16))). apply Hf in M. rewrite M. cbn [length]. rewrite IH1. split; [lia|].
      destruct (f percent); cbn [length]; lia.
    - cbn [filter length]. rewrite (f_no c M). rewrite IH1, IH2. split; [reflexivity|reflexivity].
  Qed.
  Lemma encodes_times n s e : times n (encodes P) s e -> length e = length s + 2 * (if f percent then n else Nat.min n 1) * cnt s /\ cnt e = (if f percent then cnt s else if Nat.eqb n 0 then cnt s else 0).
  Proof.
    revert s. induction n as [|n IH]; intros s E; [cbn in E; subst; destruct (f percent); cbn [Nat.eqb Nat.min]; lia|]. destruct E as (z & E & F). apply IH in F as [F1 F2]. apply encodes_count in E as [E1 E2].
    rewrite F1, F2, E1, E2. destruct (f percent); [split; [lia|reflexivity]|]. cbn [Nat.eqb]. split; [destruct n; cbn [Nat.min]; lia|destruct n; reflexivity].
  Qed.
End Count.
Lemma filter_le {X} (f : X -> bool) l : length (filter f l) <= length l.
Proof. induction l as [|x l IH]; cbn [filter length]; [lia|]. destruct (f x); cbn [length]; lia. Qed.
Lemma field_hex f n : ~ field_set f (upper_hex n).
Proof.
  assert (I : In (upper_hex n) (ss "0123456789ABCDEF")) by (unfold upper_hex; destruct (nth_in_or_default (N.to_nat n) (ss "0123456789ABCDEF") "0"%char) as [I| ->]; [exact I|now left]).
  revert I. generalize (upper_hex n). intros c I. cbn in I. 
  intros H. destruct f; try (apply (needs_field_set _ c) in H; [|discriminate]; repeat (destruct I as [<-|I]; [vm_compute in H; discriminate H|]); exact I).
  repeat (destruct I as [<-|I]; [destruct H as [[H|H]|H]; vm_compute in H; try discriminate H; now apply H|]). exact I.
Qed.
Lemma field_times f n s e : f <> Host -> times n (enc_step f) s e -> length e <= (2 * n + 1) * length s.
Proof.
  intros N E. assert (E' : times n (encodes (field_set f)) s e) by (eapply times_imp; [|exact E]; intros a b [X _]; destruct f; try exact X; now elim N).
  apply (encodes_times (field_set f) (fun c => needs c (es_of f)) (fun c => needs_field_set f c N) (field_hex f)) in E' as [-> _].
  pose proof (filter_le (fun c => needs c (es_of f)) s). unfold cnt. destruct (needs percent (es_of f)); [nia|]. assert (Nat.min n 1 <= n) by lia. nia.
Qed.

(* --- hosts --- *)
Lemma joined_length {X} (d : X) ls : forall l, length (joined d l ls) = length l + length ls + list_sum (map (@length X) ls).
Proof. induction ls as [|x ls IH]; intros l; cbn [joined]; [cbn; lia|]. rewrite app_length. cbn [length map]. rewrite IH. change (list_sum (length x :: map (@length X) ls)) with (length x + list_sum (map (@length X) ls)). lia. Qed.
Lemma labels_length {X} (d : X) s ls : labels d s ls -> length s + 1 = length ls + list_sum (map (@length X) ls).
Proof. intros (l & ls' & -> & -> & _). rewrite joined_length. cbn [length map]. change (list_sum (length l :: map (@length X) ls')) with (length l + list_sum (map (@length X) ls')). lia. Qed.
Lemma rel_length {X Y} (R : list X -> list Y -> Prop) k ls es : (forall u e, In u ls -> R u e -> length e <= k * length u) -> Forall2 R ls es ->
  length es = length ls /\ list_sum (map (@length Y) es) <= k * list_sum (map (@length X) ls).
Proof.
  intros H F. induction F as [|u e ls es A F IH]; [cbn; lia|]. destruct IH as [I1 I2]; [intros; apply H; [now right|assumption]|]. apply H in A; [|now left]. cbn [length map].
  change (list_sum (length e :: map (@length Y) es)) with (length e + list_sum (map (@length Y) es)). change (list_sum (length u :: map (@length X) ls)) with (length u + list_sum (map (@length X) ls)). lia.
Qed.
Lemma puny_enc_length u q : (N.of_nat (length u) < 2 ^ 32)%N -> (forall c, In c u -> (c < 2 ^ 32)%N) -> ~ ascii_only u -> punycode_of u q -> length q + 4 <= 26 * length u.
Proof.
  intros L B A P. destruct (c35 u false L B (or_introl eq_refl)) as (e & b & E & _ & U). rewrite (U q P). clear q P U. apply encode_both in E as [w E].
  destruct (encode_count u false e b w (nodup N.eq_dec (filter (fun c => (0x80 <=? c)%N) u)) E) as (_ & _ & C & _).
  - apply NoDup_nodup.
  - intros c. rewrite nodup_In, filter_In, N.leb_le. tauto.
  - cbv zeta in C. assert (T : length u = length (filter (fun c => (c <? 0x80)%N) u) + length (filter (fun c => (0x80 <=? c)%N) u)).
    { clear. induction u as [|c u IH]; [reflexivity|]. cbn [filter length]. rewrite IH. destruct (N.ltb_spec c 0x80), (N.leb_spec 0x80 c); cbn [length]; lia. }
    assert (1 <= length (filter (fun c => (0x80 <=? c)%N) u)).
    { destruct (filter (fun c => (0x80 <=? c)%N) u) as [|x l] eqn:F; [|cbn; lia]. elim A. apply Forall_forall. intros c I. destruct (N.ltb_spec c 0x80) as [H|H]; [exact H|].
      assert (K : In c (filter (fun c => (0x80 <=? c)%N) u)) by (apply filter_In; split; [exact I|now apply N.leb_le]). rewrite F in K. destruct K. }
    lia.
Qed.
Lemma host_enc_length s e : (N.of_nat (length s) < 2 ^ 32)%N -> host_encoded s e -> length e <= 26 * length s.
Proof.
  intros L (cs & ok & us & es & R & U & E & F). pose proof (reads8_length _ _ _ R) as RL. rewrite map_length in RL. pose proof (labels_length _ _ _ U) as UL. pose proof (labels_length _ _ _ E) as EL.
  assert (Lc : forall u, In u us -> length u <= length cs /\ forall c, In c u -> (c < 2 ^ 32)%N).
  { assert (Bc : Forall (fun c => (c < 2 ^ 32)%N) cs) by (apply Forall_forall; intros c I; exact (CaseHost.scalars_small _ _ _ c R I)).
    intros u I. destruct U as (l & ls & -> & -> & _). split; [now apply joined_label_length|]. apply (joined_in dot32) in Bc as [Bc _]. rewrite Forall_forall in Bc. apply Forall_forall. now apply Bc. }
  destruct (rel_length label_encoded 26 us es) as [N T]; [|exact F|].
  - intros u x I [[A <-]|[A (q & P & ->)]]; [rewrite map_length; lia|]. destruct (Lc u I) as [L1 L2]. rewrite app_length. change (length xn) with 4.
    pose proof (puny_enc_length u q). assert (length q + 4 <= 26 * length u) by (apply H; [lia|auto|exact A|exact P]). lia.
  - assert (1 <= length us) by (destruct U as (l & ls & -> & _); cbn; lia). unfold str in *. lia.
Qed.
Lemma host_ascii s e : host_encoded s e -> ascii_only (map code e).
Proof.
  intros E. destruct E as (cs & ok & us & es & _ & _ & (e1 & es' & -> & -> & _) & F). unfold ascii_only. rewrite Forall_map. apply joined_in.
  split; [|intros _; reflexivity]. revert F. generalize (e1 :: es'). clear. intros es F. induction F as [|u x us es H F IH]; constructor; [|exact IH].
  destruct H as [[A <-]|[_ (q & P & ->)]].
  + unfold ascii_only in A. now rewrite Forall_map in A.
  + apply Forall_app. split; [repeat constructor|]. apply Forall_forall. intros c I. destruct (punycode_chars u q P c I) as [->|[K|[_ K]]]; [reflexivity| |exact K].
    assert (X : forallb (fun c => (code c <? 0x80)%N) lower_digits = true) by (vm_compute; reflexivity). rewrite forallb_forall in X. apply N.ltb_lt, X, K.
Qed.
Lemma host_settled n s e : ascii_only (map code s) -> times n (enc_step Host) s e -> e = s.
Proof.
  intros A. induction n as [|n IH]; [now intros ->|]. intros (z & [E S] & T). assert (z = s) as -> by (apply (encoded_unique Host s); [exact S|exact E|now apply host_encoded_ascii]). auto.
Qed.
Lemma host_times n s e : times n (enc_step Host) s e -> length e <= 26 * length s.
Proof.
  destruct n as [|n]; [intros ->; lia|]. intros (z & [E S] & T). rewrite (host_settled n z e); [|now apply (host_ascii s)|exact T]. apply host_enc_length; [now apply S|exact E].
Qed.
Definition ascii_host (p : parts) : Prop := forall a, p_authority p = Some a -> ascii_only (map code (ModelUri.host a)).
Lemma encode_length n p q : times n encode_call p q -> length (compose q) <= Nat.max 26 (2 * n + 1) * length (compose p).
Proof.
  intros E. apply (times_imp _ _ _ _ _ encode_call_rel), parts_times in E. refine (parts_length _ _ p q _ _ E); [lia|]. intros f s t H.
  destruct f; try (apply field_times in H; [nia|discriminate]). apply host_times in H. nia.
Qed.
Lemma rel_with (P : field -> str -> Prop) (R T : field -> str -> str -> Prop) p q : (forall f s t, P f s -> R f s t -> T f s t) -> parts_all P p -> parts_rel R p q -> parts_rel T p q.
Proof.
  intros H (A1 & A2 & A3 & A4 & A5) (R1 & R2 & R3 & R4 & R5 & R6).
  assert (O : forall f o o', opt_all (P f) o -> opt_rel (R f) o o' -> opt_rel (T f) o o') by (intros f o o' X Y; destruct Y; constructor; auto).
  split; [now apply O|]. split; [|split; [exact R3|split; [|split; now apply O]]].
  - destruct R2 as [|a b (B1 & B2 & B3)]; constructor. destruct A2 as (C1 & C2 & C3). split; [now apply O|]. split; [now apply H|now apply O].
  - clear - H A3 R4. induction R4; constructor; [apply H; [exact (Forall_inv A3)|assumption]|apply IHR4; exact (Forall_inv_tail A3)].
Qed.
Lemma host_only (P : str -> Prop) p : (forall a, p_authority p = Some a -> P (ModelUri.host a)) -> parts_all (fun f s => f = Host -> P s) p.
Proof.
  intros H. assert (O : forall f o, f <> Host -> opt_all (fun s => f = Host -> P s) o) by (intros f [x|] N; cbn; [intros K; now elim N|exact I]).
  split; [apply O; discriminate|]. split; [|split; [|split; apply O; discriminate]].
  - destruct (p_authority p) as [a|]; [|exact I]. split; [apply O; discriminate|]. split; [intros _; now apply H|apply O; discriminate].
  - apply Forall_forall. intros s _ K. discriminate K.
Qed.
Lemma encode_length_ascii n p q : ascii_host p -> times n encode_call p q -> length (compose q) <= (2 * n + 1) * length (compose p).
Proof.
  intros A E. apply (times_imp _ _ _ _ _ encode_call_rel), parts_times in E.
  apply (rel_with (fun f s => f = Host -> ascii_only (map code s)) _ (fun f s t => length t <= (2 * n + 1) * length s)) in E; [| |exact (host_only (fun s => ascii_only (map code s)) p A)].
  - refine (parts_length _ _ p q _ _ E); [lia|auto].
  - intros f s t X H. destruct f; try (now apply field_times in H). rewrite (host_settled n s t (X eq_refl) H). nia.
Qed.
(* --- decode --- *)
Lemma label_dec_length e t : label_decoded e t -> length t <= 4 * length e /\ (~ has_prefix xn e -> t = e).
Proof.
  intros [[N ->]|(q & u & cs & ok & -> & P & R & T)]; [split; [lia|reflexivity]|]. split; [|intros H; elim H; now exists q].
  apply PropAlike.puny_length in P. apply reads32_length in R. apply text8_length in T. rewrite map_length in T. rewrite app_length. lia.
Qed.
Lemma host_dec_length e t : decoded Host e t -> length t <= 4 * length e.
Proof.
  assert (X : forall t, host_decoded e t -> length t <= 4 * length e).
  { clear t. intros t (es & ts & E & F & (l & ls & -> & ->)). apply labels_length in E. rewrite joined_length. destruct (rel_length label_decoded 4 es (l :: ls)) as [N T]; [|exact F|].
    - intros u x _ H. now apply label_dec_length in H.
    - cbn [length map] in *. change (list_sum (length l :: map (@length ascii) ls)) with (length l + list_sum (map (@length ascii) ls)) in T. unfold str in *. lia. }
  intros [[H _]|[_ ->]]; [now apply X|lia].
Qed.
Lemma decode_length p q : decode_call p q -> length (compose q) <= 4 * length (compose p).
Proof.
  intros D. apply decode_call_rel in D. refine (parts_length _ _ p q _ _ D); [lia|]. intros f s t H.
  destruct f; try (apply decodes_length in H; lia). now apply host_dec_length.
Qed.
Lemma host_dec_plain e t : no_xn_host e -> decoded Host e t -> t = e.
Proof.
  intros X D. assert (Y : forall t, host_decoded e t -> t = e).
  { clear t D. intros t (es & ts & E & F & (l & ls & -> & ->)). assert (l :: ls = es) as <-.
    - assert (Z : forall x, In x es -> ~ has_prefix xn x) by (intros x; now apply X). clear - F Z. induction F as [|a b es ts H F IH]; [reflexivity|].
      rewrite IH by (intros; apply Z; now right). f_equal. apply label_dec_length in H as [_ H]. apply H, Z. now left.
    - destruct E as (l' & ls' & E1 & E2 & _). injection E1 as <- <-. now symmetry. }
  destruct D as [[D _]|[_ ->]]; [now apply Y|reflexivity].
Qed.
Lemma decode_length_plain p q : no_xn p -> decode_call p q -> length (compose q) <= length (compose p) /\ length (compose p) <= 3 * length (compose q).
Proof.
  intros X D. apply decode_call_rel in D.
  assert (E : parts_rel (fun f s t => length t <= 1 * length s /\ length s <= 3 * length t) p q).
  { eapply rel_with; [|apply (host_only no_xn_host p)|exact D].
    - intros f s t N H. cbn beta in N. destruct f; try (apply decodes_length in H; lia). rewrite (host_dec_plain s t (N eq_refl) H). lia.
    - intros a A ls l L I. exact (X a ls l A L I). }
  split; [rewrite <- (Nat.mul_1_l (length (compose p))); refine (parts_length _ 1 p q _ _ E); [lia|now intros f s t []]|].
  refine (parts_length (fun f s t => length t <= 3 * length s) 3 q p _ _ _); [lia|auto|].
  destruct E as (R1 & R2 & R3 & R4 & R5 & R6). clear - R1 R2 R3 R4 R5 R6.
  assert (O : forall o o' : option str, opt_rel (fun s t => length t <= 1 * length s /\ length s <= 3 * length t) o o' -> opt_rel (fun s t => length t <= 3 * length s) o' o) by (intros o o' Y; destruct Y as [|? ? []]; constructor; auto).
  split; [now apply O|]. split; [|split; [now symmetry|split; [|split; now apply O]]].
  - destruct R2 as [|a b (B1 & [_ B2] & B3)]; constructor. split; [now apply O|]. split; [exact B2|now apply O].
  - induction R4 as [|s t l l' [_ H] _ IH]; constructor; auto.
Qed.
(* --- chains of references --- *)
Lemma joins_length b rs strict : length (compose (fold_left (fun t r => join_parts t r strict) rs b)) <= length (compose b) + list_sum (map (fun r => S (length (compose r))) rs).
Proof.
  revert b. induction rs as [|r rs IH]; intros b; cbn [fold_left map]; [cbn; lia|]. specialize (IH (join_parts b r strict)). pose proof (ResolveFacts.join_len b r strict).
  change (list_sum (S (length (compose r)) :: map (fun r => S (length (compose r))) rs)) with (S (length (compose r)) + list_sum (map (fun r => S (length (compose r))) rs)). lia.
Qed.
