(* PROPERTY THEOREMS: compose and operator<< on streams that throw, and when memory runs out (C69). *)
From Verif Require Import Base ModelUri ModelStream StreamFacts ModelXStream SpecXStream XStreamFacts.
Local Open Scope list_scope.

(* --- C69 -------------------------------------------------------------------------------------------------- *)
(* os << p on a good stream, whatever its buffer does and whatever its mask is: what reaches the buffer is the text
   of compose p up to some point, without a gap; if the call returns and the stream is still good it is all of it;
   it returns only when no bit of the final state is in the mask, and throws only when one is (or when there was no
   memory for the path) *)
Theorem C69_insert {B} (sputn : B -> str -> B * nat * taken) lib m p os os' e : honest sputn -> reports lib ->
  isgood os = true -> xwidth os = 0 -> xparts sputn lib m p os = (os', e) ->
  (exists k, xout os' = xout os ++ firstn k (compose p))
  /\ (e = None -> isgood os' = true -> xout os' = xout os ++ compose p)
  /\ (e = None -> bits_meet (state os') (mask os) = false)
  /\ (forall x, e = Some x ->
        (x = bad_alloc /\ m = false) \/ ((x = failure \/ x = from_buffer) /\ bits_meet (state os') (mask os) = true)).
Proof.
  intros H R G W E. pose proof (xparts_good sputn lib H R m p os G W) as I. rewrite E in I.
  destruct I as (k & I1 & I2 & I3 & I4 & I5 & I6). split; [eauto|]. split; [|split; [exact I4|]].
  - intros Q1 Q2. rewrite I1, (I3 Q1 Q2). reflexivity.
  - intros x Q. destruct (I5 x Q) as [Z|[Z1 Z2]]; [now left|]. right. split; [|exact Z2]. destruct x; auto. congruence.
Qed.
Print Assumptions C69_insert.
(* so a caller whose mask covers the failures of a write gets an exception or the whole text, never a truncated URI *)
Theorem C69_watched {B} (sputn : B -> str -> B * nat * taken) lib m p os os' : honest sputn -> reports lib ->
  watches lib (mask os) -> isgood os = true -> xwidth os = 0 ->
  xparts sputn lib m p os = (os', None) -> isgood os' = true /\ xout os' = xout os ++ compose p.
Proof.
  intros H R Wa G W E. pose proof (xparts_watched sputn lib H R m p os os' Wa G W E) as Q. split; [exact Q|].
  destruct (C69_insert sputn lib m p os os' None H R G W E) as (_ & I2 & _). auto.
Qed.
Print Assumptions C69_watched.
(* with the mask a stream starts with, nothing but missing memory for the path is ever thrown *)
Theorem C69_quiet {B} (sputn : B -> str -> B * nat * taken) lib m p os os' e : honest sputn -> reports lib ->
  mask os = no_bits -> xwidth os = 0 -> xparts sputn lib m p os = (os', e) -> e = None \/ (e = Some bad_alloc /\ m = false).
Proof.
  intros H R M W E. assert (Z : forall b, bits_meet b no_bits = true -> False) by (intros [[] [] []]; discriminate).
  destruct e as [x|]; [|now left]. right. destruct (isgood os) eqn:G.
  - destruct (C69_insert sputn lib m p os os' (Some x) H R G W E) as (_ & _ & _ & I).
    destruct (I x eq_refl) as [[-> Q]|[_ Q]]; [now split|]. rewrite M in Q. now destruct (Z _ Q).
  - pose proof (xparts_bad sputn lib m p os G) as I. rewrite E in I. destruct I as (_ & _ & _ & I).
    destruct (I x eq_refl) as [[-> Q]|[_ Q]]; [now split|]. rewrite M in Q. now destruct (Z _ Q).
Qed.
Print Assumptions C69_quiet.
(* nothing reaches the buffer of a stream that is not good *)
Theorem C69_bad_stream {B} (sputn : B -> str -> B * nat * taken) lib m p os os' e : isgood os = false ->
  xparts sputn lib m p os = (os', e) -> xout os' = xout os /\ xbuf os' = xbuf os /\ isgood os' = false
  /\ (forall x, e = Some x -> (x = bad_alloc /\ m = false) \/ (x = failure /\ bits_meet (state os') (mask os) = true)).
Proof. intros G E. pose proof (xparts_bad sputn lib m p os G) as I. now rewrite E in I. Qed.
Print Assumptions C69_bad_stream.
(* an authority on its own *)
Theorem C69_authority {B} (sputn : B -> str -> B * nat * taken) lib a os os' e : honest sputn -> reports lib ->
  isgood os = true -> xwidth os = 0 -> xauthority sputn lib a os = (os', e) ->
  (exists k, xout os' = xout os ++ firstn k (authority_string a))
  /\ (e = None -> isgood os' = true -> xout os' = xout os ++ authority_string a)
  /\ (watches lib (mask os) -> e = None -> isgood os' = true)
  /\ (forall x, e = Some x -> bits_meet (state os') (mask os) = true).
Proof.
  intros H R G W E. rewrite xauth_ins in E. pose proof (good_ins sputn lib H R (auth_pieces a) os G W) as I. rewrite E in I.
  rewrite auth_concat in I. destruct I as (k & I1 & I2 & I3 & I4 & I5). split; [eauto|]. split; [|split].
  - intros _ Q. destruct (I3 Q) as (_ & Q1 & _). now rewrite I1, Q1.
  - intros Wa ->. exact (watched_ins sputn lib H R _ _ _ Wa G W E).
  - intros x Q. apply (I5 x Q).
Qed.
Print Assumptions C69_authority.

(* compose (parts) when memory may run out: whatever requests of the string stream are refused, whatever it grows by.
   It throws only for want of memory for the path or for the result; what it returns is the URI up to some point;
   it is the whole URI when no request is refused *)
Theorem C69_compose lib refused grow limit start m1 m2 p : reports lib ->
  (compose_mem lib refused grow limit start m1 m2 p = None <-> m1 = false \/ m2 = false)
  /\ (forall s, compose_mem lib refused grow limit start m1 m2 p = Some s -> exists k, s = firstn k (compose p))
  /\ (m1 = true -> m2 = true -> (forall k, refused k = false) -> (forall n, limit = Some n -> length (compose p) <= n) ->
      compose_mem lib refused grow limit start m1 m2 p = Some (compose p)).
Proof.
  intros R. unfold compose_mem, compose_with. set (os := mkx _ _ _ _ _ _ _).
  pose proof (sb_honest refused grow limit) as H. split; [|split].
  - pose proof (xparts_good _ lib H R m1 p os eq_refl eq_refl) as I.
    destruct (xparts _ lib m1 p os) as [os' e] eqn:E. destruct I as (k & _ & _ & _ & _ & _ & I).
    pose proof (C69_quiet _ lib m1 p os os' e H R eq_refl eq_refl E) as Q.
    destruct e as [x|]. { destruct Q as [Q|[_ Q]]; [discriminate|]. tauto. }
    destruct m1; [|now destruct (I eq_refl)]. destruct m2; split; try tauto; try discriminate.
  - intros s. destruct (xparts _ lib m1 p os) as [os' e] eqn:E. destruct e; [discriminate|]. destruct m2; [|discriminate].
    intros Q. injection Q as <-. destruct (C69_insert _ lib m1 p os os' None H R eq_refl eq_refl E) as (I & _). exact I.
  - intros -> -> F L. rewrite xparts_memory. destruct (all_ins refused grow limit lib (pieces p) F os eq_refl eq_refl) as (os' & E1 & E2).
    { intros n Q. rewrite pieces_concat. cbn. auto. }
    rewrite E1, E2, pieces_concat. reflexivity.
Qed.
Print Assumptions C69_compose.
(* when the first request for memory is refused, compose returns the part of the URI that fitted without it *)
Theorem C69_out_of_memory lib refused grow start p : refused 0 = true ->
  compose_mem lib refused grow None start true true p = Some (firstn start (compose p)).
Proof.
  intros F. unfold compose_mem, compose_with. rewrite xparts_memory.
  destruct (first_ins refused grow lib (pieces p) F (mkx [] (mkmem 0 start 0) no_bits no_bits 0 " " false)) as (os' & E1 & E2);
    try reflexivity; [cbn; lia|]. rewrite E1, E2, pieces_concat. reflexivity.
Qed.
Print Assumptions C69_out_of_memory.
(* so compose does not "throw or return the URI": with the 15 characters libstdc++ starts with, a refused request turns
   http://good.com.evil.org/ into http://good.com, which splits *)
Theorem C69_compose_refuted : exists p lib refused grow,
  reports lib /\ split true 200 (compose p) = Ok (Some p)
  /\ compose p = ss "http://good.com.evil.org/"
  /\ compose_mem lib refused grow None 15 true true p = Some (ss "http://good.com")
  /\ exists q a, split true 200 (ss "http://good.com") = Ok (Some q) /\ p_authority q = Some a /\ host a = ss "good.com".
Proof.
  exists (mkparts (Some (ss "http")) (Some (mkauth None (ss "good.com.evil.org") None)) (mkpath true [[]]) None None),
    (mklib (mkbits false false true) false), (fun _ => true), (fun n => 2 * n).
  split; [left; reflexivity|]. split; [vm_compute; reflexivity|]. split; [vm_compute; reflexivity|].
  split; [vm_compute; reflexivity|].
  exists (mkparts (Some (ss "http")) (Some (mkauth None (ss "good.com") None)) (mkpath false []) None None), (mkauth None (ss "good.com") None).
  vm_compute. auto.
Qed.
Print Assumptions C69_compose_refuted.
(* setting the mask of the string stream first would make it so *)
Theorem C69_repaired lib m refused grow limit start m1 m2 p s : reports lib -> watches lib m ->
  compose_with m lib refused grow limit start m1 m2 p = Some s -> s = compose p.
Proof.
  intros R Wa. unfold compose_with. set (os := mkx _ _ _ _ _ _ _). pose proof (sb_honest refused grow limit) as H.
  destruct (xparts _ lib m1 p os) as [os' e] eqn:E. destruct e; [discriminate|]. destruct m2; [|discriminate].
  intros Q. injection Q as <-. exact (proj2 (C69_watched _ lib m1 p os os' H R Wa eq_refl eq_refl E)).
Qed.
Print Assumptions C69_repaired.
(* hypotheses met: a buffer of 3 characters that then throws, on a stream that wants exceptions and on one that does not *)
Example C69_ex :
  let p := mkparts (Some (ss "a")) (Some (mkauth None (ss "h") (Some []))) (mkpath false [ss "b"]) None None in
  let sputn := fun (b : nat) (s : str) => (b - length s, Nat.min b (length s), if Nat.leb (length s) b then All else Threw) in
  let lib := mklib (mkbits false false true) true in
  let run m := xparts sputn lib true p (mkx (ss "<") 3 no_bits m 0 " "%char false) in
  honest sputn /\ reports lib /\ watches lib (mkbits false false true)
  /\ xout (fst (run no_bits)) = ss "<a:/" /\ snd (run no_bits) = None /\ isgood (fst (run no_bits)) = false
  /\ xout (fst (run (mkbits false false true))) = ss "<a:/" /\ snd (run (mkbits false false true)) = Some from_buffer
  /\ snd (run (mkbits false true false)) = Some failure.
Proof.
  split.
  { intros b s b' n r E. injection E as <- <- <-. destruct (Nat.leb_spec (length s) b); repeat split; try discriminate; lia. }
  split; [left; reflexivity|]. vm_compute. auto 10.
Qed.
(* ModelStream.v (C42) is the case of a buffer with room for n characters and no exceptions *)
Theorem C69_as_C42 lib p o n w f l : reports lib ->
  let '(os', e) := xparts fixed lib true p (mkx o n no_bits no_bits w f l) in
  let os := insert_parts p (mkstream o (Some n) w f l true) in
  xout os' = out os /\ isgood os' = good os /\ e = None.
Proof.
  intros R. rewrite xparts_memory, parts_inserts.
  pose proof (same_ins lib (pieces p) R (mkx o n no_bits no_bits w f l) (mkstream o (Some n) w f l true)) as I.
  destruct (xins _ _ _ _) as [os' e]. destruct I as (I & ->); [repeat split|]. destruct I as (I1 & _ & I2 & _). auto.
Qed.
Print Assumptions C69_as_C42.
