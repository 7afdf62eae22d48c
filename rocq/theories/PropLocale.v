(* PROPERTY THEOREMS: the locale that setlocale has installed (C54).  Vocabulary: SpecLocale.v (what is asked of a locale,
   what a text looks like in it); the functions with _in are the parser under a locale (ModelLocale.v). *)
From Verif Require Import Base ModelRule ModelUri ModelLocale SpecStore SpecLocale SpecUri LocaleFacts.
From Verif Require PropSplit.
Local Open Scope list_scope.

(* in the "C" locale, the one every program starts in, this is what C01-C14 are about *)
Theorem C54_c_locale sg fuel :
  (forall s, split_in c_locale sg fuel s = split sg fuel s) /\ (forall s, split_reference_in c_locale sg fuel s = split_reference sg fuel s)
  /\ (forall p, parts_valid_in c_locale sg fuel p = parts_valid sg fuel p)
  /\ forall base ref strict, join_in c_locale sg fuel base ref strict = join sg fuel base ref strict.
Proof. split; [|split; [|split]]; reflexivity. Qed.
Print Assumptions C54_c_locale.

(* ASCII text is split, checked and joined alike in all locales *)
Theorem C54_ascii L sg fuel s : usable L -> Forall (fun c => (code c < 128)%N) s ->
  split_in L sg fuel s = split sg fuel s /\ split_reference_in L sg fuel s = split_reference sg fuel s.
Proof. intros U A. split; [apply split_same|apply split_reference_same]; try assumption; try (right; assumption); now apply seen_ascii. Qed.
Print Assumptions C54_ascii.
Theorem C54_ascii_valid L sg fuel p : usable L -> parts_all (fun _ => Forall (fun c => (code c < 128)%N)) p ->
  parts_valid_in L sg fuel p = parts_valid sg fuel p.
Proof. intros U A. apply valid_same; [exact U|]. eapply parts_all_impl; [|exact A]. cbn. intros _ s H. split; [now right|now apply seen_ascii]. Qed.
Print Assumptions C54_ascii_valid.
Theorem C54_ascii_join L sg fuel base ref strict : usable L -> Forall (fun c => (code c < 128)%N) base -> Forall (fun c => (code c < 128)%N) ref ->
  join_in L sg fuel base ref strict = join sg fuel base ref strict.
Proof. intros U A B. unfold join_in, join. rewrite (proj1 (C54_ascii L sg fuel base U A)). now rewrite (proj2 (C54_ascii L sg fuel ref U B)). Qed.
Print Assumptions C54_ascii_join.
(* and so is any text in a locale that knows no letters beyond ASCII, as those with UTF-8 *)
Theorem C54_no_letters L sg fuel s : usable L -> (forall i, (128 <= i <= 255)%Z -> l_isalpha L i = false) -> in_domain sg s ->
  split_in L sg fuel s = split sg fuel s /\ split_reference_in L sg fuel s = split_reference sg fuel s.
Proof. intros U A D. split; [apply split_same|apply split_reference_same]; try assumption; now apply seen_none. Qed.
Print Assumptions C54_no_letters.

(* In general, exactly: the locale's letters beyond ASCII are read like the letter g.  The components are at the same
   places in the text. *)
Theorem C54_split L sg fuel s : usable L -> in_domain sg s ->
  split sg fuel (map (seen_as L) s) = result_map (option_map (parts_map (seen_as L))) (split_in L sg fuel s).
Proof. intros U D. apply split_map_g; [exact U|now apply dom_good]. Qed.
Print Assumptions C54_split.
Theorem C54_split_reference L sg fuel s : usable L -> in_domain sg s ->
  split_reference sg fuel (map (seen_as L) s) = result_map (option_map (parts_map (seen_as L))) (split_reference_in L sg fuel s).
Proof. intros U D. apply split_reference_map_g; [exact U|now apply dom_good]. Qed.
Print Assumptions C54_split_reference.
Theorem C54_valid L sg fuel p : usable L -> parts_all (fun _ => in_domain sg) p ->
  parts_valid sg fuel (parts_map (seen_as L) p) = parts_valid_in L sg fuel p.
Proof. intros U D. apply valid_map_g; [exact U|]. eapply parts_all_impl; [|exact D]. cbn. intros _ s H. now apply dom_good. Qed.
Print Assumptions C54_valid.

(* What is accepted in some locale and is ASCII is a URI *)
Theorem C54_sound L sg fuel s p : usable L -> fits fuel s -> Forall (fun c => (code c < 128)%N) s -> split_in L sg fuel s = Ok (Some p) ->
  Rfc3986.L Rfc3986.URI s /\ Rfc3986.URI_decomp s (SpecParts.comps p).
Proof.
  intros U F A E. rewrite (proj1 (C54_ascii L sg fuel s U A)) in E. destruct (PropSplit.C01_split_sound sg fuel s p F E) as (X & Y & _). auto.
Qed.
Print Assumptions C54_sound.

(* --- two locales --- *)
Local Open Scope Z_scope.
Definition accented_upper (i : Z) : bool := (192 <=? i) && (i <=? 222) && negb (i =? 215).
Definition accented_lower (i : Z) : bool := (223 <=? i) && (i <=? 255) && negb (i =? 247).
(* ISO-8859-1 *)
Definition latin1 : locale := mklocale
  (fun i => c_isupper i || accented_upper i) (fun i => c_islower i || accented_lower i)
  (fun i => c_isalpha i || accented_upper i || accented_lower i || (i =? 170) || (i =? 181) || (i =? 186))
  (fun i => if c_isupper i || accented_upper i then i + 32 else i).
(* Turkish, ISO-8859-9: I becomes a dotless i (FD), and the I with a dot (DD) becomes i *)
Definition turkish : locale := mklocale
  (l_isupper latin1) (l_islower latin1) (l_isalpha latin1)
  (fun i => if i =? 0x49 then 0xFD else if i =? 0xDD then 0x69 else l_tolower latin1 i).
Lemma each_byte (P : Z -> bool) n : forallb P (map Z.of_nat (seq 0 n)) = true -> forall i, 0 <= i < Z.of_nat n -> P i = true.
Proof. intros H i Hi. rewrite forallb_forall in H. apply H. rewrite <- (Z2Nat.id i) by lia. apply in_map. apply in_seq. lia. Qed.
(* the conditions on single bytes, one after the other *)
Definition usable_bytes (L : locale) : bool :=
  forallb (fun i => Bool.eqb (l_isalpha L i) (is_letter i)) (map Z.of_nat (seq 0 128))
  && forallb (fun i => (l_tolower L i =? i) || (l_isupper L i && l_islower L (l_tolower L i))) (map Z.of_nat (seq 0 256))
  && forallb (fun i => Bool.eqb (l_tolower L i =? 0x76) ((i =? 0x76) || (i =? 0x56))) (map Z.of_nat (seq 0 256)).
Lemma usable_from L : usable_bytes L = true -> (forall i, l_isupper L i = true -> l_isalpha L i = true) ->
  (forall i, l_islower L i = true -> l_isalpha L i = true) -> usable L.
Proof.
  intros H Hu Hl. apply andb_true_iff in H as [H H3]. apply andb_true_iff in H as [H1 H2]. split; [|exact Hu|exact Hl| |].
  - intros i Hi. apply eqb_prop. exact (each_byte _ _ H1 i Hi).
  - intros i Hi. pose proof (each_byte _ _ H2 i ltac:(lia)) as E. cbv beta in E. apply orb_true_iff in E as [E|E]; [left; now apply Z.eqb_eq|right; now apply andb_true_iff].
  - intros i Hi. pose proof (each_byte _ _ H3 i ltac:(lia)) as E. cbv beta in E. apply eqb_prop in E. rewrite <- Z.eqb_eq, E, orb_true_iff, !Z.eqb_eq. reflexivity.
Qed.
Lemma latin1_letters i : (l_isupper latin1 i = true -> l_isalpha latin1 i = true) /\ (l_islower latin1 i = true -> l_isalpha latin1 i = true).
Proof. cbn [l_isupper l_islower l_isalpha latin1]. unfold c_isalpha. destruct (c_isupper i), (c_islower i), (accented_upper i), (accented_lower i); cbn [orb]; split; intros; try reflexivity; discriminate. Qed.
Lemma latin1_usable : usable latin1.
Proof. apply usable_from; [vm_compute; reflexivity|apply latin1_letters|apply latin1_letters]. Qed.
Lemma turkish_usable : usable turkish.
Proof. apply usable_from; [vm_compute; reflexivity|apply latin1_letters|apply latin1_letters]. Qed.

(* in an ISO-8859-1 locale (and char unsigned) text that is no URI is accepted, as path, as host and as scheme *)
Theorem C54_refuted : usable latin1
  /\ (let s := ss "a:" ++ [chr 0xE9] in ~ Rfc3986.L Rfc3986.URI s /\ split false 100 s = Ok None
      /\ split_in latin1 false 100 s = Ok (Some (mkparts (Some (ss "a")) None (mkpath false [[chr 0xE9]]) None None)))
  /\ (exists p, split_in latin1 false 100 (chr 0xE9 :: ss "://" ++ [chr 0xFC] ++ ss "/") = Ok (Some p)
      /\ parts_valid_in latin1 false 100 p = Ok true /\ parts_valid false 100 p = Ok false).
Proof.
  split; [exact latin1_usable|]. split; [cbv zeta; split; [|split; vm_compute; reflexivity]|].
  - intros H. apply URI_ascii in H. inversion H as [|? ? _ H1]; subst. inversion H1 as [|? ? _ H2]; subst. inversion H2 as [|? ? H3 _]; subst. vm_compute in H3. discriminate.
  - eexists. split; [vm_compute; reflexivity|]. split; vm_compute; reflexivity.
Qed.
Print Assumptions C54_refuted.

Example C54_ex : usable turkish /\ l_tolower turkish 0x49 = 0xFD /\ map (seen_as turkish) [chr 0xFD; "I"%char; chr 0x80] = ["g"%char; "I"%char; chr 0x80]
  /\ split_in turkish true 100 (ss "http://[V1.I]/I") = Ok (Some (mkparts (Some (ss "http")) (Some (mkauth None (ss "[V1.I]") None)) (mkpath true [ss "I"]) None None)).
Proof. split; [exact turkish_usable|]. split; [|split]; vm_compute; reflexivity. Qed.
