(* PROPERTY THEOREMS: the templates pctencode, needs_pctencode, pctdecode_view and pctdecode_iterator over characters
   wider than char (C75).  A character is its number; bits is the width of the characters that the output of pctencode
   takes (8: a std::string).  Vocabulary: SpecWide.v, SpecPct.v. *)
From Verif Require Import Base ModelPct ModelWide SpecPct SpecWide PctFacts WideFacts.
From Coq Require Import Lia.
Local Open Scope N_scope.
Local Open Scope list_scope.

(* characters below 256 are treated as bytes are (C15-C18) *)
Theorem C75_bytes s es bits : 8 <= bits -> es < 256 ->
  pctencode_wide bits (map cp s) es = (do e <- pctencode s es; Ok (map cp e)) /\ needs_pctencode_wide (map cp s) es = needs_pctencode s es
  /\ needs_pctdecode_wide (map cp s) = needs_pctdecode s /\ forall t, pctdecode s = Ok t -> pctdecode_wide (map cp s) = Ok (map cp t).
Proof.
  intros Hb He. split; [exact (bytes_same es s bits Hb He)|]. split.
  { induction s as [|c s IH]; [reflexivity|]. cbn. replace (to_byte (cp c)) with (code c) by (symmetry; apply N.mod_small, code_lt). now rewrite IH. }
  assert (PE : forall c, (cp c =? code "%") = Ascii.eqb c "%").
  { intros c. destruct (N.eqb_spec (cp c) (code "%")) as [E|E], (Ascii.eqb_spec c "%") as [X|X]; try reflexivity; [exfalso; apply X; rewrite <- (chr_code c), <- (chr_code "%"); unfold cp in E; now rewrite E|exfalso; apply E; now subst c]. }
  split; [unfold needs_pctdecode_wide, needs_pctdecode; induction s as [|c s IH]; [reflexivity|]; cbn [map existsb]; now rewrite IH, PE|].
  intros t E. apply pctdecode_iff in E. apply pctdecode_wide_iff. induction E as [|s b rest t He' H IH|c s t Hn H IH]; [constructor| |]; cbn [map].
  - destruct He' as (h & l & x & y & -> & E1 & E2 & ->). eapply dw_escape; [|exact IH]. exists (cp h), (cp l), x, y. split; [reflexivity|]. split; [now exists h|]. split; [now exists l|].
    destruct (hex2dec_spec h) as [_ B1], (hex2dec_spec l) as [_ B2]. specialize (B1 x E1). specialize (B2 y E2). apply code_chr. lia.
  - apply dw_copy; [|exact IH]. intros b rest (h & l & x & y & E & (h' & -> & D1) & (l' & -> & D2) & _). destruct s as [|h2 [|l2 s]]; try discriminate. injection E as E0 E1 E2 _.
    assert (J : forall a b, cp a = cp b -> a = b) by (intros a b0 Z; rewrite <- (chr_code a), <- (chr_code b0); unfold cp in Z; now rewrite Z).
    apply (J c "%"%char) in E0. apply J in E1, E2. subst. apply (Hn (chr (16 * x + y)) s). exists h', l', x, y. auto.
Qed.
Print Assumptions C75_bytes.
(* what is written: for a character whose low byte is in the set, the escape of its low byte; else the character, as far
   as the output's characters can hold it *)
Theorem C75_encode s es bits : 8 <= bits -> es < 256 ->
  exists pieces, Forall2 (fun u p => (needs_byte (u mod 256) es = Ok true /\ p = map cp (escape (chr (u mod 256)))) \/ (needs_byte (u mod 256) es = Ok false /\ p = [u mod 2 ^ bits])) s pieces
  /\ pctencode_wide bits s es = Ok (concat pieces)
  /\ exists b, needs_pctencode_wide s es = Ok b /\ (b = true <-> exists u, In u s /\ needs_byte (u mod 256) es = Ok true).
Proof.
  intros Hb He. exists (map (piece bits es) s). split; [|split].
  - induction s as [|u s IH]; constructor; [|exact IH]. change (u mod 256) with (to_byte u). rewrite (needs_w_ok es u He). unfold piece. destruct (needs_w es u); [left|right]; split; reflexivity.
  - rewrite (encode_is bits es s Hb He), flat_map_concat_map. reflexivity.
  - exists (existsb (needs_w es) s). split; [exact (needs_wide_is es s He)|]. rewrite existsb_exists. split; intros (u & I & N); exists u; (split; [exact I|]).
    + change (u mod 256) with (to_byte u). now rewrite (needs_w_ok es u He), N.
    + change (u mod 256) with (to_byte u) in N. rewrite (needs_w_ok es u He) in N. congruence.
Qed.
Print Assumptions C75_encode.
(* decoding is exact for characters of any width *)
Theorem C75_decode s t : pctdecode_wide s = Ok t <-> decodes_wide s t.
Proof. exact (pctdecode_wide_iff s t). Qed.
Print Assumptions C75_decode.
Theorem C75_decode_total s : exists t, decodes_wide s t /\ forall t', decodes_wide s t' -> t' = t.
Proof. destruct (decode_loop_wide (length s) s [] (le_n _)) as (t & _ & D). exists t. split; [exact D|]. intros t' D'. symmetry. exact (decodes_wide_fun _ _ D _ D'). Qed.
Print Assumptions C75_decode_total.
(* so decoding gives back what was encoded just when every character of 256 or more has a low byte outside the set *)
Theorem C75_round_trip s es bits : 8 <= bits -> 0 < es < 256 -> Forall (fun u => u < 2 ^ bits) s ->
  exists e d, pctencode_wide bits s es = Ok e /\ pctdecode_wide e = Ok d
  /\ (d = s <-> forall u, In u s -> 256 <= u -> needs_byte (u mod 256) es = Ok false).
Proof.
  intros Hb He F. assert (He' : es < 256) by lia. exists (flat_map (piece bits es) s), (map (kept bits es) s). split; [exact (encode_is bits es s Hb He')|]. split.
  - apply pctdecode_wide_iff. rewrite <- (app_nil_r (flat_map _ s)), <- (app_nil_r (map _ s)). apply decode_encoded; [assumption|assumption|constructor].
  - rewrite (kept_iff bits es s Hb F), Forall_forall. split; intros G u I L; specialize (G u I L).
    + change (u mod 256) with (to_byte u). now rewrite (needs_w_ok es u He'), G.
    + change (u mod 256) with (to_byte u) in G. rewrite (needs_w_ok es u He') in G. congruence.
Qed.
Print Assumptions C75_round_trip.
(* written to a std::string, every character is cut to its low byte, escaped or not *)
Theorem C75_narrow s es : 0 < es < 256 -> exists e, pctencode_wide 8 s es = Ok e /\ pctdecode_wide e = Ok (map (fun u => u mod 256) s)
  /\ pctencode_wide 8 (map (fun u => u mod 256) s) es = Ok e.
Proof.
  intros He. assert (He' : es < 256) by lia. exists (flat_map (piece 8 es) s). split; [apply encode_is; [discriminate|exact He']|]. split.
  - apply pctdecode_wide_iff. change (map (fun u => u mod 256) s) with (map to_byte s). rewrite <- (narrow_kept es s), <- (app_nil_r (flat_map _ s)), <- (app_nil_r (map _ s)). apply decode_encoded; [discriminate|exact He|constructor].
  - change (map (fun u => u mod 256) s) with (map to_byte s). rewrite <- (narrow es s He'). apply encode_is; [discriminate|exact He'].
Qed.
Print Assumptions C75_narrow.
Example C75_ex : 8 <= 16 /\ 0 < es_component < 256 /\ Forall (fun u => u < 2 ^ 16) [97; 0x20; 0x25; 0x141; 0xE9]
  /\ pctencode_wide 16 [97; 0x20; 0x25; 0x141; 0xE9] es_component = Ok ([97] ++ map cp (ss "%20%25") ++ [0x141] ++ map cp (ss "%E9"))
  /\ pctdecode_wide ([97] ++ map cp (ss "%20%25") ++ [0x141] ++ map cp (ss "%E9%4")) = Ok ([97; 0x20; 0x25; 0x141; 0xE9] ++ map cp (ss "%4")).
Proof. split; [discriminate|]. split; [split; reflexivity|]. split; [repeat (constructor; [reflexivity|]); constructor|]. split; vm_compute; reflexivity. Qed.
(* a user who encodes a std::u16string as a path may expect to get the text back from decoding, and no slash that was not
   there; U+012F becomes / in a std::string, and U+0125 becomes %25 *)
Theorem C75_wide_refuted : pctencode_wide 8 [0x12F] es_path = Ok (map cp (ss "/")) /\ pctencode_wide 16 [0x125] es_path = Ok (map cp (ss "%25"))
  /\ pctdecode_wide (map cp (ss "%25")) = Ok (map cp (ss "%")) /\ pctencode_wide 16 [0x125] es_path = pctencode_wide 16 [0x25] es_path.
Proof. repeat split; vm_compute; reflexivity. Qed.
Print Assumptions C75_wide_refuted.
