(* The segments of URIs have no separators *)
From Verif Require Import Base ModelUri SpecWin PegUri UriLang UriHost UriSplit UriValid UriProps PropSplitFacts SpecUri Rfc3986 PropSplit CommuteFacts.
Local Open Scope list_scope.

Lemma no_sep_all f (s : str) : f "/"%char = false -> f backslash = false -> all f s -> ~ In "/"%char s /\ ~ In backslash s.
Proof. intros A B H. rewrite Forall_forall in H. split; intros I; apply H in I; congruence. Qed.
Lemma segment_no_sep s : L segment s -> ~ In "/"%char s /\ ~ In backslash s.
Proof. intros H. apply segment_chars in H. eapply no_sep_all; [| |exact H]; reflexivity. Qed.
Lemma segment_nz_no_sep s : L segment_nz s -> ~ In "/"%char s /\ ~ In backslash s.
Proof. intros H. apply segment_nz_chars in H. eapply no_sep_all; [| |exact H]; reflexivity. Qed.
Lemma segments_no_sep l : Forall (L segment) l -> no_separators l.
Proof. intros H. eapply Forall_impl; [|exact H]. exact segment_no_sep. Qed.
Lemma decomp_no_sep s c : URI_decomp s c -> no_separators (c_segments c).
Proof.
  intros (sch & sh & st & Es & Ls & -> & Hh & _).
  destruct Hh as [(a & sa & sp & Ea & -> & Ha & (-> & Hs & Hb))|(Ea & Hp)]; [now apply segments_no_sep|].
  destruct Hp as [(Eb & -> & Hp)|[(Eb & x & rest & Ex & -> & Hx & Hr)|(-> & Eb & Ex)]].
  - destruct Hp as [->|(x & rest & -> & Hx & Hr)].
    + constructor; [cbn; tauto|constructor].
    + constructor; [now apply segment_nz_no_sep|now apply segments_no_sep].
  - rewrite Ex. constructor; [now apply segment_nz_no_sep|now apply segments_no_sep].
  - rewrite Ex. constructor.
Qed.
Lemma split_no_separators sg fuel s p : fits fuel s -> split sg fuel s = Ok (Some p) -> no_separators (segments (p_path p)).
Proof. intros F E. destruct (C01_split_sound sg fuel s p F E) as (_ & D & _). apply decomp_no_sep in D. exact D. Qed.
Lemma segment_nz_nc_no_sep s : L segment_nz_nc s -> ~ In "/"%char s /\ ~ In backslash s.
Proof. intros H. apply segment_nz_nc_chars in H. eapply no_sep_all; [| |exact H]; reflexivity. Qed.
Lemma relative_no_sep s c : relative_decomp s c -> no_separators (c_segments c).
Proof.
  intros (sh & st & Es & -> & Hh & _).
  destruct Hh as [(a & sa & sp & Ea & -> & Ha & (-> & Hs & Hb))|(Ea & Hp)]; [now apply segments_no_sep|].
  destruct Hp as [(Eb & -> & Hp)|[(Eb & x & rest & Ex & -> & Hx & Hr)|(-> & Eb & Ex)]].
  - destruct Hp as [->|(x & rest & -> & Hx & Hr)].
    + constructor; [cbn; tauto|constructor].
    + constructor; [now apply segment_nz_no_sep|now apply segments_no_sep].
  - rewrite Ex. constructor; [now apply segment_nz_nc_no_sep|now apply segments_no_sep].
  - rewrite Ex. constructor.
Qed.
Lemma reference_no_separators sg fuel s p : fits fuel s -> split_reference sg fuel s = Ok (Some p) -> no_separators (segments (p_path p)).
Proof. intros F E. apply (C04_split_reference sg fuel s p F) in E as [[D|D] _]; [apply decomp_no_sep in D|apply relative_no_sep in D]; exact D. Qed.
Lemma join_no_separators b r strict : no_separators (segments (p_path b)) -> no_separators (segments (p_path r)) -> no_separators (segments (p_path (join_parts b r strict))).
Proof. intros B R. apply (join_segments_all (fun s => ~ In "/"%char s /\ ~ In backslash s)); [cbn; tauto|exact B|exact R]. Qed.
Lemma valid_no_separators sg fuel p : Forall (fits fuel) (segments p) -> path_valid sg fuel p = Ok true -> no_separators (segments p).
Proof. intros F V. apply segments_no_sep. exact (proj1 (C07_path_valid sg fuel p F) V). Qed.
