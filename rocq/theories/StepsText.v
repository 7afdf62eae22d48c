(* C78 on texts *)
From Verif Require Import Base ModelUri UriLang Rfc3986 SpecParts SpecUri SpecPath SpecConfine SpecSteps UriHost UriSplit UriValid UriProps PathFacts JoinFacts ConfineFacts StepsFacts.
Local Open Scope list_scope.

Lemma text_settled sg fuel ref r : fits fuel ref -> split_reference sg fuel ref = Ok (Some r) ->
  settled r <-> ~ (local_reference ref /\ starts_with_segment ref).
Proof.
  intros F E. apply split_reference_iff in E as [D _]; [|exact F]. split.
  - intros S [L W]. destruct (starts_applies ref (comps r) true (comps r) D L W) as (M1 & M2 & M3 & M4). cbn [comps Rfc3986.c_scheme Rfc3986.c_authority Rfc3986.c_absolute Rfc3986.c_segments] in *.
    destruct (local_decomp _ _ L D) as [L1 L2]. cbn [comps Rfc3986.c_scheme Rfc3986.c_authority] in *.
    destruct S as [S|[S|[S|S]]]; try congruence. destruct (p_authority r); congruence.
  - intros N. destruct (p_scheme r) eqn:E1; [left; congruence|]. destruct (p_authority r) eqn:E2; [right; left; congruence|]. right. right.
    destruct (segments (p_path r)) eqn:E3; [left; reflexivity|]. right. destruct (absolute (p_path r)) eqn:E4; [reflexivity|]. exfalso. apply N.
    assert (Lr : local_reference ref) by (apply (decomp_local ref (comps r) D); cbn; [exact E1|rewrite E2; reflexivity]). split; [exact Lr|].
    destruct D as [(sch & sh & st & Es & _)|(sh & st & _ & -> & H & T)]; [cbn in Es; congruence|].
    destruct H as [(a & sa & sp & Ea & _)|[_ H]]; [cbn in Ea; rewrite E2 in Ea; discriminate|].
    cbn [comps Rfc3986.c_absolute Rfc3986.c_segments] in H. rewrite E3, E4 in H.
    destruct H as [(Eb & _)|[(_ & y & q & Es & -> & Hy & _)|(_ & _ & X)]]; [discriminate| |discriminate].
    pose proof (nz_nc_seg y Hy) as [Hs Hn]. destruct y as [|c y]; [congruence|]. exists c. eexists. split; [reflexivity|].
    pose proof (no_end_spec (c :: y)) as A. apply segment_chars in Hs. assert (Z := Forall_inv (A ltac:(revert Hs; apply all_imp; vm_compute; reflexivity))). exact Z.
Qed.
