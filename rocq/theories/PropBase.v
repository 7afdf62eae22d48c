(* PROPERTY THEOREMS: base () and == of the iterators of a transcode view (C73).  view_at T cap l i is the iterator
   after begin () and i times ++, vit_base what its base () returns, as an offset in the input l; run is what the
   class does with a program of operations on many iterators. *)
From Verif Require Import Base ModelIcu ModelHist SpecIcu SpecHist SpecBase IcuEnc BaseFacts BaseText BaseAll.
From Coq Require Import Lia.
Local Open Scope list_scope.

(* --- any input, well-formed or not --- *)
(* base () is where the input stood when the transcoder last had written no unit after the i-th *)
Theorem C73_base T cap bound fin fout l out ok i : recodes T cap bound fin fout -> Forall (fun u => (u < bound)%N) l ->
  transcode T l = Ok (out, ok) -> (i <= length out)%nat -> exists it, view_at T cap l i = Ok it /\ stands T l out i (vit_base T it).
Proof. apply base_stands. Qed.
Print Assumptions C73_base.
(* ... which is one place *)
Theorem C73_one_place T l out i b b' : stands T l out i b -> stands T l out i b' -> b = b'.
Proof. apply stands_unique. Qed.
Print Assumptions C73_one_place.
(* two iterators compare equal just when they stand at one place: in any program *)
Theorem C73_equal T cap bound fin fout l out ok equal ops x : recodes T cap bound fin fout -> Forall (fun u => (u < bound)%N) l -> transcode T l = Ok (out, ok) ->
  (forall i j, (i <= length out)%nat -> (j <= length out)%nat -> (equal i j = true <-> exists p, stands T l out i p /\ stands T l out j p)) ->
  cursor_run_as out ok equal ops = Some x -> run (view_class T cap l) ops = Ok x.
Proof. apply equal_run. Qed.
Print Assumptions C73_equal.

(* --- well-formed input --- *)
(* as far as the input is well-formed base () is where the code point begins that the unit belongs to *)
Theorem C73_base_well_formed T cap bound fin fout cs c x1 xc x2 y1 yc i : recodes T cap bound fin fout -> text fin cs x1 -> fin c xc -> Forall (fun u => (u < bound)%N) x2 ->
  text fout cs y1 -> fout c yc -> (length y1 <= i < length y1 + length yc)%nat ->
  exists it, view_at T cap (x1 ++ xc ++ x2) i = Ok it /\ vit_base T it = length x1.
Proof.
  intros V X1 Xc X2 Y1 Yc L. assert (F : Forall (fun u => (u < bound)%N) (x1 ++ xc ++ x2)).
  { apply Forall_app. split; [exact (recodes_units _ _ _ _ _ _ _ V X1)|]. apply Forall_app. split; [|exact X2]. rewrite <- (app_nil_r xc). apply (recodes_units _ _ _ _ _ [c] _ V). constructor; [exact Xc|constructor]. }
  destruct (recodes_exact _ _ _ _ _ V) as (idle & X). destruct (recodes_out _ _ _ _ _ V) as [Fu Ne]. destruct (recodes_in _ _ _ _ _ V) as [_ Ni].
  pose proof (exact_belongs T fin fout idle X Fu Ne cs x1 y1 c xc yc x2 i X1 Y1 Xc (Ni _ _ Xc) Yc L) as B.
  destruct (recodes_total _ _ _ _ _ _ V F) as (out & ok & E).
  assert (Li : (i < length out)%nat).
  { destruct (exact_text T fin fout idle X Fu cs x1 y1 X1 Y1 _ (ex_init _ _ _ _ X)) as (s1 & E1 & H1). destruct (ex_code _ _ _ _ X s1 c xc H1 Xc) as (s2 & y2 & E2 & F2 & _). rewrite (Fu _ _ _ F2 Yc) in E2.
    unfold transcode in E. rewrite IcuRead8.feed_app, E1 in E. cbn [bind] in E. rewrite IcuRead8.feed_app, E2 in E. cbn [bind] in E.
    destruct (feed T s2 x2) as [[s3 w3]| |]; cbn [bind] in E; try discriminate. destruct (tc_end T s3) as [[s4 w4]| |]; cbn [bind] in E; try discriminate. injection E as <- <-. rewrite !app_length. lia. }
  destruct (base_stands _ _ _ _ _ _ _ _ i V F E ltac:(lia)) as (it & A & S). exists it. split; [exact A|].
  destruct S as [[_ S]|[Z _]]; [|lia]. exact (belongs_unique _ _ _ _ _ S B).
Qed.
Print Assumptions C73_base_well_formed.
(* so that transcoding the input from base () on gives the rest of the output *)
Theorem C73_resume T cap bound fin fout cs1 cs2 x1 x2 y1 y2 : recodes T cap bound fin fout -> text fin cs1 x1 -> text fin cs2 x2 -> text fout cs1 y1 -> text fout cs2 y2 ->
  exists it, view_at T cap (x1 ++ x2) (length y1) = Ok it /\ transcode T (x1 ++ x2) = Ok (y1 ++ y2, true) /\ transcode T (skipn (vit_base T it) (x1 ++ x2)) = Ok (y2, true).
Proof.
  intros V X1 X2 Y1 Y2. assert (E : transcode T (x1 ++ x2) = Ok (y1 ++ y2, true)).
  { apply (recodes_text _ _ _ _ _ (cs1 ++ cs2) _ _ V); apply text_app; assumption. }
  assert (B : exists it, view_at T cap (x1 ++ x2) (length y1) = Ok it /\ vit_base T it = length x1).
  { destruct X2 as [|c xc cs2 x2 Xc X2].
    - inversion Y2; subst. destruct (base_stands _ _ _ _ _ (x1 ++ []) _ _ (length y1) V ltac:(rewrite app_nil_r; exact (recodes_units _ _ _ _ _ _ _ V X1)) E) as (it & A & S); [rewrite app_nil_r; lia|].
      exists it. split; [exact A|]. rewrite !app_nil_r in S. destruct S as [[Z _]|[_ S]]; [lia|exact S].
    - inversion Y2 as [|c0 yc cs0 y2' Yc Y2']; subst. apply (C73_base_well_formed T cap bound fin fout cs1 c x1 xc x2 y1 yc); auto.
      + exact (recodes_units _ _ _ _ _ _ _ V X2).
      + pose proof (proj2 (recodes_out _ _ _ _ _ V) _ _ Yc). destruct yc; [contradiction|cbn; lia]. }
  destruct B as (it & A & B). exists it. split; [exact A|]. split; [exact E|]. rewrite B, skipn_app, Nat.sub_diag, skipn_all. cbn [app skipn]. apply (recodes_text _ _ _ _ _ cs2 _ _ V X2 Y2).
Qed.
Print Assumptions C73_resume.
(* two iterators compare equal just when their units belong to one code point *)
Theorem C73_equal_well_formed T cap bound fin fout cs l out equal ops x : recodes T cap bound fin fout -> text fin cs l -> text fout cs out ->
  (forall i j, (i <= length out)%nat -> (j <= length out)%nat -> (equal i j = true <-> exists m, within fout cs i m /\ within fout cs j m)) ->
  cursor_run_as out true equal ops = Some x -> run (view_class T cap l) ops = Ok x.
Proof.
  intros V Hl Ho H. apply (equal_run T cap bound fin fout l out true equal ops x V (recodes_units _ _ _ _ _ _ _ V Hl) (recodes_text _ _ _ _ _ _ _ _ V Hl Ho)).
  intros i j Li Lj. rewrite (H i j Li Lj). exact (within_same T cap bound fin fout V cs l out Hl Ho i j Li Lj).
Qed.
Print Assumptions C73_equal_well_formed.

(* --- ill-formed UTF-16 --- *)
(* After a high surrogate without its pair the transcoder has already read the beginning of what follows: base () of
   the iterator that shows U+10000 is after the first half of its surrogate pair, and the input from there on is
   something else. *)
Lemma C73_at T cap l i n : (match view_at T cap l i with Ok it => vit_base T it | _ => S n end) = n -> exists it, view_at T cap l i = Ok it /\ vit_base T it = n.
Proof. destruct (view_at T cap l i) as [it| |]; intros E; [eauto|exfalso; lia|exfalso; lia]. Qed.
Theorem C73_resume_refuted : let l := [0xD800; 0xD800; 0xDC00]%N in transcode t16_32 l = Ok ([0xFFFD; 0x10000]%N, false)
  /\ (exists it, view_at t16_32 max_output_16_32 l 1 = Ok it /\ vit_base t16_32 it = 2%nat) /\ transcode t16_32 (skipn 2 l) = Ok ([0xFFFD]%N, false)
  /\ transcode t16_32 (skipn 1 l) = Ok ([0x10000]%N, true).
Proof. split; [vm_compute; reflexivity|]. split; [apply C73_at; vm_compute; reflexivity|]. split; vm_compute; reflexivity. Qed.
Print Assumptions C73_resume_refuted.
(* A high surrogate followed by an ordinary unit: base () of the iterator that shows U+0041 is the high surrogate's. *)
Theorem C73_pair_refuted : let l := [0xD800; 0x41]%N in transcode t16_32 l = Ok ([0xFFFD; 0x41]%N, false)
  /\ (exists it, view_at t16_32 max_output_16_32 l 1 = Ok it /\ vit_base t16_32 it = 0%nat)
  /\ run (view_class t16_32 max_output_16_32 l) [Begin; Begin; Inc 1; Equal 0 1; Deref 0; Deref 1; Read 0; Read 1] = Ok [Bool true; Val 0xFFFD%N; Val 0x41%N].
Proof. split; [vm_compute; reflexivity|]. split; [apply C73_at; vm_compute; reflexivity|vm_compute; reflexivity]. Qed.
Print Assumptions C73_pair_refuted.

(* --- the hypotheses are met --- *)
Definition C73_l : list N := [0xE2; 0x82; 0xAC; 0x41]%N.
Lemma C73_euro : utf8_of 0x20AC [0xE2; 0x82; 0xAC]%N.
Proof. apply (utf8_3 0x20AC)%N; [discriminate|reflexivity|]. left. reflexivity. Qed.
Lemma C73_text8 : text utf8_of [0x20AC; 0x41]%N C73_l.
Proof. apply (text_cons utf8_of 0x20AC [0xE2; 0x82; 0xAC] [0x41] [0x41])%N; [exact C73_euro|]. apply (text_cons utf8_of 0x41 [0x41] [] [])%N; [|constructor]. apply utf8_1. reflexivity. Qed.
(* four units, of two code points: 0, 1, 2 | 3 *)
Definition C73_same (i j : nat) : bool := Bool.eqb (Nat.ltb i 3) (Nat.ltb j 3) && Bool.eqb (Nat.ltb i 4) (Nat.ltb j 4).
Definition C73_program : list op := [Begin; Copy 0; Inc 1; Equal 0 1; Inc 1; Inc 1; Equal 0 1; End; Equal 1 2; Inc 1; Equal 1 2; Deref 0; Read 0].
Example C73_base_ex : recodes t8_8 max_output_8 (2 ^ 8) utf8_of utf8_of /\ Forall (fun u => (u < 2 ^ 8)%N) C73_l /\ transcode t8_8 C73_l = Ok (C73_l, true)
  /\ map (fun i => match view_at t8_8 max_output_8 C73_l i with Ok it => vit_base t8_8 it | _ => 99%nat end) [0; 1; 2; 3; 4]%nat = [0; 0; 0; 3; 4]%nat.
Proof. split; [constructor|]. split; [repeat first [apply Forall_cons|apply Forall_nil]; reflexivity|]. split; vm_compute; reflexivity. Qed.
Example C73_well_formed_ex : text utf8_of [] [] /\ utf8_of 0x20AC [0xE2; 0x82; 0xAC]%N /\ text utf8_of [0x20AC]%N [0xE2; 0x82; 0xAC]%N /\ text utf8_of [0x41]%N [0x41]%N.
Proof. split; [constructor|]. split; [exact C73_euro|]. split; [apply (text_cons utf8_of 0x20AC [0xE2; 0x82; 0xAC] [] [])%N; [exact C73_euro|constructor]|]. apply (text_cons utf8_of 0x41 [0x41] [] [])%N; [|constructor]. apply utf8_1. reflexivity. Qed.
Example C73_equal_ex : text utf8_of [0x20AC; 0x41]%N C73_l /\ (forall i j, (i <= 4)%nat -> (j <= 4)%nat -> (C73_same i j = true <-> exists m, within utf8_of [0x20AC; 0x41]%N i m /\ within utf8_of [0x20AC; 0x41]%N j m))
  /\ cursor_run_as C73_l true C73_same C73_program = Some [Bool true; Bool false; Bool false; Bool true; Val 0xE2%N].
Proof.
  split; [exact C73_text8|]. split; [|reflexivity].
  assert (W : forall i m, (i <= 4)%nat -> (within utf8_of [0x20AC; 0x41]%N i m <-> m = if Nat.ltb i 3 then 0%nat else if Nat.ltb i 4 then 1%nat else 2%nat)).
  { assert (U : functional utf8_of) by apply utf8_fun. assert (UA : utf8_of 0x41 [0x41]%N) by (apply utf8_1; reflexivity).
    intros i m L. split.
    - intros [(y1 & c & yc & Y1 & Hc & Yc & Lm)|(-> & y & Y & ->)].
      + destruct m as [|[|m]]; cbn [nth_error firstn] in Hc, Y1; [| |destruct m; discriminate].
        * injection Hc as <-. rewrite (U _ _ _ Yc C73_euro) in Lm. inversion Y1; subst. cbn [length] in Lm. destruct (Nat.ltb_spec i 3); [reflexivity|lia].
        * injection Hc as <-. rewrite (U _ _ _ Yc UA) in Lm. rewrite (text_fun _ U _ _ _ Y1 (proj1 (proj2 (proj2 C73_well_formed_ex)))) in Lm. cbn [length] in Lm. destruct (Nat.ltb_spec i 3); [lia|]. destruct (Nat.ltb_spec i 4); [reflexivity|lia].
      + rewrite (text_fun _ U _ _ _ Y C73_text8). reflexivity.
    - intros ->. destruct (Nat.ltb_spec i 3); [|destruct (Nat.ltb_spec i 4)].
      + left. exists [], 0x20AC%N, [0xE2; 0x82; 0xAC]%N. split; [constructor|]. split; [reflexivity|]. split; [exact C73_euro|]. cbn. lia.
      + left. exists [0xE2; 0x82; 0xAC]%N, 0x41%N, [0x41]%N. split; [exact (proj1 (proj2 (proj2 C73_well_formed_ex)))|]. split; [reflexivity|]. split; [exact UA|]. cbn. lia.
      + right. split; [reflexivity|]. exists C73_l. split; [exact C73_text8|]. cbn. lia. }
  intros i j Li Lj. split.
  - intros E. eexists. rewrite (W i _ Li), (W j _ Lj). split; [reflexivity|]. unfold C73_same in E. destruct (Nat.ltb i 3), (Nat.ltb j 3), (Nat.ltb i 4), (Nat.ltb j 4); try discriminate; reflexivity.
  - intros (m & A & B). apply (W i _ Li) in A. apply (W j _ Lj) in B. subst m. unfold C73_same.
    destruct (Nat.ltb_spec i 3), (Nat.ltb_spec j 3), (Nat.ltb_spec i 4), (Nat.ltb_spec j 4); try discriminate; try lia; reflexivity.
Qed.
