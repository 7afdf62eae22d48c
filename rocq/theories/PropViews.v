(* C95: views that are copied, assigned to and destroyed while their iterators are in use. *)
From Verif Require Import Base ModelPct SpecPct PctFacts ModelIcu SpecIcu IcuProps ModelHist ModelViews SpecLifetimes ViewsFacts.
Local Open Scope list_scope.

(* any number of views over any texts, any number of iterators: a program that uses an iterator only while its view is there and has
   the text sees cursors over the decoded texts *)
Theorem C95_pctdecode_view text shown ops x : (forall n, decodes (text n) (shown n)) ->
  spec_run shown (fun _ => true) pctdecode_view_rules ops = Some x -> vrun (pctdecode_views text) ops = Ok x.
Proof. intros D. exact (proj1 (percent_all text shown D _ _ (or_introl (conj eq_refl eq_refl))) ops x). Qed.
Print Assumptions C95_pctdecode_view.
(* and that is needed: without its view an iterator can be neither moved nor read from *)
Theorem C95_pctdecode_view_needed text shown ops k : (forall n, decodes (text n) (shown n)) -> abandoned shown (fun _ => true) pctdecode_view_rules ops k ->
  vrun (pctdecode_views text) (ops ++ [IncIt k]) = Fault dangling_view /\ vrun (pctdecode_views text) (ops ++ [ValueOf k]) = Fault dangling_view.
Proof. intros D A. destruct (proj2 (percent_all text shown D _ _ (or_introl (conj eq_refl eq_refl))) ops k A) as [X Y]. split; [exact (X eq_refl)|exact (Y eq_refl)]. Qed.
Print Assumptions C95_pctdecode_view_needed.
(* the iterators of a pctdecoder need it for nothing *)
Theorem C95_pctdecoder text shown ops x : (forall n, decodes (text n) (shown n)) ->
  spec_run shown (fun _ => true) pctdecoder_rules ops = Some x -> vrun (pctdecoders text) ops = Ok x.
Proof. intros D. exact (proj1 (percent_all text shown D _ _ (or_intror (conj eq_refl eq_refl))) ops x). Qed.
Print Assumptions C95_pctdecoder.
(* those of a transcode_view need it to move, not to be read from; well_formed () belongs to the view, and a copy takes over what it tells *)
Theorem C95_transcode_view T cap bound text shown fine ops x : view_of T cap bound -> (forall n, Forall (fun u => (u < bound)%N) (text n)) ->
  (forall n, transcode T (text n) = Ok (shown n, fine n)) ->
  spec_run shown fine transcode_view_rules ops = Some x -> vrun (transcode_views T cap text) ops = Ok x.
Proof. intros W F E. exact (proj1 (transcode_kinds T cap bound text shown fine W F E) ops x). Qed.
Print Assumptions C95_transcode_view.
Theorem C95_transcode_view_needed T cap bound text shown fine ops k : view_of T cap bound -> (forall n, Forall (fun u => (u < bound)%N) (text n)) ->
  (forall n, transcode T (text n) = Ok (shown n, fine n)) ->
  abandoned shown fine transcode_view_rules ops k -> vrun (transcode_views T cap text) (ops ++ [IncIt k]) = Fault dangling_view.
Proof. intros W F E. exact (proj2 (transcode_kinds T cap bound text shown fine W F E) ops k). Qed.
Print Assumptions C95_transcode_view_needed.
(* iterators of a view and of its copy never compare equal for transcode_view, and do at the same place for the others: a loop from one
   view's begin to its copy's end runs past the end *)
Theorem C95_copy_refuted :
  let u := fun _ : nat => [0x41]%N in let s := fun _ : nat => ss "A" in
  let there := [Make 0; CopyView 0; BeginOf 0; EndOf 1; IncIt 0; EqualIt 0 1] in
  vrun (transcode_views t32_32 max_output_32 u) there = Ok [Bool false]
  /\ vrun (transcode_views t32_32 max_output_32 u) (there ++ [ValueOf 0]) = Fault assert_failed
  /\ vrun (pctdecode_views s) there = Ok [Bool true] /\ vrun (pctdecoders s) there = Ok [Bool true].
Proof. cbv zeta. repeat (match goal with |- _ /\ _ => split end); vm_compute; reflexivity. Qed.
Print Assumptions C95_copy_refuted.

(* two texts; a view is copied, assigned to and destroyed while iterators are in use *)
Definition two_texts (n : nat) : str := match n with O => ss "%41b" | _ => ss "c%" end.
Definition two_shown (n : nat) : str := match n with O => ss "Ab" | _ => ss "c%" end.
Lemma two_decoded n : decodes (two_texts n) (two_shown n).
Proof. apply pctdecode_iff. destruct n; vm_compute; reflexivity. Qed.
Definition story : list vop :=
  [Make 0; Make 1; CopyView 0; BeginOf 0; BeginOf 2; ValueOf 0; IncIt 0; ValueOf 0; AssignView 1 2; DropView 0; ValueOf 1; EqualIt 0 1; IncIt 1; EqualIt 0 1; BeginOf 1; ValueOf 2].
Example C95_case1 : spec_run two_shown (fun _ => true) pctdecode_view_rules story
  = Some [Val "A"%char; Val "b"%char; Val "A"%char; Bool false; Bool true; Val "A"%char].
Proof. vm_compute. reflexivity. Qed.
Example C95_case2 : vrun (pctdecode_views two_texts) (story ++ [ValueOf 0]) = Fault dangling_view /\ exists x, vrun (pctdecoders two_texts) (story ++ [ValueOf 0]) = Ok x /\ last x (Bool true) = Val "b"%char.
Proof. split; [vm_compute; reflexivity|]. eexists. split; [vm_compute; reflexivity|]. reflexivity. Qed.
Example C95_case3 : abandoned two_shown (fun _ => true) pctdecode_view_rules story 0.
Proof. eexists. eexists. split; [vm_compute; reflexivity|]. split; vm_compute; reflexivity. Qed.
(* assigning another text to the view does the same *)
Example C95_case4 : abandoned two_shown (fun _ => true) pctdecode_view_rules [Make 0; Make 1; BeginOf 0; AssignView 0 1] 0
  /\ vrun (pctdecode_views two_texts) [Make 0; Make 1; BeginOf 0; AssignView 0 1; IncIt 0] = Fault dangling_view.
Proof. split; [|vm_compute; reflexivity]. eexists. eexists. split; [vm_compute; reflexivity|]. split; vm_compute; reflexivity. Qed.
(* a surrogate alone: the view it was found through knows, a copy made before does not, one made afterwards does; the iterator outlives the view *)
Definition bad_text (_ : nat) : list N := [0xD800]%N.
Example C95_case5 : transcode t32_8 [0xD800]%N = Ok ([0xEF; 0xBF; 0xBD]%N, false). Proof. vm_compute. reflexivity. Qed.
Example C95_case6 : spec_run (fun _ => [0xEF; 0xBF; 0xBD]%N) (fun _ => false) transcode_view_rules
    [Make 0; CopyView 0; BeginOf 0; IncIt 0; IncIt 0; CopyIt 0; IncIt 0; WellFormed 0; CopyView 0; WellFormed 2; DropView 0; ValueOf 1] = Some [Bool false; Bool false; Val 0xBD]%N
  /\ vrun (transcode_views t32_8 max_output_8 bad_text) [Make 0; CopyView 0; BeginOf 0; IncIt 0; IncIt 0; IncIt 0; WellFormed 1] = Ok [Bool true]
  /\ vrun (transcode_views t32_8 max_output_8 bad_text) [Make 0; BeginOf 0; DropView 0; IncIt 0] = Fault dangling_view.
Proof. repeat (match goal with |- _ /\ _ => split end); vm_compute; reflexivity. Qed.
