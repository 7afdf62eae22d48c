(* PROPERTY THEOREMS: a path as a std::filesystem::path on Windows (C77; on POSIX: C32).
   Vocabulary: SpecWin.v, SpecFs.v (nonempty, ends_empty). *)
From Verif Require Import Base ModelUri ModelWin SpecStore SpecFs SpecWin FsProps WinFacts WinUri SpecUri Rfc3986.
Local Open Scope list_scope.

(* the segments of a URI have no separators in them *)
Theorem C77_split sg fuel s p : fits fuel s -> split sg fuel s = Ok (Some p) -> no_separators (segments (p_path p)).
Proof. exact (split_no_separators sg fuel s p). Qed.
Print Assumptions C77_split.
Theorem C77_split_reference sg fuel s p : fits fuel s -> split_reference sg fuel s = Ok (Some p) -> no_separators (segments (p_path p)).
Proof. exact (reference_no_separators sg fuel s p). Qed.
Print Assumptions C77_split_reference.
(* and of what is resolved *)
Theorem C77_join b r strict : no_separators (segments (p_path b)) -> no_separators (segments (p_path r)) ->
  no_separators (segments (p_path (join_parts b r strict))).
Proof. exact (join_no_separators b r strict). Qed.
Print Assumptions C77_join.
Theorem C77_valid sg fuel p : Forall (fits fuel) (segments p) -> path_valid sg fuel p = Ok true -> no_separators (segments p).
Proof. exact (valid_no_separators sg fuel p). Qed.
Print Assumptions C77_valid.
(* where no segment begins with a drive: as on POSIX, with "\" between the names *)
Theorem C77_plain p : no_separators (segments p) -> Forall (fun s => ~ begins_with_drive s) (segments p) ->
  let names := filter nonempty (segments p) in
  exists tail, path_windows p = (if absolute p then ["/"%char] else []) ++ backslashed names ++ tail
  /\ (tail = [backslash] /\ names <> [] /\ ends_empty (segments p) \/ tail = [] /\ (names = [] \/ ~ ends_empty (segments p))).
Proof. intros F N. cbv zeta. rewrite (windows_plain p F N). apply body_form. Qed.
Print Assumptions C77_plain.
(* where one does: what is before the last change of drive is dropped, and so is the root; the names follow the drive
   without a separator, so the file is looked for in the current directory of that drive *)
Theorem C77_drive abs (a : list str) (d r : str) (b rs : list str) : no_separators (a ++ (d ++ r) :: b) -> drive d -> not_on a d -> Forall2 (on_drive d) b rs ->
  let names := filter nonempty (r :: rs) in
  exists tail, path_windows (mkpath abs (a ++ (d ++ r) :: b)) = d ++ backslashed names ++ tail
  /\ (tail = [backslash] /\ names <> [] /\ ends_empty (r :: rs) \/ tail = [] /\ (names = [] \/ ~ ends_empty (r :: rs))).
Proof.
  intros F D N O. cbv zeta. rewrite (windows_drive abs a d r b rs F D N O). destruct (body_form false (r :: rs)) as (tail & E & H). exists tail. split; [now rewrite E|exact H].
Qed.
Print Assumptions C77_drive.
(* that is every case *)
Theorem C77_cases (segs : list str) : Forall (fun s => ~ begins_with_drive s) segs
  \/ exists (a : list str) (d r : str) (b rs : list str), segs = a ++ (d ++ r) :: b /\ drive d /\ not_on a d /\ Forall2 (on_drive d) b rs.
Proof. exact (cases segs). Qed.
Print Assumptions C77_cases.
(* so the result is never an absolute path of Windows, whatever the URI *)
Theorem C77_never_absolute p : no_separators (segments p) -> win_is_absolute (path_windows p) = false
  /\ (win_has_root_directory (path_windows p) = true -> absolute p = true)
  /\ (absolute p = true -> Forall (fun s => ~ begins_with_drive s) (segments p) -> win_has_root_directory (path_windows p) = true).
Proof.
  intros F. destruct (path_any p F) as (d & root & names & E & G). split; [rewrite E; now apply abs_body|]. split.
  - intros H. destruct (absolute p) eqn:A; [reflexivity|]. exfalso. destruct p as [ab segs]. cbn in A, F. subst ab. destruct (cases segs) as [N|(a & e & r & b & rs & -> & D & NO & O)].
    + rewrite (windows_plain (mkpath false segs) F N) in H. cbn [absolute segments] in H. rewrite <- (app_nil_l (body false segs)), dir_body in H; [discriminate|]. split; [exact F|left; auto].
    + rewrite (windows_drive _ _ _ _ _ _ F D NO O) in H. rewrite dir_body in H; [discriminate|]. apply no_sep_app in F. destruct F as [_ F]. split; [|right; auto].
      constructor; [apply (sep_free_tail e), (Forall_inv F)|]. pose proof (Forall_inv_tail F) as F2. clear -F2 O. induction O as [|s r l l' H _ IH]; [constructor|].
      constructor; [|apply IH; exact (Forall_inv_tail F2)]. pose proof (Forall_inv F2) as Fs. destruct H as [->|[<- _]]; [exact (sep_free_tail _ _ Fs)|exact Fs].
  - intros A N. rewrite (windows_plain _ F N), <- (app_nil_l (body _ _)), dir_body; [exact A|]. split; [exact F|left; auto].
Qed.
Print Assumptions C77_never_absolute.
(* confinement: names without drives stay below the directory they are appended to *)
Theorem C77_confined abs (dir : list str) (n : str) (k : list str) : n <> [] -> no_separators ((dir ++ [n]) ++ k) -> Forall (fun s => ~ begins_with_drive s) ((dir ++ [n]) ++ k) ->
  exists rest, path_windows (mkpath abs ((dir ++ [n]) ++ k)) = path_windows (mkpath abs (dir ++ [n])) ++ rest /\ (rest = [] \/ exists rest', rest = backslash :: rest').
Proof.
  intros NE F N. rewrite (windows_plain (mkpath abs ((dir ++ [n]) ++ k)) F N). apply no_sep_app in F. destruct F as [F1 F2]. apply Forall_app in N. destruct N as [N1 N2].
  rewrite (windows_plain (mkpath abs (dir ++ [n])) F1 N1). exact (body_grows abs dir n k NE F1 F2).
Qed.
Print Assumptions C77_confined.
Example C77_ex : path_windows (mkpath true [ss "srv"; []; ss "www"; []]) = ss "/srv\www\" /\ path_windows (mkpath false [ss "C:a"; ss "C:b"; ss "c"]) = ss "C:a\b\c"
  /\ drive (ss "C:") /\ not_on [ss "C:x"; ss "D:"] (ss "C:").
Proof.
  split; [vm_compute; reflexivity|]. split; [vm_compute; reflexivity|]. assert (D : forall c, win_letter c = true -> drive [c; ":"%char]) by (intros c H; exists c; split; [reflexivity|now apply letter_spec]).
  split; [apply D; reflexivity|]. intros [|? [|? [|? ?]]] r y E; cbn in E; try discriminate; injection E as _ <-. exists (ss "D:"), (ss "D:"). split; [apply D; reflexivity|]. split; [discriminate|]. split; [left; reflexivity|]. exists []. reflexivity.
Qed.
(* a decoded segment with separators in it.  One that begins with a server replaces everything before it; one that begins
   with a separator replaces everything but the drive or the server *)
Theorem C77_server abs (a : list str) (u r : str) : server u -> separated r -> path_windows (mkpath abs (a ++ [u ++ r])) = u ++ r.
Proof. intros S R. rewrite path_windows_snoc. now apply server_append. Qed.
Print Assumptions C77_server.
Theorem C77_from_root abs (a : list str) (s : str) : from_root s ->
  (no_separators a -> Forall (fun s => ~ begins_with_drive s) a -> path_windows (mkpath abs (a ++ [s])) = s)
  /\ (forall d (b rs : list str) r x, a = b ++ (d ++ r) :: x -> no_separators a -> drive d -> not_on b d -> Forall2 (on_drive d) x rs -> path_windows (mkpath abs (a ++ [s])) = d ++ s)
  /\ (forall b u r, a = b ++ [u ++ r] -> server u -> separated r -> path_windows (mkpath abs (a ++ [s])) = u ++ s).
Proof.
  intros S. rewrite path_windows_snoc, (from_root_append _ s S). split; [|split].
  - intros F N. rewrite (windows_plain (mkpath abs a) F N). rewrite <- (app_nil_l (body _ _)), root_body; [reflexivity|]. split; [exact F|]. left. auto.
  - intros d b rs r x -> F D NO O. rewrite (windows_drive abs b d r x rs F D NO O). rewrite root_drive by exact D. reflexivity.
  - intros b u r -> U R. rewrite C77_server by assumption. rewrite root_server by assumption. reflexivity.
Qed.
Print Assumptions C77_from_root.
Example C77_ex_root : path_windows (mkpath true [ss "srv"; ss "D:x"; ss "\etc"]) = ss "D:\etc" /\ path_windows (mkpath true [ss "srv"; ss "\\h\s"; ss "/y"]) = ss "\\h/y"
  /\ from_root (ss "\etc") /\ server (ss "\\h") /\ separated (ss "\s").
Proof.
  split; [vm_compute; reflexivity|]. split; [vm_compute; reflexivity|]. split; [|split].
  - do 2 eexists. split; [reflexivity|]. split; [right; reflexivity|]. right. do 2 eexists. split; [reflexivity|]. intros [H|H]; discriminate.
  - do 3 eexists. split; [reflexivity|]. split; [right; reflexivity|]. split; [right; reflexivity|]. split; [discriminate|]. constructor; [|constructor]. split; intros [H|[]]; discriminate.
  - right. do 2 eexists. split; [reflexivity|]. right. reflexivity.
Qed.
(* the file URI of C:\Windows\x leads to Windows\x in the current directory of C:; a reference that stays inside the
   directory of its base (C64) leads to another drive; and a decoded segment can name a server *)
Theorem C77_drive_refuted :
  (exists p, split true 100 (ss "file:///C:/Windows/x") = Ok (Some p) /\ path_windows (p_path p) = ss "C:Windows\x")
  /\ (exists t, join true 100 (ss "http://h/srv/www/") (ss "./d:secret") true = Ok (Some t) /\ segments (p_path t) = [ss "srv"; ss "www"; ss "d:secret"]
        /\ path_windows (p_path t) = ss "d:secret")
  /\ path_windows (mkpath true [ss "srv"; ss "\\evil"; ss "x"]) = ss "\\evil\x" /\ ~ no_separators [ss "\\evil"].
Proof.
  split; [eexists; split; vm_compute; reflexivity|]. split; [eexists; split; [vm_compute; reflexivity|split; vm_compute; reflexivity]|]. split; [vm_compute; reflexivity|].
  intros H. apply Forall_inv in H. destruct H as [_ H]. apply H. left. reflexivity.
Qed.
Print Assumptions C77_drive_refuted.
