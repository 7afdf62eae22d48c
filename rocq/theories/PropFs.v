(* PROPERTY THEOREMS: path to string and to std::filesystem::path (C32).  Vocabulary: SpecFs.v; [labels] and
   [joined] from SpecStore.v. *)
From Verif Require Import Base ModelUri ModelFs SpecStore SpecFs FsProps.
Local Open Scope list_scope.

(* --- C32 ------------------------------------------------------------------------------------------------- *)
Theorem C32_string p : path_string p = (if absolute p then match segments p with [] => [] | _ => ["/"%char] end else []) ++ slashed (segments p).
Proof. exact (c32_string p). Qed.
Print Assumptions C32_string.
(* what is between the slashes of the string are the segments (after an empty one if absolute), and nothing else *)
Theorem C32_recovers p : segments p <> [] -> slash_free (segments p) ->
  forall l, labels slash (path_string p) l <-> l = if absolute p then [] :: segments p else segments p.
Proof. exact (c32_recovers p). Qed.
Print Assumptions C32_recovers.
(* the pathname: the non-empty segments, "/" in front iff absolute, "/" behind iff the last segment is empty
   (and there is something in front of it) *)
Theorem C32_filesystem p : slash_free (segments p) -> let names := filter nonempty (segments p) in
  exists tail, path_filesystem p = (if absolute p then ["/"%char] else []) ++ slashed names ++ tail
  /\ (tail = ["/"%char] /\ names <> [] /\ ends_empty (segments p) \/ tail = [] /\ (names = [] \/ ~ ends_empty (segments p))).
Proof. exact (c32_filesystem p). Qed.
Print Assumptions C32_filesystem.
Theorem C32_rooted p : slash_free (segments p) -> (fs_is_absolute (path_filesystem p) = true <-> absolute p = true).
Proof. exact (c32_rooted p). Qed.
Print Assumptions C32_rooted.
Example C32_ex : let p := mkpath true [ss "a"; []; ss "%2F"; []] in slash_free (segments p)
  /\ path_string p = ss "/a//%2F/" /\ path_filesystem p = ss "/a/%2F/" /\ path_filesystem (mkpath false [[]; ss "a"]) = ss "a".
Proof.
  cbv zeta. split; [|repeat split]. unfold slash_free; cbn. repeat (apply Forall_cons; [cbn; intros H; repeat (destruct H as [H|H]; [discriminate H|]); destruct H|]). apply Forall_nil.
Qed.
(* A segment that begins with "/", as uri::decode can produce, makes the conversion forget everything in
   front of it: neither "rooted iff absolute" nor "the same components" holds. *)
Theorem C32_slash_refuted :
  (forall abs a s b r, s = slash :: r -> path_filesystem (mkpath abs (a ++ s :: b)) = path_filesystem (mkpath false (s :: b)))
  /\ path_filesystem (mkpath false [ss "srv"; ss "www"; ss "/etc"; ss "passwd"]) = ss "/etc/passwd".
Proof. split; [exact c32_replaced|reflexivity]. Qed.
Print Assumptions C32_slash_refuted.
