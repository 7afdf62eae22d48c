(* PROPERTY THEOREMS: where a reference can lead: C63 the origin, C64 the directory.
   Vocabulary: SpecConfine.v (origin, local_reference, inside), SpecPath.v, Rfc3986.v; C64_pathname also SpecStore.v,
   SpecPct.v and SpecFs.v. *)
From Verif Require Import Base ModelUri ModelFs ModelParts Rfc3986 SpecHost SpecParts SpecUri SpecPct SpecStore SpecViews SpecFs SpecPath SpecConfine ConfineFacts ConfineFs.
Local Open Scope list_scope.

(* --- C63 ------------------------------------------------------------------------------------------------ *)
(* a reference that names neither a scheme nor an authority stays at the origin of the base *)
Theorem C63_local sg fuel base ref strict t o : fits fuel base -> fits fuel ref -> join sg fuel base ref strict = Ok (Some t) ->
  local_reference ref -> origin base o -> origin (compose t) o.
Proof. apply local_origin. Qed.
Print Assumptions C63_local.
(* one that names an authority leads to this authority and the scheme of the base *)
Theorem C63_authority sg fuel base ref strict t sch au au' rest : fits fuel base -> fits fuel ref -> join sg fuel base ref strict = Ok (Some t) ->
  origin base (origin_of sch au) -> Forall (fun c => c <> ":"%char /\ ~ ender c) sch ->
  ref = ss "//" ++ au' ++ rest -> Forall (fun c => ~ ender c) au' -> ends rest ->
  origin (compose t) (origin_of sch au').
Proof. apply named_authority. Qed.
Print Assumptions C63_authority.
(* one that names both leads there *)
Theorem C63_origin sg fuel base ref strict t o : fits fuel base -> fits fuel ref -> join sg fuel base ref strict = Ok (Some t) ->
  origin ref o -> origin (compose t) o.
Proof. apply named_origin. Qed.
Print Assumptions C63_origin.
(* a text has one origin at most *)
Theorem C63_one s o o' : origin s o -> origin s o' -> o = o'.
Proof. apply origin_unique. Qed.
Print Assumptions C63_one.
(* the same told by the components, also for a base without an authority *)
Theorem C63_parts sg fuel base ref strict t b : fits fuel base -> fits fuel ref -> join sg fuel base ref strict = Ok (Some t) ->
  split sg fuel base = Ok (Some b) -> local_reference ref -> p_scheme t = p_scheme b /\ p_authority t = p_authority b.
Proof. apply local_parts. Qed.
Print Assumptions C63_parts.
Example C63_ex : exists t, join true 100 (ss "http://u@h:80/a/b?c") (ss "../x:y//z?q:#f") true = Ok (Some t)
  /\ compose t = ss "http://u@h:80/x:y//z?q:#f" /\ local_reference (ss "../x:y//z?q:#f") /\ origin (ss "http://u@h:80/a/b?c") (ss "http://u@h:80").
Proof.
  eexists. split; [vm_compute; reflexivity|]. split; [vm_compute; reflexivity|]. split.
  - split; [|intros r E; discriminate E]. intros x r E. destruct x as [|a [|b [|c x]]]; try discriminate E. injection E as <- <- <- _.
    exists "/"%char. split; [right; right; left; reflexivity|left; reflexivity].
  - exists (ss "http"), (ss "u@h:80"), (ss "/a/b?c"). split; [reflexivity|]. split; [reflexivity|].
    assert (N : forall c, existsb (Ascii.eqb c) (ss "/?#") = false -> ~ ender c) by (intros c H K; apply ender_b in K; congruence).
    split; [repeat (apply Forall_cons; [split; [discriminate|apply N; reflexivity]|]); apply Forall_nil|].
    split; [repeat (apply Forall_cons; [apply N; reflexivity|]); apply Forall_nil|]. right. do 2 eexists. split; [reflexivity|left; reflexivity].
Qed.
(* A base without an authority: the components have none either (C63_parts), but the text written from them may. *)
Theorem C63_no_authority_refuted : exists t, join true 100 (ss "file:/srv/a") (ss "/.//evil/x") true = Ok (Some t)
  /\ p_authority t = None /\ compose t = ss "file://evil/x" /\ origin (compose t) (ss "file://evil") /\ ~ exists o, origin (ss "file:/srv/a") o.
Proof.
  eexists. split; [vm_compute; reflexivity|]. split; [reflexivity|]. split; [vm_compute; reflexivity|].
  assert (N : forall c, existsb (Ascii.eqb c) (ss "/?#") = false -> ~ ender c) by (intros c H K; apply ender_b in K; congruence).
  split.
  - exists (ss "file"), (ss "evil"), (ss "/x"). split; [reflexivity|]. split; [vm_compute; reflexivity|].
    split; [repeat (apply Forall_cons; [split; [discriminate|apply N; reflexivity]|]); apply Forall_nil|].
    split; [repeat (apply Forall_cons; [apply N; reflexivity|]); apply Forall_nil|]. right. do 2 eexists. split; [reflexivity|left; reflexivity].
  - intros (o & sch & au & rest & -> & E & S & _). unfold origin_of in E. rewrite <- !app_assoc in E.
    do 11 (destruct sch as [|c sch]; [discriminate E|injection E as <- E; try (inversion S as [|? ? [X _] S']; subst; first [elim X; reflexivity|clear S X; rename S' into S])]).
Qed.
Print Assumptions C63_no_authority_refuted.

(* --- C64 ------------------------------------------------------------------------------------------------ *)
(* d is the directory of the base: its segments without the last one, dots resolved.  A reference that begins with a
   path segment and never leads above where it starts (k is what is left of it) gives d followed by k; a final empty
   segment is added where the reference ends in "." or "..". *)
Theorem C64_directory sg fuel base ref strict t cb cr d k : fits fuel base -> fits fuel ref -> join sg fuel base ref strict = Ok (Some t) ->
  URI_decomp base cb -> reference_decomp ref cr -> local_reference ref -> starts_with_segment ref ->
  (forall x, c_segments cb <> [x]) -> resolves (removelast (c_segments cb)) d -> inside (c_segments cr) k ->
  rds_result (c_segments cr) (d ++ k) (segments (p_path t)).
Proof.
  intros Fb Fr E Db Dr Lr St N D I. destruct (ResolveFacts.join_inv _ _ _ _ _ _ _ _ Fb Fr E Db Dr) as (b & r & -> & -> & _ & _ & ->).
  exact (confined b r strict d k (starts_applies _ _ strict (comps b) Dr Lr St) N D I).
Qed.
Print Assumptions C64_directory.
(* ... in the text: behind the origin of the base come the segments of its directory; here the base may also have a
   single segment (which then stays, C13_one_segment_base) *)
Theorem C64_text sg fuel base ref strict t cb cr d k o : fits fuel base -> fits fuel ref -> join sg fuel base ref strict = Ok (Some t) ->
  URI_decomp base cb -> reference_decomp ref cr -> local_reference ref -> starts_with_segment ref ->
  resolves (removelast (c_segments cb)) d -> inside (c_segments cr) k -> origin base o ->
  exists rest, compose t = o ++ Rfc3986.slashed d ++ rest /\ ends rest.
Proof. intros Fb Fr E Db Dr Lr St. exact (confined_text sg fuel base ref strict t cb cr d k o Fb Fr E Db Dr (starts_applies _ _ strict cb Dr Lr St)). Qed.
Print Assumptions C64_text.
(* the condition is exact: a reference that does lead above its start leads out of some directory x/ *)
Theorem C64_exact (r : parts) : p_scheme r = None -> p_authority r = None -> absolute (p_path r) = false -> (forall k, ~ inside (segments (p_path r)) k) ->
  exists x, L segment x /\ x <> [] /\ ~ is_dots x /\ forall b strict, segments (p_path b) = [x; []] -> ~ In x (segments (p_path (join_parts b r strict))).
Proof. apply leads_out. Qed.
Print Assumptions C64_exact.
(* Decoded and made a file name: if no segment of the reference decodes to ".", ".." or something with "/" (and none of
   the directory to something with "/"), the file is below the directory. *)
Theorem C64_pathname sg fuel base ref strict t cb cr d td : fits fuel base -> fits fuel ref -> join sg fuel base ref strict = Ok (Some t) ->
  URI_decomp base cb -> reference_decomp ref cr -> local_reference ref -> starts_with_segment ref ->
  (forall x, c_segments cb <> [x]) -> resolves (removelast (c_segments cb)) d ->
  (forall s x, In s (c_segments cr) -> decodes s x -> ~ is_dots x /\ ~ In "/"%char x) ->
  (forall s x, In s d -> decodes s x -> ~ In "/"%char x) ->
  parts_rel decoded t td ->
  exists dd kk tail, Forall2 decodes d dd /\ Forall2 decodes (c_segments cr) kk /\ Forall (fun x => ~ is_dots x /\ ~ In "/"%char x) kk
    /\ path_filesystem (p_path td) = (if absolute (p_path td) then ss "/" else []) ++ SpecFs.slashed (filter nonempty dd ++ filter nonempty kk) ++ tail
    /\ (tail = [] \/ tail = ss "/").
Proof.
  intros Fb Fr E Db Dr Lr St N D Hr Hd R. destruct (ResolveFacts.join_inv _ _ _ _ _ _ _ _ Fb Fr E Db Dr) as (b & r & -> & -> & _ & _ & ->).
  apply (pathname b r strict d td (starts_applies _ _ strict (comps b) Dr Lr St) N D); [| |exact R].
  - apply Forall_forall. intros s I x Dx. exact (Hr s x I Dx).
  - apply Forall_forall. intros s I x Dx. exact (Hd s x I Dx).
Qed.
Print Assumptions C64_pathname.
Example C64_ex : exists t, join true 100 (ss "file:///srv/www/index") (ss "a/../b/./c.txt?x") true = Ok (Some t)
  /\ segments (p_path t) = [ss "srv"; ss "www"; ss "b"; ss "c.txt"] /\ path_filesystem (p_path t) = ss "/srv/www/b/c.txt"
  /\ inside [ss "a"; ss ".."; ss "b"; ss "."; ss "c.txt"] [ss "b"; ss "c.txt"] /\ (forall k, ~ inside [ss "a"; ss ".."; ss ".."; ss "b"] k).
Proof.
  eexists. split; [vm_compute; reflexivity|]. split; [reflexivity|]. split; [vm_compute; reflexivity|]. split.
  - change (inside (((([ss "a"] ++ [dotdot]) ++ [ss "b"]) ++ [dot]) ++ [ss "c.txt"]) (([] ++ [ss "b"]) ++ [ss "c.txt"])).
    apply in_seg; [discriminate|discriminate|]. apply in_dot. apply in_seg; [discriminate|discriminate|]. apply (in_dotdot _ [] (ss "a")).
    apply (in_seg [] [] (ss "a")); [discriminate|discriminate|constructor].
  - intros k H. pose proof (inside_stk _ _ H [ss "q"]) as E. discriminate E.
Qed.
(* "%2e%2e" is no dot segment, nor does "%2F" end a segment, until they are decoded *)
Definition file_views (segs : list str) : vparts :=
  mkvparts (Some (Caller (ss "file"))) (Some (mkvauth None (Caller []) None)) true (map Caller segs) None None.
Theorem C64_escape_refuted :
  (exists t st q td, join true 100 (ss "file:///srv/www/") (ss "%2e%2e/secret") true = Ok (Some t)
     /\ shows (Vec 0 0 []) (file_views [ss "srv"; ss "www"; ss "%2e%2e"; ss "secret"]) t
     /\ parts_decode (fun n => n) (Vec 0 0 []) (file_views [ss "srv"; ss "www"; ss "%2e%2e"; ss "secret"]) = Ok (st, inl q) /\ shows st q td
     /\ path_filesystem (p_path td) = ss "/srv/www/../secret")
  /\ (exists t st q td, join true 100 (ss "file:///srv/www/") (ss "%2Fetc/passwd") true = Ok (Some t)
     /\ shows (Vec 0 0 []) (file_views [ss "srv"; ss "www"; ss "%2Fetc"; ss "passwd"]) t
     /\ parts_decode (fun n => n) (Vec 0 0 []) (file_views [ss "srv"; ss "www"; ss "%2Fetc"; ss "passwd"]) = Ok (st, inl q) /\ shows st q td
     /\ path_filesystem (p_path td) = ss "/etc/passwd").
Proof.
  split.
  - do 2 eexists. eexists. exists (mkparts (Some (ss "file")) (Some (mkauth None [] None)) (mkpath true [ss "srv"; ss "www"; ss ".."; ss "secret"]) None None).
    split; [vm_compute; reflexivity|]. split; [repeat first [apply conj|reflexivity|constructor]|]. split; [vm_compute; reflexivity|].
    split; [repeat first [apply conj|reflexivity|constructor]|vm_compute; reflexivity].
  - do 2 eexists. eexists. exists (mkparts (Some (ss "file")) (Some (mkauth None [] None)) (mkpath true [ss "srv"; ss "www"; ss "/etc"; ss "passwd"]) None None).
    split; [vm_compute; reflexivity|]. split; [repeat first [apply conj|reflexivity|constructor]|]. split; [vm_compute; reflexivity|].
    split; [repeat first [apply conj|reflexivity|constructor]|vm_compute; reflexivity].
Qed.
Print Assumptions C64_escape_refuted.
