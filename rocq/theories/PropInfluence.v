(* PROPERTY THEOREMS: C83 what of the base shows in the result of join.  join(b, r) on parts is join_parts, on texts join. *)
From Verif Require Import Base ModelUri Peg UriHost SpecRegex SpecUri InfluenceFacts.
Local Open Scope list_scope.

(* --- parts: two bases that agree on what the reference leaves open give the same result ---------------------- *)
(* a reference with a scheme: nothing of the base *)
Theorem C83_nothing b b' r : p_scheme r <> None -> join_parts b r true = join_parts b' r true.
Proof. exact (join_nothing b b' r). Qed.
Print Assumptions C83_nothing.
(* with an authority: only the scheme *)
Theorem C83_scheme b b' r strict : p_scheme b = p_scheme b' -> p_authority r <> None -> join_parts b r strict = join_parts b' r strict.
Proof. exact (join_scheme_only b b' r strict). Qed.
Print Assumptions C83_scheme.
(* with a path from the root: scheme and authority *)
Theorem C83_origin b b' r strict : p_scheme b = p_scheme b' -> p_authority b = p_authority b' ->
  segments (p_path r) <> [] -> absolute (p_path r) = true -> join_parts b r strict = join_parts b' r strict.
Proof. exact (join_origin_only b b' r strict). Qed.
Print Assumptions C83_origin.
(* with a path: of the path of the base, its directories d; not the document x, nor the query *)
Theorem C83_directory b b' r strict d x x' : p_scheme b = p_scheme b' -> p_authority b = p_authority b' ->
  absolute (p_path b) = absolute (p_path b') -> segments (p_path b) = d ++ [x] -> segments (p_path b') = d ++ [x'] -> d <> [] ->
  segments (p_path r) <> [] -> join_parts b r strict = join_parts b' r strict.
Proof. exact (join_directory_only b b' r strict d x x'). Qed.
Print Assumptions C83_directory.
(* the query only if the reference has no path and no query *)
Theorem C83_query b b' r strict : p_scheme b = p_scheme b' -> p_authority b = p_authority b' -> p_path b = p_path b' ->
  p_scheme r <> None /\ strict = true \/ p_authority r <> None \/ segments (p_path r) <> [] \/ p_query r <> None ->
  join_parts b r strict = join_parts b' r strict.
Proof. exact (join_no_query b b' r strict). Qed.
Print Assumptions C83_query.
(* the fragment never *)
Theorem C83_fragment b b' r strict : p_scheme b = p_scheme b' -> p_authority b = p_authority b' -> p_path b = p_path b' -> p_query b = p_query b' ->
  join_parts b r strict = join_parts b' r strict /\ p_fragment (join_parts b r strict) = p_fragment r.
Proof. intros E1 E2 E3 E4. split; [exact (join_no_fragment b b' r strict E1 E2 E3 E4)|exact (join_fragment b r strict)]. Qed.
Print Assumptions C83_fragment.
(* user, host and port come from one of the two, never mixed; those of the base only if the reference names neither scheme nor
   authority (or, not strictly, the same scheme) *)
Theorem C83_credentials b r strict :
  (p_authority (join_parts b r strict) = p_authority r /\ (p_authority r <> None \/ p_scheme r <> None))
  \/ (p_authority (join_parts b r strict) = p_authority b /\ p_authority r = None
      /\ (p_scheme r = None \/ (strict = false /\ p_scheme r = p_scheme b))).
Proof. exact (join_whole_authority b r strict). Qed.
Print Assumptions C83_credentials.

(* --- texts --------------------------------------------------------------------------------------------------- *)
Definition from (cs : string) (x : str) : Prop := x = [] \/ exists c y, x = c :: y /\ In c (ss cs).
Lemma none_all cs u : (forall c, In c u -> ~ In c (ss cs)) -> all (none_of cs) u.
Proof.
  intros H. apply Forall_forall. intros c I. unfold none_of. destruct (existsb (Ascii.eqb c) (ss cs)) eqn:E; [|reflexivity]. exfalso.
  apply existsb_exists in E as (d & J & K). apply Ascii.eqb_eq in K as ->. now apply (H d I).
Qed.
Lemma from_nohd cs x : from cs x -> PegLang.nohd (none_of cs) x.
Proof.
  intros [->|(c & y & -> & I)]; [exact Logic.I|]. unfold PegLang.nohd, none_of. apply negb_false_iff. apply existsb_exists. exists c. split; [exact I|apply Ascii.eqb_refl].
Qed.
(* whatever comes after the first # of the base makes no difference *)
Theorem C83_fragment_text sg fuel u x x' ref strict t t' : fits fuel (u ++ x) -> fits fuel (u ++ x') ->
  (forall c, In c u -> ~ In c (ss "#")) -> from "#" x -> from "#" x' ->
  join sg fuel (u ++ x) ref strict = Ok (Some t) -> join sg fuel (u ++ x') ref strict = Ok (Some t') -> t = t'.
Proof. intros F F' A X X'. apply text_fragment; auto using none_all, from_nohd. Qed.
Print Assumptions C83_fragment_text.
(* whatever comes after the first ? or # makes no difference, unless the reference is empty or only a fragment *)
Theorem C83_query_text sg fuel u x x' ref strict t t' : fits fuel (u ++ x) -> fits fuel (u ++ x') -> fits fuel ref ->
  (forall c, In c u -> ~ In c (ss "?#")) -> from "?#" x -> from "?#" x' -> ref <> [] -> hd_error ref <> Some "#"%char ->
  strict = true \/ (forall r, split_reference sg fuel ref = Ok (Some r) -> p_scheme r = None) ->
  join sg fuel (u ++ x) ref strict = Ok (Some t) -> join sg fuel (u ++ x') ref strict = Ok (Some t') -> t = t'.
Proof. intros F F' FR A X X'. apply text_query; auto using none_all, from_nohd. Qed.
Print Assumptions C83_query_text.
Example C83_ex : (* two pages with different session keys *)
  exists t, join true 200 (ss "http://u:p@h/a/b?key=1#k") (ss "../c#f") true = Ok (Some t)
  /\ join true 200 (ss "http://u:p@h/a/b?key=2") (ss "../c#f") true = Ok (Some t) /\ compose t = ss "http://u:p@h/c#f".
Proof. eexists. split; [vm_compute; reflexivity|]. split; vm_compute; reflexivity. Qed.
Example C83_ex_text : fits 200 (ss "http://u:p@h/a/b" ++ ss "?key=1#k") /\ (forall c, In c (ss "http://u:p@h/a/b") -> ~ In c (ss "?#"))
  /\ from "?#" (ss "?key=1#k") /\ from "#" (ss "#k") /\ from "#" [].
Proof.
  split; [vm_compute; repeat constructor|]. split; [cbn; intuition (subst; discriminate)|]. split; [right; eexists _, _; split; [reflexivity|now left]|].
  split; [right; eexists _, _; split; [reflexivity|now left]|now left].
Qed.

(* --- what is left does show ------------------------------------------------------------------------------------- *)
(* an empty reference, and one that is only a fragment, takes the query along; the only segment of a path is taken for a
   directory (F5): it shows although the RFC drops it; not strictly, "http:" takes the query along *)
Theorem C83_refuted :
  let to b r strict := match join true 200 b r strict with Ok (Some t) => Some (compose t) | _ => None end in
  to (ss "http://h/a/b?key=1#k") (ss "#f") true = Some (ss "http://h/a/b?key=1#f")
  /\ to (ss "http://h/secret") (ss "x") true = Some (ss "http://h/secret/x")
  /\ to (ss "http://h/a/b?key=1") (ss "http:") false = Some (ss "http://h/a/b?key=1").
Proof. vm_compute. repeat split. Qed.
Print Assumptions C83_refuted.
