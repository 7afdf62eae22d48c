(* PROPERTY THEOREMS: the tool uri-split (C47).  uri_split sg fuel stdin args gives what is written to std::cout
   and whether the exit status is EXIT_SUCCESS; args are the contents of the files named, None for one that
   cannot be opened.  Vocabulary: SpecTool.v (lines, what is to be written about them), SpecUri.v. *)
From Verif Require Import Base ModelUri ModelTool PropSplitFacts ToolFacts.
From Coq Require Import Lia.
From Verif Require Import Rfc3986 SpecHost SpecUri SpecTool.
Local Open Scope list_scope.

Theorem C47_stdin sg fuel s ls : has_lines s ls -> Forall (fun l => fits fuel l /\ ctype_safe sg l) ls ->
  exists out ok, uri_split sg fuel s [] = Ok (out, ok) /\ written_about ls out ok /\ (ok = true <-> Forall (fun l => exists c, takes l c) ls).
Proof.
  intros H F. destruct (stream_run sg fuel (length s) s ls H (le_n _) F) as (out & ok & E & W). exists out, ok. cbn [uri_split]. rewrite E. split; [reflexivity|]. split; [exact W|]. eapply about_ok. exact W.
Qed.
Print Assumptions C47_stdin.
Theorem C47_files sg fuel stdin args : args <> [] ->
  Forall (fun f => match f with Some s => forall ls, has_lines s ls -> Forall (fun l => fits fuel l /\ ctype_safe sg l) ls | None => True end) args ->
  exists out ok, uri_split sg fuel stdin args = Ok (out, ok) /\ written_about_files args out ok /\
    (ok = true <-> Forall (fun f => exists s ls, f = Some s /\ has_lines s ls /\ Forall (fun l => exists c, takes l c) ls) args).
Proof.
  intros N F. destruct (files_run sg fuel args F) as (out & ok & E & K). exists out, ok. split; [|exact K]. destruct args; [contradiction|exact E].
Qed.
Print Assumptions C47_files.
(* every text has its lines, and only one way of having them *)
Theorem C47_lines s : exists ls, has_lines s ls /\ forall ls', has_lines s ls' -> ls' = ls.
Proof. destruct (lines_total s) as (ls & H). exists ls. split; [exact H|]. intros ls' H'. symmetry. eapply lines_fun; eassumption. Qed.
Print Assumptions C47_lines.
(* The seven lines about a URI tell what it was: absent and empty, and a path and its quotes, are not confused. *)
Theorem C47_description s s' c c' : URI_decomp s c -> URI_decomp s' c' -> description c = description c' -> s = s' /\ c = c'.
Proof. exact (description_inj s s' c c'). Qed.
Print Assumptions C47_description.
(* a blank line, or a line ended by CR LF, is not a URI: the tool stops there with a failure *)
Theorem C47_blank sg fuel s : (8 < fuel)%nat -> uri_split sg fuel ([newline] ++ s) [] = Ok (ss "URI: " ++ [newline], false)
  /\ uri_split sg fuel (ss "a:b" ++ chr 13 :: [newline] ++ s) [] = Ok (ss "URI: a:b" ++ [chr 13; newline], false).
Proof.
  intros Hf. assert (R : forall l, (N.of_nat (length l) < 2 ^ 32)%N -> (length l < fuel)%nat -> ctype_safe sg l -> (forall c, ~ takes l c) -> split sg fuel l = Ok None).
  { intros l A B C D. apply split_rejects; [split; assumption|exact C|]. intros c Dc U. exact (D c (conj Dc U)). }
  assert (Safe : forall l, Forall (fun c => (code c < 128)%N) l -> ctype_safe sg l) by (intros l H; right; eapply Forall_impl; [|exact H]; intros c X; left; exact X).
  split.
  - cbn [uri_split app length read_stream getline]. change (Ascii.eqb newline lf) with true. cbv iota zeta. rewrite R; [reflexivity|reflexivity|cbn; lia|apply Safe; constructor|].
    intros c [(sch & sh & st & _ & _ & E & _) _]. destruct sch; discriminate.
  - cbn [uri_split]. assert (G : getline (ss "a:b" ++ chr 13 :: [newline] ++ s) = (ss "a:b" ++ [chr 13], s)).
    { change (ss "a:b" ++ chr 13 :: [newline] ++ s) with ((ss "a:b" ++ [chr 13]) ++ newline :: s). apply getline_line. cbn. intros [E|[E|[E|[E|[]]]]]; discriminate. }
    change (length (ss "a:b" ++ chr 13 :: [newline] ++ s)) with (S (S (S (S (S (length s)))))). cbn [read_stream]. change (ss "a:b" ++ chr 13 :: [newline] ++ s) with ("a"%char :: (ss ":b" ++ chr 13 :: [newline] ++ s)) in *. rewrite G.
    rewrite R; [reflexivity|reflexivity|cbn; lia|apply Safe; repeat constructor|]. intros c [D _]. apply clean_line in D. destruct D as (_ & _ & _ & D). apply D. apply in_app_iff. right. left. reflexivity.
Qed.
Print Assumptions C47_blank.
Example C47_ex : has_lines (ss "http://u@h:/a?q#" ++ newline :: ss "urn:x") [ss "http://u@h:/a?q#"; ss "urn:x"]
  /\ uri_split true 100 (ss "http://u@h:/a?q#" ++ newline :: ss "urn:x") []
     = Ok (ss "URI: http://u@h:/a?q#" ++ newline :: ss " scheme: ""http""" ++ newline :: ss " userinfo: ""u""" ++ newline :: ss " host: ""h""" ++ newline :: ss " port: """""
           ++ newline :: ss " path: ""/a""" ++ newline :: ss " query: ""q""" ++ newline :: ss " fragment: """"" ++ newline ::
           ss "URI: urn:x" ++ newline :: ss " scheme: ""urn""" ++ newline :: ss " userinfo: None" ++ newline :: ss " host: None" ++ newline :: ss " port: None"
           ++ newline :: ss " path: ""x""" ++ newline :: ss " query: None" ++ newline :: ss " fragment: None" ++ [newline], true)
  /\ Forall (fun l => fits 100 l /\ ctype_safe true l) [ss "http://u@h:/a?q#"; ss "urn:x"]
  /\ uri_split true 100 [] [Some (ss "urn:x"); None; Some (ss "urn:y")] = uri_split true 100 (ss "urn:x") [] >>= (fun r => Ok (fst r, false)).
Proof.
  split; [constructor; [cbn; intuition discriminate|apply last_line; [discriminate|cbn; intuition discriminate]]|]. split; [vm_compute; reflexivity|]. split; [|vm_compute; reflexivity].
  repeat constructor; try (cbn; lia); right; repeat (constructor; [left; reflexivity|]); constructor.
Qed.
