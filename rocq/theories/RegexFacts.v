(* Matching with Appendix B's regular expression *)
From Verif Require Import Base Peg PegLang UriHost Rfc3986 SpecRegex.
Local Open Scope nat_scope.

Lemma hd_flat_map {X Y} (f : X -> list Y) l x y : hd_error l = Some x -> hd_error (f x) = Some y -> hd_error (flat_map f l) = Some y.
Proof. destruct l as [|z l]; [discriminate|]. cbn. intros [= ->] H. destruct (f x); [discriminate|exact H]. Qed.
Lemma hd_map {X Y} (f : X -> Y) l x : hd_error l = Some x -> hd_error (map f l) = Some (f x).
Proof. destruct l; [discriminate|]. cbn. now intros [= ->]. Qed.
Lemma found_seq a b s r1 g1 r2 g2 : found a s = Some (r1, g1) -> found b r1 = Some (r2, g2) -> found (Seq a b) s = Some (r2, g1 ++ g2).
Proof. intros H K. unfold found. cbn [run]. eapply hd_flat_map; [exact H|]. cbn [fst snd]. exact (hd_map (fun y => (fst y, g1 ++ snd y)) _ _ K). Qed.
Lemma found_ch c t : found (Ch c) (c :: t) = Some (t, []).
Proof. unfold found. cbn [run]. now rewrite Ascii.eqb_refl. Qed.
Lemma hd_many f m r : all f m -> nohd f r -> hd_error (many f (m ++ r)) = Some r.
Proof.
  intros A N. induction m as [|c m IH]; cbn [app many].
  - destruct r as [|d r]; [reflexivity|]. cbn in N. cbn [many]. rewrite N. reflexivity.
  - rewrite (Forall_inv A). specialize (IH (Forall_inv_tail A)). destruct (many f (m ++ r)); [discriminate|exact IH].
Qed.
Lemma found_many f m r : all f m -> nohd f r -> found (Many f) (m ++ r) = Some (r, []).
Proof. intros A N. unfold found. cbn [run]. exact (hd_map (fun t => (t, [])) _ _ (hd_many f m r A N)). Qed.
Lemma found_many1 f m r : m <> [] -> all f m -> nohd f r -> found (Many1 f) (m ++ r) = Some (r, []).
Proof.
  intros H A N. destruct m as [|c m]; [congruence|]. unfold found. cbn [run app]. rewrite (Forall_inv A).
  exact (hd_map (fun t => (t, [])) _ _ (hd_many f m r (Forall_inv_tail A) N)).
Qed.
Lemma found_grp n a m r g : found a (m ++ r) = Some (r, g) -> found (Grp n a) (m ++ r) = Some (r, (n, m) :: g).
Proof.
  intros H. unfold found. cbn [run]. erewrite hd_map by exact H. cbn [fst snd]. rewrite app_length.
  replace (length m + length r - length r) with (length m) by lia. now rewrite firstn_app, Nat.sub_diag, firstn_all, firstn_O, app_nil_r.
Qed.
Lemma found_opt a s x : found a s = Some x -> found (Opt a) s = Some x.
Proof. unfold found. cbn [run]. destruct (run a s); [discriminate|]. now intros. Qed.
Lemma found_skip a s : run a s = [] -> found (Opt a) s = Some (s, []).
Proof. intros H. unfold found. cbn [run]. now rewrite H. Qed.

Lemma flat_map_nil {X Y} (f : X -> list Y) l : (forall x, In x l -> f x = []) -> flat_map f l = [].
Proof. induction l as [|x l IH]; intros H; cbn; [reflexivity|]. rewrite (H x (or_introl eq_refl)). apply IH. intros y I. apply H. now right. Qed.
Lemma many_in f s t : In t (many f s) -> exists m, s = m ++ t /\ all f m.
Proof.
  revert t. induction s as [|c s IH]; intros t; cbn [many].
  - intros [<-|[]]. exists []. split; [reflexivity|constructor].
  - rewrite in_app_iff. intros [H|[<-|[]]]; [|exists []; split; [reflexivity|constructor]].
    destruct (f c) eqn:E; [|destruct H]. destruct (IH t H) as (m & -> & A). exists (c :: m). split; [reflexivity|]. now constructor.
Qed.
(* no scheme to be seen *)
Definition scheme_free (t : str) : Prop := forall x y, t = x ++ ":"%char :: y -> x <> [] -> all (none_of ":/?#") x -> False.
Lemma run_scheme_free t : scheme_free t -> run (Grp 1 (Seq (Grp 2 (Many1 (none_of ":/?#"))) (Ch ":"))) t = [].
Proof.
  intros H. cbn [run]. rewrite flat_map_nil; [reflexivity|]. intros x I. apply in_map_iff in I as (y & <- & I). cbn [fst].
  destruct t as [|c t]; [destruct I|]. destruct (none_of ":/?#" c) eqn:E; [|destruct I]. apply in_map_iff in I as (r & <- & I). cbn [fst].
  apply many_in in I as (m & -> & A). destruct r as [|d r]; [reflexivity|]. destruct (Ascii.eqb_spec ":" d) as [<-|]; [|reflexivity].
  exfalso. apply (H (c :: m) r); [reflexivity|discriminate|]. now constructor.
Qed.

Lemma nohd_app f a b : nohd f a -> (a = [] -> nohd f b) -> nohd f (a ++ b).
Proof. destruct a; cbn; auto. Qed.
Definition starts_slash2 (s : str) : Prop := exists t, s = "/"%char :: "/"%char :: t.
(* the regular expression on a text in pieces *)
Lemma by_regex_pieces (sch au : option str) (path : str) (q f : option str) rest : let t := opt_pre (ss "//") au ++ path ++ opt_pre (ss "?") q ++ opt_pre (ss "#") f in
  match sch with Some x => x <> [] /\ all (none_of ":/?#") x | None => scheme_free t end ->
  match au with Some a => all (none_of "/?#") a /\ (path = [] \/ exists x, path = "/"%char :: x) | None => ~ starts_slash2 path end ->
  all (none_of "?#") path -> match q with Some x => all (none_of "#") x | None => True end ->
  match f with Some x => all (fun c => negb (Ascii.eqb c newline)) x | None => True end ->
  rest = opt_post sch (ss ":") ++ t ->
  found appendix_B rest = Some ([], (match sch with Some x => [(1, x ++ ss ":"); (2, x)] | None => [] end)
     ++ (match au with Some x => [(3, ss "//" ++ x); (4, x)] | None => [] end) ++ [(5, path)]
     ++ (match q with Some x => [(6, ss "?" ++ x); (7, x)] | None => [] end) ++ match f with Some x => [(8, ss "#" ++ x); (9, x)] | None => [] end).
Proof.
  cbv zeta. set (T2 := opt_pre (ss "#") f). set (T1 := opt_pre (ss "?") q ++ T2). set (T0 := path ++ T1). intros Hs Ha Hp Hq Hf ->.
  unfold appendix_B. apply found_seq with (opt_pre (ss "//") au ++ T0).
  { destruct sch as [x|]; cbn [opt_post].
    - destruct Hs as [Hn Hs]. rewrite <- app_assoc. apply found_opt. rewrite app_assoc. apply found_grp. rewrite <- app_assoc.
      change [(2, x)] with ([(2, x)] ++ []). eapply found_seq; [|apply found_ch]. apply found_grp. apply found_many1; [exact Hn|exact Hs|reflexivity].
    - cbn [app]. apply found_skip, run_scheme_free, Hs. }
  apply found_seq with T0.
  { destruct au as [a|]; cbn [opt_pre].
    - destruct Ha as [Ha Hr]. apply found_opt. apply (found_grp 3 _ (ss "//" ++ a)). rewrite <- app_assoc.
      change [(4, a)] with (@nil (nat * str) ++ ([] ++ [(4, a)])). eapply found_seq; [apply found_ch|]. eapply found_seq; [apply found_ch|].
      apply found_grp, found_many; [exact Ha|]. unfold T0. destruct Hr as [->|[y ->]]; [|reflexivity]. cbn [app]. unfold T1, T2.
      destruct q as [q'|]; [reflexivity|]. destruct f as [f'|]; [reflexivity|exact I].
    - cbn [app]. apply found_skip. cbn [run]. unfold T0. destruct path as [|c path].
      + cbn [app]. unfold T1, T2. destruct q as [q'|]; [reflexivity|]. destruct f as [f'|]; reflexivity.
      + cbn [app]. destruct (Ascii.eqb_spec "/" c) as [<-|]; [|reflexivity]. cbn [flat_map map fst snd app run]. destruct path as [|d path].
        * cbn [app]. unfold T1, T2. destruct q as [q'|]; [reflexivity|]. destruct f as [f'|]; reflexivity.
        * cbn [app]. destruct (Ascii.eqb_spec "/" d) as [<-|]; [|reflexivity]. destruct Ha. now exists path. }
  apply found_seq with T1.
  { apply found_grp, found_many; [exact Hp|]. unfold T1, T2. destruct q as [q'|]; [reflexivity|]. destruct f as [f'|]; [reflexivity|exact I]. }
  apply found_seq with T2.
  { unfold T1. destruct q as [q'|]; cbn [opt_pre].
    - apply found_opt. apply (found_grp 6 _ (ss "?" ++ q')). rewrite <- app_assoc. change [(7, q')] with (@nil (nat * str) ++ [(7, q')]).
      eapply found_seq; [apply found_ch|]. apply found_grp, found_many; [exact Hq|]. unfold T2. destruct f as [f'|]; [reflexivity|exact I].
    - cbn [app]. apply found_skip. unfold T2. destruct f as [f'|]; reflexivity. }
  unfold T2. destruct f as [f'|]; cbn [opt_pre]; [|reflexivity].
  apply found_opt. rewrite <- (app_nil_r (ss "#" ++ f')) at 1. apply (found_grp 8 _ (ss "#" ++ f')). rewrite <- app_assoc. change [(9, f')] with (@nil (nat * str) ++ [(9, f')]).
  eapply found_seq; [apply found_ch|]. apply found_grp, found_many; [exact Hf|exact I].
Qed.
