(* Prefixes of URIs: proofs for C86. *)
From Verif Require Import Base ModelUri Rfc3986 PegUri SpecHost SpecPct SpecStore SpecUri SpecCut Peg PegLang UriLang UriHost UriSplit.
From Coq Require Import Lia.
Local Open Scope list_scope.

Lemma app_cases {A} (a b u v : list A) : a ++ b = u ++ v -> (exists z, a = u ++ z /\ v = z ++ b) \/ (exists z, u = a ++ z /\ b = z ++ v).
Proof.
  revert u. induction a as [|x a IH]; intros u H; [right; exists u; auto|]. destruct u as [|y u]; [left; exists (x :: a); auto|].
  cbn in H. injection H as -> H. destruct (IH u H) as [(z & -> & ->)|(z & -> & ->)]; [left|right]; exists z; auto.
Qed.
Lemma cut_app w u : cut_escape u -> cut_escape (w ++ u).
Proof. intros (x & [->|(a & ->)]); exists (w ++ x); [left|right; exists a]; now rewrite <- app_assoc. Qed.

(* --- words of characters and escapes --- *)
Lemma word_prefix g f : (forall m, L g m <-> elemL f m) -> forall l u v, Forall (L g) l -> List.concat l = u ++ v -> ~ cut_escape u ->
  exists l', u = List.concat l' /\ Forall (L g) l' /\ (u <> [] -> l' <> []).
Proof.
  intros G. induction l as [|m l IH]; intros u v F E N.
  - cbn in E. destruct u; [|discriminate E]. exists []. repeat split; auto.
  - destruct u as [|c u]; [exists []; repeat split; auto|]. cbn [List.concat] in E. pose proof (Forall_inv F) as M. pose proof M as M0. apply G in M. apply Forall_inv_tail in F.
    assert (K : forall u', c :: u = m ++ u' -> exists l', c :: u = List.concat l' /\ Forall (L g) l' /\ (c :: u <> [] -> l' <> [])).
    { intros u' K. rewrite K, <- app_assoc in E. apply app_inv_head in E. destruct (IH u' v F E) as (l' & -> & F' & _).
      - intros C. apply N. rewrite K. now apply cut_app.
      - exists (m :: l'). split; [exact K|]. split; [now constructor|discriminate]. }
    destruct M as [(d & -> & _)|(h1 & h2 & -> & _)].
    + cbn in E. injection E as -> E. now apply (K u).
    + cbn in E. injection E as <- E. destruct u as [|a u]; [elim N; exists []; now left|]. cbn in E. injection E as <- E.
      destruct u as [|b u]; [elim N; exists []; right; now exists h1|]. cbn in E. injection E as <- E. now apply (K u).
Qed.
Lemma many_prefix g f u v : (forall m, L g m <-> elemL f m) -> L (Rep 0 None g) (u ++ v) -> ~ cut_escape u -> L (Rep 0 None g) u.
Proof.
  intros G (l & E & F & _ & _) N. destruct (word_prefix g f G l u v F (eq_sym E) N) as (l' & -> & F' & _). exists l'. repeat split; auto. lia.
Qed.
Lemma many1_prefix g f u v : (forall m, L g m <-> elemL f m) -> L (Rep 1 None g) (u ++ v) -> ~ cut_escape u -> u <> [] -> L (Rep 1 None g) u.
Proof.
  intros G (l & E & F & _ & _) N Z. destruct (word_prefix g f G l u v F (eq_sym E) N) as (l' & -> & F' & Y). specialize (Y Z). exists l'. repeat split; auto. destruct l'; [now elim Y|cbn; lia].
Qed.
(* every percent sign has two characters after it *)
Definition whole (s : str) : Prop := forall w x, s = w ++ percent :: x -> 2 <= length x.
Lemma whole_app a b : whole a -> whole b -> whole (a ++ b).
Proof.
  intros A B w x E. apply app_cases in E. destruct E as [(z & Ez & E)|(z & -> & E)]; [|now apply (B z)]. destruct z as [|c z]; cbn in E; [now apply (B []); cbn|].
  injection E as <- ->. rewrite app_length. specialize (A w z Ez). lia.
Qed.
Lemma whole_plain (f : ascii -> bool) s : f percent = false -> all f s -> whole s.
Proof. intros P A w x ->. apply Forall_app in A. destruct A as [_ A]. apply Forall_inv in A. congruence. Qed.
Lemma whole_nil : whole []. Proof. intros w x E. destruct w; discriminate E. Qed.
Lemma hex_percent h : b_hex h = true -> h <> percent. Proof. intros H ->. vm_compute in H. discriminate H. Qed.
Lemma whole_word g f mn s : (forall m, L g m <-> elemL f m) -> f percent = false -> L (Rep mn None g) s -> whole s.
Proof.
  intros G P (l & -> & F & _). induction l as [|m l IH]; [apply whole_nil|]. cbn [List.concat]. apply whole_app; [|apply IH, (Forall_inv_tail F)].
  apply Forall_inv, G in F. destruct F as [(d & -> & D)|(h1 & h2 & -> & H1 & H2)]; intros w x E.
  - destruct w as [|y w]; [injection E as -> _; congruence|injection E as _ E; destruct w; discriminate E].
  - destruct w as [|y w]; [injection E as <-; cbn; lia|]. injection E as _ E. destruct w as [|y1 w]; [injection E as E _; now elim (hex_percent h1 H1)|].
    injection E as _ E. destruct w as [|y2 w]; [injection E as E _; now elim (hex_percent h2 H2)|]. injection E as _ E. destruct w; discriminate E.
Qed.
Lemma whole_uncut u : whole u -> ~ cut_escape u.
Proof. intros W (w & [E|(a & E)]); apply (W w) in E; cbn in E; lia. Qed.

(* --- paths --- *)
Lemma slashed_app l m : slashed (l ++ m) = slashed l ++ slashed m.
Proof. unfold slashed. now rewrite map_app, List.concat_app. Qed.
Lemma slashed_cut segs : forall u v, slashed segs = u ++ v -> u = [] \/ exists k x y r, u = slashed (k ++ [x]) /\ segs = k ++ y :: r /\ has_prefix x y.
Proof.
  induction segs as [|y r IH]; intros u v E; cbn in E.
  - left. destruct u; [reflexivity|discriminate E].
  - destruct u as [|c u]; [now left|right]. cbn in E. injection E as <- E. change (List.concat (map (fun x => ss "/" ++ x) r)) with (slashed r) in E. apply app_cases in E. destruct E as [(z & -> & _)|(z & -> & E)].
    + exists [], u, (u ++ z), r. split; [cbn; now rewrite app_nil_r|]. split; [reflexivity|now exists z].
    + destruct (IH z v E) as [->|(k & x & y' & r' & -> & -> & P)].
      * exists [], y, y, r. split; [reflexivity|]. split; [reflexivity|exists []; now rewrite app_nil_r].
      * exists (y :: k), x, y', r'. repeat split; auto.
Qed.
Lemma segment_prefix x y : L segment y -> has_prefix x y -> ~ cut_escape x -> L segment x.
Proof. intros Y (z & ->) N. eapply many_prefix; [exact (proj1 (proj2 e_pchar))|exact Y|exact N]. Qed.
Lemma nz_prefix first x y : first = segment_nz \/ first = segment_nz_nc -> L first y -> has_prefix x y -> ~ cut_escape x -> x <> [] -> L first x.
Proof.
  intros [->| ->] Y (z & ->) N Z.
  - eapply (many1_prefix pchar f_p x z); [exact (proj1 (proj2 e_pchar))|exact Y|exact N|exact Z].
  - eapply (many1_prefix _ f_n x z); [exact (proj1 (proj2 e_nchar))|exact Y|exact N|exact Z].
Qed.
Lemma query_prefix x y : L query y -> has_prefix x y -> ~ cut_escape x -> L query x.
Proof. intros Y (z & ->) N. eapply many_prefix; [exact (proj1 (proj2 e_qchar))|exact Y|exact N]. Qed.
Lemma slashed_uncut k x : ~ cut_escape (slashed (k ++ [x])) -> ~ cut_escape x.
Proof.
  intros N C. apply N. rewrite slashed_app. apply cut_app. unfold slashed. cbn. rewrite app_nil_r. exact (cut_app (ss "/") x C).
Qed.
Lemma segs_cut k y r x : Forall (L segment) (k ++ y :: r) -> has_prefix x y -> ~ cut_escape x -> Forall (L segment) (k ++ [x]).
Proof.
  intros F P N. apply Forall_app in F. destruct F as [K F]. apply Forall_app. split; [exact K|]. constructor; [|constructor]. eapply segment_prefix; [exact (Forall_inv F)|exact P|exact N].
Qed.
Definition same_absolute (l : list str) (a b : bool) : Prop := l <> [] -> a = b.
Lemma abempty_cut u v abs segs : abempty_decomp (u ++ v) abs segs -> ~ cut_escape u ->
  exists abs' segs', abempty_decomp u abs' segs' /\ cut_segments segs' segs /\ same_absolute segs' abs' abs.
Proof.
  intros (E & F & ->) N. destruct (slashed_cut segs u v (eq_sym E)) as [->|(k & x & y & r & -> & -> & P)].
  - exists false, []. split; [repeat constructor|]. split; [now left|intros H; now elim H].
  - exists true, (k ++ [x]). split; [split; [reflexivity|split]|].
    + eapply segs_cut; [exact F|exact P|now apply (slashed_uncut k)].
    + destruct k; reflexivity.
    + split; [right; exists k, x, y, r; auto|]. intros _. destruct k; reflexivity.
Qed.
Lemma absolute_cut u v abs segs : absolute_decomp (u ++ v) abs segs -> ~ cut_escape u -> u = [] \/
  exists segs', absolute_decomp u abs segs' /\ cut_segments segs' segs.
Proof.
  intros (-> & E & F) N. destruct (slashed_cut segs u v (eq_sym E)) as [->|(k & x & y & r & -> & -> & P)]; [now left|right]. pose proof (slashed_uncut k x N) as Nx.
  exists (k ++ [x]). split; [|right; exists k, x, y, r; auto]. split; [reflexivity|]. split; [reflexivity|].
  destruct F as [F|(x0 & rest & F & X0 & R)].
  - destruct k as [|? [|? k]]; try discriminate F. injection F as -> _. destruct P as (z & P). destruct x; [now left|discriminate P].
  - destruct k as [|k0 k]; cbn in F; injection F as -> <-.
    + destruct x as [|c x]; [now left|right]. exists (c :: x), []. split; [reflexivity|]. split; [|constructor]. eapply nz_prefix; eauto. discriminate.
    + right. exists x0, (k ++ [x]). split; [reflexivity|]. split; [exact X0|]. eapply segs_cut; eassumption.
Qed.
Lemma rootless_cut first u v abs segs : first = segment_nz \/ first = segment_nz_nc -> rootless_decomp first (u ++ v) abs segs -> ~ cut_escape u -> u = [] \/
  exists segs', rootless_decomp first u abs segs' /\ cut_segments segs' segs.
Proof.
  intros Fi (-> & x & rest & -> & E & X & R) N. symmetry in E. apply app_cases in E. destruct E as [(z & -> & _)|(z & -> & E)].
  - destruct u as [|c u]; [now left|right]. exists [c :: u]. split; [split; [reflexivity|]|].
    + exists (c :: u), []. split; [reflexivity|]. split; [cbn; now rewrite app_nil_r|]. split; [|constructor]. eapply nz_prefix; [exact Fi|exact X|now exists z|exact N|discriminate].
    + right. exists [], (c :: u), ((c :: u) ++ z), rest. repeat split. now exists z.
  - right. destruct (slashed_cut rest z v E) as [->|(k & y & y' & r & -> & -> & P)].
    + exists [x]. rewrite app_nil_r in *. split; [split; [reflexivity|]; exists x, []; split; [reflexivity|]; split; [cbn; now rewrite app_nil_r|]; split; [exact X|constructor]|].
      right. exists [], x, x, rest. repeat split. exists []. now rewrite app_nil_r.
    + exists (x :: k ++ [y]). split; [split; [reflexivity|]|].
      * exists x, (k ++ [y]). split; [reflexivity|]. split; [reflexivity|]. split; [exact X|]. eapply segs_cut; [exact R|exact P|]. apply (slashed_uncut k). intros C. apply N. now apply cut_app.
      * right. exists (x :: k), y, y', r. repeat split; auto.
Qed.

(* --- query and fragment --- *)
Lemma tail_cut st u v c : tail_decomp st c -> st = u ++ v -> ~ cut_escape u ->
  (u = [] \/ exists q f, u = opt_pre (ss "?") q ++ opt_pre (ss "#") f /\ in_opt query q /\ in_opt fragment f
    /\ ((cut_text q (Rfc3986.c_query c) /\ f = None) \/ (q = Rfc3986.c_query c /\ cut_text f (c_fragment c)))).
Proof.
  intros (-> & Q & F) E N. apply app_cases in E. destruct E as [(z & E & _)|(z & -> & E)].
  - destruct (Rfc3986.c_query c) as [q|]; cbn in E; [|left; destruct u; [reflexivity|discriminate E]]. destruct u as [|x u]; [now left|right]. injection E as <- ->.
    exists (Some u), None. cbn [opt_pre]. split; [now rewrite app_nil_r|]. split; [|split; [exact I|left; split; [exists u, (u ++ z); repeat split; now exists z|reflexivity]]].
    eapply query_prefix; [exact Q|now exists z|]. intros C. apply N. exact (cut_app (ss "?") u C).
  - destruct z as [|x z].
    + rewrite app_nil_r in N |- *. destruct (Rfc3986.c_query c) as [q|]; [right|now left]. exists (Some q), None. split; [now rewrite app_nil_r|]. split; [exact Q|]. split; [exact I|].
      left. split; [exists q, q; repeat split; exists []; now rewrite app_nil_r|reflexivity].
    + right. destruct (c_fragment c) as [f|]; cbn in E; [|discriminate E]. injection E as <- ->. exists (Rfc3986.c_query c), (Some z). split; [reflexivity|]. split; [exact Q|].
      split; [|right; split; [reflexivity|exists z, (z ++ v); repeat split; now exists v]]. eapply query_prefix; [exact F|now exists v|]. intros C. apply N. apply cut_app. exact (cut_app (ss "#") z C).
Qed.

(* --- the whole text --- *)
Definition auth_text (c : components) : str :=
  match c_authority c with Some (u, h, p) => ss "//" ++ opt_post u (ss "@") ++ h ++ opt_pre (ss ":") p | None => [] end.
Lemma hier_text first sh c : hier_decomp first sh c -> exists path, sh = auth_text c ++ path.
Proof.
  intros [(a & sa & sp & A & -> & D & _)|(A & _)]; unfold auth_text; rewrite A; [|now exists sh]. destruct a as [[u h] p]. destruct D as [-> _]. exists sp. now rewrite <- !app_assoc.
Qed.
Lemma hier_cut first sh c u v sch q f : first = segment_nz \/ first = segment_nz_nc -> hier_decomp first sh c -> sh = auth_text c ++ u ++ v -> ~ cut_escape u ->
  exists abs segs, hier_decomp first (auth_text c ++ u) (mkcomponents sch (c_authority c) abs segs q f) /\ cut_segments segs (c_segments c) /\ same_absolute segs abs (c_absolute c)
    /\ (v = [] -> abs = c_absolute c /\ segs = c_segments c).
Proof.
  intros Fi H E N. assert (W : v = [] -> hier_decomp first (auth_text c ++ u) c) by (intros ->; rewrite app_nil_r in E; now rewrite <- E).
  destruct v as [|v0 v].
  { specialize (W eq_refl). exists (c_absolute c), (c_segments c). split; [exact W|]. split; [|split; [intros _; reflexivity|auto]].
    destruct (c_segments c) as [|a l] eqn:S; [now left|]. right. exists (removelast (a :: l)), (last (a :: l) []), (last (a :: l) []), []. assert (a :: l <> []) by discriminate.
    rewrite <- app_removelast_last by assumption. repeat split. exists []. now rewrite app_nil_r. }
  clear W. destruct H as [(a & sa & sp & A & Es & D & P)|(A & P)]; unfold auth_text in *; rewrite A in *.
  - destruct a as [[w h] p]. destruct D as [-> D]. rewrite Es, <- !app_assoc in E. repeat apply app_inv_head in E. subst sp.
    destruct (abempty_cut u (v0 :: v) _ _ P N) as (abs & segs & P' & C & SA). exists abs, segs. split; [|split; [exact C|split; [exact SA|discriminate]]].
    left. exists (w, h, p), (opt_post w (ss "@") ++ h ++ opt_pre (ss ":") p), u. split; [reflexivity|]. split; [now rewrite <- !app_assoc|]. split; [split; [reflexivity|exact D]|exact P'].
  - cbn [app] in *. subst sh. assert (Z : u = [] -> exists abs segs, hier_decomp first u (mkcomponents sch None abs segs q f) /\ cut_segments segs (c_segments c) /\ same_absolute segs abs (c_absolute c)
      /\ (v0 :: v = [] -> abs = c_absolute c /\ segs = c_segments c)).
    { intros ->. exists false, []. split; [right; split; [reflexivity|right; right; repeat split]|]. split; [now left|]. split; [intros K; now elim K|discriminate]. }
    destruct P as [P|[P|P]].
    + destruct (absolute_cut _ _ _ _ P N) as [U|(segs & P' & C)]; [now apply Z|]. exists (c_absolute c), segs. split; [right; split; [reflexivity|now left]|]. split; [exact C|]. split; [intros _; reflexivity|discriminate].
    + destruct (rootless_cut first _ _ _ _ Fi P N) as [U|(segs & P' & C)]; [now apply Z|]. exists (c_absolute c), segs. split; [right; split; [reflexivity|right; now left]|]. split; [exact C|]. split; [intros _; reflexivity|discriminate].
    + destruct P as [P _]. destruct u; [now apply Z|discriminate P].
Qed.
Lemma rest_cut first sh st c x v sch : first = segment_nz \/ first = segment_nz_nc -> hier_decomp first sh c -> tail_decomp st c -> sh ++ st = auth_text c ++ x ++ v -> ~ cut_escape x ->
  sch = Rfc3986.c_scheme c -> exists c' sh' st', auth_text c ++ x = sh' ++ st' /\ hier_decomp first sh' c' /\ tail_decomp st' c' /\ cut_behind c' c.
Proof.
  intros Fi H T E N ->. destruct (hier_text _ _ _ H) as (path & Ep). rewrite Ep, <- app_assoc in E. apply app_inv_head in E. apply app_cases in E. destruct E as [(z & -> & _)|(z & -> & Ez)].
  - destruct (hier_cut first sh c x z (Rfc3986.c_scheme c) None None Fi H Ep N) as (abs & segs & H' & C & SA & _).
    eexists; exists (auth_text c ++ x), []. split; [now rewrite app_nil_r|]. split; [exact H'|]. split; [split; [reflexivity|split; exact I]|].
    split; [reflexivity|]. split; [reflexivity|]. left. auto.
  - assert (Np : path = [] \/ ~ cut_escape z) by (right; intros C; apply N; now apply cut_app). assert (Nz : ~ cut_escape z) by (intros C; apply N; now apply cut_app).
    destruct (tail_cut st z v c T Ez Nz) as [->|(q & f & -> & Q & F & K)].
    + rewrite app_nil_r in *. destruct (hier_cut first sh c path [] (Rfc3986.c_scheme c) None None Fi H) as (abs & segs & H' & C & SA & _); [now rewrite app_nil_r|exact N|].
      eexists; exists (auth_text c ++ path), []. split; [now rewrite app_nil_r|]. split; [exact H'|]. split; [split; [reflexivity|split; exact I]|].
      split; [reflexivity|]. split; [reflexivity|]. left. auto.
    + exists (mkcomponents (Rfc3986.c_scheme c) (c_authority c) (c_absolute c) (c_segments c) q f), sh, (opt_pre (ss "?") q ++ opt_pre (ss "#") f).
      split; [now rewrite Ep, <- app_assoc|]. split; [exact H|]. split; [split; [reflexivity|split; assumption]|]. split; [reflexivity|]. split; [reflexivity|]. right. auto.
Qed.
Lemma uri_cut s c x v : URI_decomp s c -> s = (head_text c ++ x) ++ v -> ~ cut_escape (head_text c ++ x) -> exists c', URI_decomp (head_text c ++ x) c' /\ cut_behind c' c.
Proof.
  intros (sch & sh & st & S & LS & Es & H & T) E N. assert (Nx : ~ cut_escape x) by (intros C; apply N; now apply cut_app).
  assert (Hd : head_text c = sch ++ ss ":" ++ auth_text c) by (unfold head_text; rewrite S; cbn [opt_post]; now rewrite <- app_assoc).
  rewrite Es, Hd, <- !app_assoc in E. do 2 apply app_inv_head in E.
  destruct (rest_cut segment_nz sh st c x v _ (or_introl eq_refl) H T E Nx eq_refl) as (c' & sh' & st' & E' & H' & T' & B).
  exists c'. split; [|exact B]. exists sch, sh', st'. split; [destruct B as [B _]; congruence|]. split; [exact LS|]. split; [now rewrite Hd, <- !app_assoc, E'|]. split; assumption.
Qed.
Lemma relative_cut s c x v : relative_decomp s c -> s = (head_text c ++ x) ++ v -> ~ cut_escape (head_text c ++ x) -> exists c', relative_decomp (head_text c ++ x) c' /\ cut_behind c' c.
Proof.
  intros (sh & st & S & Es & H & T) E N. assert (Nx : ~ cut_escape x) by (intros C; apply N; now apply cut_app).
  assert (Hd : head_text c = auth_text c) by (unfold head_text; rewrite S; reflexivity).
  rewrite Es, Hd, <- !app_assoc in E.
  destruct (rest_cut segment_nz_nc sh st c x v _ (or_intror eq_refl) H T E Nx eq_refl) as (c' & sh' & st' & E' & H' & T' & B).
  exists c'. split; [|exact B]. exists sh', st'. split; [destruct B as [B _]; congruence|]. split; [now rewrite Hd, E'|]. split; assumption.
Qed.
(* --- a text that ends within an escape --- *)
Lemma host_whole h : L Rfc3986.host h -> whole h.
Proof.
  intros H. destruct (host_reg_or_lit h H) as [K|K].
  - apply ip_literal_chars in K. destruct K as [K _]. eapply whole_plain; [|exact K]. reflexivity.
  - eapply whole_word; [exact (proj1 (proj2 e_rchar))|reflexivity|exact K].
Qed.
Lemma segment_whole s : L segment s -> whole s. Proof. intros H. eapply whole_word; [exact (proj1 (proj2 e_pchar))|reflexivity|exact H]. Qed.
Lemma first_whole first s : first = segment_nz \/ first = segment_nz_nc -> L first s -> whole s.
Proof. intros [->| ->] H; [exact (whole_word _ f_p _ s (proj1 (proj2 e_pchar)) eq_refl H)|exact (whole_word _ f_n _ s (proj1 (proj2 e_nchar)) eq_refl H)]. Qed.
Lemma query_whole s : L query s -> whole s. Proof. intros H. eapply whole_word; [exact (proj1 (proj2 e_qchar))|reflexivity|exact H]. Qed.
Lemma plain_whole s : ~ In percent s -> whole s. Proof. intros N w x ->. elim N. apply in_or_app. right. now left. Qed.
Ltac plain := apply plain_whole; cbn; intuition discriminate.
Lemma slashed_whole l : Forall (L segment) l -> whole (slashed l).
Proof. induction 1 as [|x l H F IH]; [apply whole_nil|]. change (slashed (x :: l)) with (ss "/" ++ x ++ slashed l). apply whole_app; [plain|]. apply whole_app; [now apply segment_whole|exact IH]. Qed.
Lemma hier_whole first sh c : first = segment_nz \/ first = segment_nz_nc -> hier_decomp first sh c -> whole sh.
Proof.
  intros Fi [(a & sa & sp & _ & -> & D & P)|(_ & [P|[P|P]])].
  - destruct a as [[u h] p]. destruct D as (-> & U & H & Q). destruct P as (-> & F & _). apply whole_app; [plain|]. apply whole_app; [|now apply slashed_whole].
    apply whole_app; [destruct u as [u|]; [apply whole_app; [eapply whole_word; [exact (proj1 (proj2 e_uchar))|reflexivity|exact U]|plain]|apply whole_nil]|].
    apply whole_app; [now apply host_whole|]. destruct p as [p|]; [apply whole_app; [plain|]|apply whole_nil]. apply port_chars in Q. eapply whole_plain; [|exact Q]. reflexivity.
  - destruct P as (_ & -> & [->|(x & rest & -> & X & F)]); [plain|]. change (slashed (x :: rest)) with (ss "/" ++ x ++ slashed rest). apply whole_app; [plain|]. apply whole_app; [apply (first_whole segment_nz); auto|now apply slashed_whole].
  - destruct P as (_ & x & rest & _ & -> & X & F). apply whole_app; [now apply (first_whole first)|now apply slashed_whole].
  - destruct P as (-> & _). apply whole_nil.
Qed.
Lemma tail_whole st c : tail_decomp st c -> whole st.
Proof.
  intros (-> & Q & F). apply whole_app; [destruct (Rfc3986.c_query c)|destruct (c_fragment c)]; try apply whole_nil; (apply whole_app; [plain|now apply query_whole]).
Qed.
Lemma reference_whole s c : reference_decomp s c -> whole s.
Proof.
  intros [(sch & sh & st & _ & S & -> & H & T)|(sh & st & _ & -> & H & T)].
  - apply whole_app; [apply scheme_chars in S; destruct S as [S _]; eapply whole_plain; [|exact S]; reflexivity|]. apply whole_app; [plain|]. apply whole_app; [eapply hier_whole; [|exact H]; now left|eapply tail_whole; exact T].
  - apply whole_app; [eapply hier_whole; [|exact H]; now right|eapply tail_whole; exact T].
Qed.

(* --- hosts --- *)
Lemma octet_prefix x y : octet (x ++ y) -> x <> [] -> octet x.
Proof.
  intros O N. assert (D : forall a, inr 49 57 a = true -> b_digit a = true) by (intros a; destruct a as [[] [] [] [] [] [] [] []]; vm_compute; congruence).
  assert (D1 : forall a, ch 49 a = true -> inr 49 57 a = true) by (intros a; destruct a as [[] [] [] [] [] [] [] []]; vm_compute; congruence).
  assert (D2 : forall a, ch 50 a = true -> inr 49 57 a = true) by (intros a; destruct a as [[] [] [] [] [] [] [] []]; vm_compute; congruence).
  assert (D3 : forall a, inr 48 52 a = true -> b_digit a = true) by (intros a; destruct a as [[] [] [] [] [] [] [] []]; vm_compute; congruence).
  assert (D4 : forall a, ch 53 a = true -> b_digit a = true) by (intros a; destruct a as [[] [] [] [] [] [] [] []]; vm_compute; congruence).
  destruct x as [|a x]; [now elim N|]. destruct O as [(a' & E & H)|[(a' & b' & E & H1 & H2)|(a' & b' & c' & E & H)]]; injection E as -> E.
  - apply app_eq_nil in E. destruct E as [-> _]. left. eauto.
  - destruct x as [|b x]; [left; eauto|]. injection E as -> E. apply app_eq_nil in E. destruct E as [-> _]. right; left. eauto.
  - destruct x as [|b x]; [left; exists a'; split; auto; intuition|]. injection E as -> E. destruct x as [|c x]; [right; left; exists a', b'; intuition|].
    injection E as -> E. apply app_eq_nil in E. destruct E as [-> _]. right; right. exists a', b', c'. auto.
Qed.
Definition quad (o1 o2 o3 o4 : str) : str := o1 ++ "."%char :: o2 ++ "."%char :: o3 ++ "."%char :: o4.
Lemma ipv4_quad m : L IPv4address m <-> exists o1 o2 o3 o4, m = quad o1 o2 o3 o4 /\ octet o1 /\ octet o2 /\ octet o3 /\ octet o4.
Proof.
  split.
  - intros (m1 & t1 & -> & H1 & d1 & t2 & -> & E1 & m2 & t3 & -> & H2 & d2 & t4 & -> & E2 & m3 & t5 & -> & H3 & d3 & m4 & -> & E3 & H4).
    apply (proj1 (L_dot _)) in E1, E2, E3. subst. apply L_octet in H1, H2, H3, H4. exists m1, m2, m3, m4. repeat split; auto.
  - intros (m1 & m2 & m3 & m4 & -> & H1 & H2 & H3 & H4). apply L_octet in H1, H2, H3, H4. unfold quad.
    exists m1, ("."%char :: m2 ++ "."%char :: m3 ++ "."%char :: m4). split; [reflexivity|]. split; [exact H1|]. exists ["."%char], (m2 ++ "."%char :: m3 ++ "."%char :: m4). split; [reflexivity|]. split; [reflexivity|].
    exists m2, ("."%char :: m3 ++ "."%char :: m4). split; [reflexivity|]. split; [exact H2|]. exists ["."%char], (m3 ++ "."%char :: m4). split; [reflexivity|]. split; [reflexivity|].
    exists m3, ("."%char :: m4). split; [reflexivity|]. split; [exact H3|]. exists ["."%char], m4. split; [reflexivity|]. split; [reflexivity|exact H4].
Qed.
Lemma octet_dot o : octet o -> ~ In "."%char o.
Proof. intros O I. apply octet_digits in O. destruct O as [O _]. rewrite Forall_forall in O. apply O in I. vm_compute in I. discriminate I. Qed.
Lemma dot_inj a b x y : ~ In "."%char a -> ~ In "."%char b -> a ++ "."%char :: x = b ++ "."%char :: y -> a = b /\ x = y.
Proof.
  revert b. induction a as [|c a IH]; intros [|d b] A B E; cbn in E.
  - injection E as ->. auto. - injection E as <- _. elim B. now left. - injection E as -> _. elim A. now left.
  - injection E as <- E.
  destruct (IH b) as [-> ->]; auto; intros I; [apply A|apply B]; now right.
Qed.
Lemma ipv4_between p q z : L IPv4address p -> L IPv4address ((p ++ q) ++ z) -> L IPv4address (p ++ q).
Proof.
  intros P H. apply ipv4_quad in P. destruct P as (o1 & o2 & o3 & o4 & -> & O1 & O2 & O3 & O4). apply ipv4_quad in H. destruct H as (n1 & n2 & n3 & n4 & E & N1 & N2 & N3 & N4).
  apply ipv4_quad. exists o1, o2, o3, (o4 ++ q). unfold quad in *. rewrite <- !app_assoc in *. cbn [app] in *. rewrite <- !app_assoc in *. cbn [app] in *. rewrite <- !app_assoc in *. cbn [app] in *.
  split; [reflexivity|]. split; [exact O1|]. split; [exact O2|]. split; [exact O3|].
  apply dot_inj in E; try now apply octet_dot. destruct E as [_ E]. apply dot_inj in E; try now apply octet_dot. destruct E as [_ E]. apply dot_inj in E; try now apply octet_dot. destruct E as [_ E].
  rewrite <- E, app_assoc in N4. apply octet_prefix in N4; [exact N4|]. apply octet_digits in O4. destruct O4 as [_ O4]. destruct o4; [now elim O4|discriminate].
Qed.
Lemma unambiguous_prefix t h : host_unambiguous h -> has_prefix t h -> host_unambiguous t.
Proof.
  intros H (z & ->). destruct H as [H|H].
  - destruct (g_ipv4 t) as [[[m a] r]|] eqn:E.
    + left. pose proof (s_ipv4 _ _ _ _ E) as [M _]. pose proof (wf_g_ipv4 _ _ _ _ E) as W. subst t. now apply (ipv4_between m r z).
    + right. intros (p & q & -> & P). exact (ipv4_any p q P E).
  - right. intros (p & q & -> & P). apply H. exists p, (q ++ z). split; [now rewrite <- app_assoc|exact P].
Qed.
Lemma digits_port s : all b_digit s -> L Rfc3986.port s.
Proof.
  intros H. exists (map (fun c => [c]) s). split; [clear; induction s; cbn; congruence|]. split; [|split; [lia|exact I]]. clear - H. induction H as [|c s H F IH]; cbn; constructor; auto. apply L_digit. eauto.
Qed.
Lemma host_cut s c x v h p : URI_decomp s c \/ relative_decomp s c -> c_authority c = Some (None, h, p) -> ~ has_prefix (ss "[") h ->
  h ++ opt_pre (ss ":") p = x ++ v -> ~ cut_escape x -> exists y q, x = y ++ opt_pre (ss ":") q /\ L Rfc3986.host y /\ in_opt Rfc3986.port q /\ (host_unambiguous h -> host_unambiguous y)
    /\ cut_host (mkcomponents (Rfc3986.c_scheme c) (Some (None, y, q)) false [] None None) c.
Proof.
  intros D A B E N. assert (HP : L Rfc3986.host h /\ in_opt Rfc3986.port p).
  { assert (K : forall first sh, hier_decomp first sh c -> L Rfc3986.host h /\ in_opt Rfc3986.port p).
    { intros first sh [(a & sa & sp & A' & _ & Dc & _)|(A' & _)]; [|congruence]. rewrite A in A'. injection A' as <-. destruct Dc as (_ & _ & H & P). auto. }
    destruct D as [(? & sh & ? & _ & _ & _ & H & _)|(sh & ? & _ & _ & H & _)]; eauto. }
  destruct HP as [H P]. assert (R : L reg_name h).
  { destruct (host_reg_or_lit h H) as [K|K]; [|exact K]. apply ip_literal_chars in K. destruct K as [_ (t & ->)]. elim B. now exists t. }
  apply app_cases in E. destruct E as [(z & -> & _)|(z & -> & E)].
  - exists x, None. split; [cbn; now rewrite app_nil_r|]. split; [right; eapply many_prefix; [exact (proj1 (proj2 e_rchar))|exact R|exact N]|]. split; [exact I|].
    split; [intros U; eapply unambiguous_prefix; [exact U|now exists z]|]. repeat split. exists z, (x ++ z), p, x, None. split; [exact A|]. split; [reflexivity|]. left. auto.
  - destruct z as [|z0 z].
    + exists h, None. split; [reflexivity|]. split; [exact H|]. split; [exact I|]. split; [auto|]. repeat split. exists [], h, p, h, None. split; [exact A|]. split; [reflexivity|]. left. rewrite app_nil_r. auto.
    + destruct p as [p|]; cbn in E; [|discriminate E]. injection E as <- ->. exists h, (Some z). split; [reflexivity|]. split; [exact H|]. split; [|split; [auto|]].
      * cbn in P |- *. apply port_chars in P. apply Forall_app in P. apply digits_port, P.
      * repeat split. exists [], h, (Some (z ++ v)), h, (Some z). split; [exact A|]. split; [reflexivity|]. right. split; [reflexivity|]. exists z, (z ++ v). repeat split. now exists v.
Qed.
Lemma authority_here first sh c u h p : hier_decomp first sh c -> c_authority c = Some (u, h, p) -> authority_decomp (opt_post u (ss "@") ++ h ++ opt_pre (ss ":") p) (u, h, p).
Proof. intros [(a & sa & sp & A & _ & D & _)|(A & _)] E; [|congruence]. rewrite E in A. injection A as <-. destruct D as (-> & D). split; [reflexivity|exact D]. Qed.
Lemma host_hier first sh st c x z h p : hier_decomp first sh c -> tail_decomp st c -> c_authority c = Some (None, h, p) -> ~ has_prefix (ss "[") h ->
  h ++ opt_pre (ss ":") p = x ++ z -> ~ cut_escape x ->
  exists c', hier_decomp first (ss "//" ++ x) c' /\ tail_decomp [] c' /\ cut_host c' c /\ (unambiguous c -> unambiguous c').
Proof.
  intros H T A B E N. pose proof (authority_here first sh c None h p H A) as (_ & _ & LH & LP).
  assert (D : exists s c0, (URI_decomp s c0 \/ relative_decomp s c0) /\ c_authority c0 = Some (None, h, p)).
  { exists (ss "//" ++ h ++ opt_pre (ss ":") p), (mkcomponents None (Some (None, h, p)) false [] None None). split; [|reflexivity]. right. exists (ss "//" ++ h ++ opt_pre (ss ":") p), [].
    split; [reflexivity|]. split; [now rewrite app_nil_r|]. split; [|split; [reflexivity|split; exact I]]. left. exists (None, h, p), (h ++ opt_pre (ss ":") p), []. split; [reflexivity|]. split; [now rewrite app_nil_r|].
    split; [split; [reflexivity|split; [exact I|auto]]|]. repeat constructor. }
  destruct D as (s & c0 & D & A0). destruct (host_cut s c0 x z h p D A0 B E N) as (y & q & -> & Ly & Lq & U & C).
  exists (mkcomponents (Rfc3986.c_scheme c) (Some (None, y, q)) false [] None None). split; [|split; [split; [reflexivity|split; exact I]|split]].
  - left. exists (None, y, q), (y ++ opt_pre (ss ":") q), []. split; [reflexivity|]. split; [now rewrite app_nil_r|]. split; [split; [reflexivity|split; [exact I|auto]]|]. repeat constructor.
  - destruct C as (_ & _ & _ & _ & x' & h' & p' & y' & q' & E1 & E2 & C). repeat split. rewrite A0 in E1. injection E1 as <- <-. injection E2 as <- <-. exists x', h, p, y, q. auto.
  - unfold unambiguous. rewrite A. exact U.
Qed.
Lemma rest_any first sh st c x v : first = segment_nz \/ first = segment_nz_nc -> hier_decomp first sh c -> tail_decomp st c -> sh ++ st = x ++ v -> plain_host c -> ~ cut_escape x ->
  exists c' sh' st', x = sh' ++ st' /\ hier_decomp first sh' c' /\ tail_decomp st' c' /\ Rfc3986.c_scheme c' = Rfc3986.c_scheme c /\ (unambiguous c -> unambiguous c').
Proof.
  intros Fi H T E PH N. destruct (hier_text _ _ _ H) as (path & Ep). pose proof E as E0. rewrite Ep, <- app_assoc in E. apply app_cases in E. destruct E as [(z & Ea & _)|(z & -> & Ez)].
  - assert (Z : x = [] -> exists c' sh' st', x = sh' ++ st' /\ hier_decomp first sh' c' /\ tail_decomp st' c' /\ Rfc3986.c_scheme c' = Rfc3986.c_scheme c /\ (unambiguous c -> unambiguous c')).
    { intros ->. exists (mkcomponents (Rfc3986.c_scheme c) None false [] None None), [], []. split; [reflexivity|]. split; [right; split; [reflexivity|right; right; repeat split]|]. split; [split; [reflexivity|split; exact I]|]. split; [reflexivity|intros _; exact I]. }
    unfold auth_text in Ea. destruct (c_authority c) as [[[u h] p]|] eqn:A; [|destruct x; [now apply Z|discriminate Ea]].
    destruct (PH u h p A) as [-> B]. destruct x as [|x0 x]; [now apply Z|]. cbn in Ea. injection Ea as <- Ea. destruct x as [|x1 x].
    + exists (mkcomponents (Rfc3986.c_scheme c) None true [[]] None None), (ss "/"), []. split; [reflexivity|]. split; [right; split; [reflexivity|left; split; [reflexivity|split; [reflexivity|now left]]]|]. split; [split; [reflexivity|split; exact I]|].
      split; [reflexivity|intros _; exact I].
    + cbn in Ea. injection Ea as <- Ea. destruct (host_hier first sh st c x z h p H T A B Ea) as (c' & H' & T' & C & U); [intros K; apply N; exact (cut_app (ss "//") x K)|].
      exists c', (ss "//" ++ x), []. split; [now rewrite app_nil_r|]. split; [exact H'|]. split; [exact T'|]. split; [apply C|exact U].
  - rewrite <- app_assoc in E0. destruct (rest_cut first sh st c z v (Rfc3986.c_scheme c) Fi H T E0) as (c' & sh' & st' & E' & H' & T' & B); [intros C; apply N; now apply cut_app|reflexivity|].
    exists c', sh', st'. split; [exact E'|]. split; [exact H'|]. split; [exact T'|]. destruct B as (B1 & B2 & _). split; [exact B1|]. unfold unambiguous. now rewrite B2.
Qed.
Lemma uri_any_cut u v c : URI_decomp (u ++ v) c -> plain_host c -> has_prefix (opt_post (Rfc3986.c_scheme c) (ss ":")) u -> ~ cut_escape u -> exists c', URI_decomp u c' /\ (unambiguous c -> unambiguous c').
Proof.
  intros (sch & sh & st & S & LS & E & H & T) PH (x & ->) N. rewrite S in *. cbn [opt_post] in *. rewrite <- !app_assoc in E. do 2 apply app_inv_head in E.
  destruct (rest_any segment_nz sh st c x v (or_introl eq_refl) H T (eq_sym E) PH) as (c' & sh' & st' & -> & H' & T' & S' & U); [intros C; apply N; now apply cut_app|].
  exists c'. split; [|exact U]. exists sch, sh', st'. split; [congruence|]. split; [exact LS|]. split; [now rewrite <- !app_assoc|]. auto.
Qed.
Lemma relative_any_cut u v c : relative_decomp (u ++ v) c -> plain_host c -> has_prefix (opt_post (Rfc3986.c_scheme c) (ss ":")) u -> ~ cut_escape u -> exists c', relative_decomp u c' /\ (unambiguous c -> unambiguous c').
Proof.
  intros (sh & st & S & E & H & T) PH (x & ->) N. rewrite S in *. cbn [opt_post app] in *.
  destruct (rest_any segment_nz_nc sh st c x v (or_intror eq_refl) H T (eq_sym E) PH N) as (c' & sh' & st' & -> & H' & T' & S' & U).
  exists c'. split; [|exact U]. exists sh', st'. split; [congruence|]. split; [reflexivity|]. auto.
Qed.
Lemma host_part c x z : plain_host c -> has_prefix (ss "//") x -> auth_text c = x ++ z -> exists h p y, c_authority c = Some (None, h, p) /\ ~ has_prefix (ss "[") h /\ x = ss "//" ++ y /\ h ++ opt_pre (ss ":") p = y ++ z.
Proof.
  intros PH (y & ->) E. unfold auth_text in E. destruct (c_authority c) as [[[u h] p]|] eqn:A; [|discriminate E]. destruct (PH u h p A) as [-> B]. exists h, p, y. split; [reflexivity|]. split; [exact B|]. split; [reflexivity|].
  cbn in E. injection E as E. exact E.
Qed.
Lemma uri_host_cut u v c : URI_decomp (u ++ v) c -> plain_host c -> has_prefix (opt_post (Rfc3986.c_scheme c) (ss ":") ++ ss "//") u -> has_prefix u (head_text c) -> ~ cut_escape u ->
  exists c', URI_decomp u c' /\ cut_host c' c /\ (unambiguous c -> unambiguous c').
Proof.
  intros (sch & sh & st & S & LS & E & H & T) PH (x & ->) (z & Z) N. unfold head_text in Z. fold (auth_text c) in Z. rewrite S in *. cbn [opt_post] in *. rewrite <- !app_assoc in Z. do 2 apply app_inv_head in Z. rewrite app_assoc in Z.
  destruct (host_part c (ss "//" ++ x) z PH (ex_intro _ x eq_refl) Z) as (h & p & y & A & B & Ey & Eh). apply app_inv_head in Ey. subst y.
  destruct (host_hier segment_nz sh st c x z h p H T A B Eh) as (c' & H' & T' & C & U); [intros K; apply N; now apply cut_app|].
  exists c'. split; [|auto]. exists sch, (ss "//" ++ x), []. split; [destruct C as [C _]; congruence|]. split; [exact LS|]. split; [now rewrite app_nil_r, <- !app_assoc|]. auto.
Qed.
Lemma relative_host_cut u v c : relative_decomp (u ++ v) c -> plain_host c -> has_prefix (opt_post (Rfc3986.c_scheme c) (ss ":") ++ ss "//") u -> has_prefix u (head_text c) -> ~ cut_escape u ->
  exists c', relative_decomp u c' /\ cut_host c' c /\ (unambiguous c -> unambiguous c').
Proof.
  intros (sh & st & S & E & H & T) PH (x & ->) (z & Z) N. unfold head_text in Z. fold (auth_text c) in Z. rewrite S in *. cbn [opt_post] in *. change ([] ++ auth_text c) with (auth_text c) in Z. change (([] ++ ss "//") ++ x) with (ss "//" ++ x) in *.
  destruct (host_part c (ss "//" ++ x) z PH (ex_intro _ x eq_refl) Z) as (h & p & y & A & B & Ey & Eh). apply app_inv_head in Ey. subst y.
  destruct (host_hier segment_nz_nc sh st c x z h p H T A B Eh) as (c' & H' & T' & C & U); [intros K; apply N; exact (cut_app (ss "//") x K)|].
  exists c'. split; [|auto]. exists (ss "//" ++ x), []. split; [destruct C as [C _]; congruence|]. split; [now rewrite app_nil_r|]. auto.
Qed.
