(* decode and RFC 3987 3.2: proofs. *)
From Verif Require Import Base PegUri UriLang PctFacts PunyProps IcuUtf8 IcuRead8 IcuEnc IcuProps PartsHost PartsProps.
From Verif Require Import Base Rfc3986 SpecPct SpecIcu SpecStore SpecIri SpecBack IriFacts PegLang.
From Verif Require Peg.
From Coq Require Import Lia.
Local Open Scope list_scope.

Lemma dec_at s b rest t : escaped_at s b rest -> decodes s t -> exists t', t = b :: t' /\ decodes rest t'.
Proof.
  intros E D. inversion D as [|s0 b' rest' t' E' D'|c s0 t' N D']; subst.
  - destruct E as (h & l & x & y & E & _). discriminate E.
  - destruct (escaped_at_fun _ _ _ _ _ E E') as [-> ->]. eauto.
  - destruct (N _ _ E).
Qed.
Lemma dec_escapes e bs rest : escapes e bs rest -> forall s, decodes e s -> exists t, s = bs ++ t /\ decodes rest t.
Proof.
  induction 1 as [e|e b r bs rest E _ IH]; intros s D; [now exists s|].
  destruct (dec_at _ _ _ _ E D) as (t & -> & D'). destruct (IH _ D') as (t' & -> & D2). now exists t'.
Qed.
Lemma dec_char c e s : (forall b rest, ~ escaped_at (c :: e) b rest) -> decodes (c :: e) s -> exists t, s = c :: t /\ decodes e t.
Proof.
  intros N D. inversion D as [|s0 b' rest' t' E' D'|c' s0 t' N' D']; subst; [destruct (N _ _ E')|eauto].
Qed.
Lemma escapes_ascii e bs rest : escapes e bs rest -> Forall (fun c => (code c < 0x80)%N) e -> Forall (fun c => (code c < 0x80)%N) rest.
Proof.
  induction 1 as [e|e b r bs rest (h & l & x & y & E & _) _ IH]; intros F; [exact F|]. apply IH. subst e.
  inversion F as [|? ? _ F1]; subst. inversion F1 as [|? ? _ F2]; subst. now inversion F2.
Qed.
Lemma ascii_cons c cs us : (c < 0x80)%N -> text utf8_of cs us -> text utf8_of (c :: cs) (c :: us).
Proof. intros H T. change (c :: us) with ([c] ++ us). apply text_cons; [now apply utf8_1|exact T]. Qed.
Lemma from_uri_text f e u k : from_uri f e u k -> Forall (fun c => (code c < 0x80)%N) e -> forall s, decodes e s ->
  exists x, text utf8_of u x /\ length x = length s + 2 * k /\ (k = 0 -> x = map code s).
Proof.
  induction 1 as [|c e u k N _ IH|e c rest u k (_ & bs & U & E) _ IH|h l rest b u k E N _ IH]; intros F s D.
  - inversion D as [|s0 b' rest' t' E' D'|]; subst; [|destruct E' as (h & l & x & y & E' & _); discriminate E']. exists []. split; [constructor|now split].
  - inversion F; subst. destruct (dec_char _ _ _ N D) as (t & -> & D'). destruct (IH ltac:(assumption) _ D') as (x & T & Lx & Z).
    exists (code c :: x). split; [now apply ascii_cons|]. split; [cbn [length]; lia|]. intros K. cbn [map]. now rewrite Z.
  - destruct (dec_escapes _ _ _ E _ D) as (t & -> & D'). destruct (IH (escapes_ascii _ _ _ E F) _ D') as (x & T & Lx & Z).
    exists (map code bs ++ x). split; [now apply text_cons|]. split; [rewrite !app_length, map_length; lia|]. intros K. now rewrite map_app, Z.
  - inversion F as [|? ? F1 F']; subst. inversion F' as [|? ? F2 F'']; subst. inversion F'' as [|? ? F3 F3']; subst.
    destruct (dec_at _ _ _ _ E D) as (t & -> & D'). destruct (IH F3' _ D') as (x & T & Lx & _).
    exists (code percent :: code h :: code l :: x). split; [repeat (apply ascii_cons; [assumption|]); exact T|]. split; [cbn [length]; lia|discriminate].
Qed.

(* --- the IRI is determined --- *)
Lemma utf8_some c bs : utf8_of c bs -> bs <> [].
Proof. intros U E. destruct U; discriminate E. Qed.
Lemma utf8_short c bs : utf8_of c bs -> length bs <= 4.
Proof. intros U. destruct U; cbn [length]; lia. Qed.
Lemma reads8_some l out : reads8 l out true -> out = [] -> l = [].
Proof. intros R E. destruct R; try discriminate E. reflexivity. Qed.
Lemma utf8_starts c s c' d : utf8_of c (map code s) -> utf8_of c' (map code (s ++ d)) -> c = c' /\ d = [].
Proof.
  intros U U'. assert (R : reads8 (map code (s ++ d)) [c'] true). { rewrite <- (app_nil_r (map code (s ++ d))). apply r8_good; [exact U'|constructor]. }
  destruct (transcode_8_32_total (map code d) (codes_small d)) as (out & ok & E). apply transcode_8_32 in E; [|apply codes_small].
  assert (R' : reads8 (map code (s ++ d)) (c :: out) ok) by (rewrite map_app; now apply r8_good).
  destruct (reads8_fun _ _ _ _ _ (codes_small _) R R') as [X <-]. injection X as -> <-. split; [reflexivity|].   pose proof (reads8_some _ _ E eq_refl) as K. now apply map_eq_nil in K.
Qed.
Lemma escapes_compare e bs rest : escapes e bs rest -> forall bs' rest', escapes e bs' rest' ->
  (exists d, bs' = bs ++ d /\ escapes rest d rest') \/ (exists d, bs = bs' ++ d /\ escapes rest' d rest).
Proof.
  induction 1 as [e|e b r bs rest E K IH]; intros bs' rest' H; [left; now exists bs'|].
  inversion H as [|e0 b' r' ds rest0 E' K']; subst.
  - right. exists (b :: bs). split; [reflexivity|]. econstructor; eassumption.
  - destruct (escaped_at_fun _ _ _ _ _ E E') as [<- <-]. destruct (IH _ _ K') as [(d & -> & X)|(d & -> & X)]; [left|right]; now exists d.
Qed.
Lemma convertible_fun f e c r c' r' : convertible f e c r -> convertible f e c' r' -> c = c' /\ r = r'.
Proof.
  assert (Z : forall (x y : str), escapes x [] y -> x = y) by (intros x y H; now inversion H).
  intros (_ & bs & U & E) (_ & bs' & U' & E'). destruct (escapes_compare _ _ _ E _ _ E') as [(d & -> & X)|(d & -> & X)].
  - destruct (utf8_starts _ _ _ _ U U') as [-> ->]. split; [reflexivity|]. now apply Z.
  - destruct (utf8_starts _ _ _ _ U' U) as [-> ->]. split; [reflexivity|]. symmetry. now apply Z.
Qed.
Lemma convertible_at f e c r : convertible f e c r -> exists b s, escaped_at e b s.
Proof. intros (_ & bs & U & E). inversion E; subst; [destruct (utf8_some _ _ U eq_refl)|eauto]. Qed.
Lemma keep_at h l rest b b' r' : escaped_at (percent :: h :: l :: rest) b rest -> escaped_at (percent :: h :: l :: rest) b' r' -> r' = rest.
Proof. intros A B. now destruct (escaped_at_fun _ _ _ _ _ A B). Qed.
Lemma from_uri_fun f e u k : from_uri f e u k -> forall u' k', from_uri f e u' k' -> u = u' /\ k = k'.
Proof.
  induction 1 as [|c e u k N _ IH|e c rest u k V _ IH|h l rest b u k E N _ IH]; intros u' k' X.
  - inversion X as [| |e0 c0 r0 u0 k0 V0 X0|]; subst; [now split|]. destruct (convertible_at _ _ _ _ V0) as (b & s & h & l & x & y & E & _). discriminate E.
  - inversion X as [|c0 e0 u0 k0 N0 X0|e0 c0 r0 u0 k0 V0 X0|h0 l0 r0 b0 u0 k0 E0 N0 X0]; subst.
    + destruct (IH _ _ X0) as [-> ->]. now split.
    + destruct (convertible_at _ _ _ _ V0) as (b & s & E). destruct (N _ _ E).
    + destruct (N _ _ E0).
  - inversion X as [|c0 e0 u0 k0 N0 X0|e0 c0 r0 u0 k0 V0 X0|h0 l0 r0 b0 u0 k0 E0 N0 X0]; subst.
    + destruct (convertible_at _ _ _ _ V) as (b & s & h & l & x & y & E & _). discriminate E.
    + destruct (convertible_at _ _ _ _ V) as (b & s & E). destruct (N0 _ _ E).
    + destruct (convertible_fun _ _ _ _ _ _ V V0) as [<- <-]. destruct (IH _ _ X0) as [-> ->]. now split.
    + destruct (N0 _ _ V).
  - inversion X as [|c0 e0 u0 k0 N0 X0|e0 c0 r0 u0 k0 V0 X0|h0 l0 r0 b0 u0 k0 E0 N0 X0]; subst.
    + destruct (N0 _ _ E).
    + destruct (N _ _ V0).
    + destruct (IH _ _ X0) as [-> ->]. now split.
Qed.

(* --- and there is one --- *)
Lemma in_ranges_dec l c : in_ranges l c \/ ~ in_ranges l c.
Proof.
  induction l as [|(a, b) l [IH|IH]].
  - right. intros (a & b & [] & _).
  - left. destruct IH as (x & y & I & H). exists x, y. split; [now right|exact H].
  - destruct (N.le_gt_cases a c) as [A|A]; [destruct (N.le_gt_cases c b) as [B|B]|].
    + left. exists a, b. split; [now left|now split].
    + right. intros (x & y & [I|I] & H); [injection I as <- <-; lia|]. apply IH. now exists x, y.
    + right. intros (x & y & [I|I] & H); [injection I as <- <-; lia|]. apply IH. now exists x, y.
Qed.
Lemma unres_iff a : L unreserved [a] <-> b_unres a = true.
Proof.
  assert (X : PegLang.same_cls unreserved b_unres = true) by (vm_compute; reflexivity). rewrite (PegLang.L_cls _ _ X). split.
  - intros (c & E & H). injection E as ->. exact H.
  - intros H. now exists a.
Qed.
Lemma shown_dec f c : shown f c \/ ~ shown f c.
Proof.
  destruct (in_ranges_dec [(0xA0, 0xD7FF); (0xF900, 0xFDCF); (0xFDF0, 0xFFEF); (0x10000, 0x1FFFD); (0x20000, 0x2FFFD); (0x30000, 0x3FFFD); (0x40000, 0x4FFFD);
             (0x50000, 0x5FFFD); (0x60000, 0x6FFFD); (0x70000, 0x7FFFD); (0x80000, 0x8FFFD); (0x90000, 0x9FFFD); (0xA0000, 0xAFFFD);
             (0xB0000, 0xBFFFD); (0xC0000, 0xCFFFD); (0xD0000, 0xDFFFD); (0xE1000, 0xEFFFD)]%N c) as [U|U]; [left; right; left; exact U|].
  assert (A : (exists a, code a = c /\ L unreserved [a]) \/ ~ (exists a, code a = c /\ L unreserved [a])).
  { destruct (N.lt_ge_cases c 256) as [Lo|Hi].
    - destruct (b_unres (chr c)) eqn:B; [left; exists (chr c); split; [now apply code_chr|now apply unres_iff]|right; intros (a & <- & H)].
      rewrite chr_code in B. apply unres_iff in H. congruence.
    - right. intros (a & <- & _). pose proof (code_lt a). lia. }
  destruct A as [A|A]; [left; left; exact A|].
  destruct (in_ranges_dec [(0xE000, 0xF8FF); (0xF0000, 0xFFFFD); (0x100000, 0x10FFFD)]%N c) as [P|P].
  - destruct f; try (right; intros [X|[X|[X _]]]; [contradiction|contradiction|discriminate X]). left. right. right. now split.
  - right. intros [X|[X|[_ X]]]; contradiction.
Qed.
Lemma utf8_dec s : (exists c, utf8_of c (map code s)) \/ ~ (exists c, utf8_of c (map code s)).
Proof.
  destruct (transcode_8_32_total (map code s) (codes_small s)) as (out & ok & E). apply transcode_8_32 in E; [|apply codes_small].
  assert (W : forall c, utf8_of c (map code s) -> out = [c] /\ ok = true).
  { intros c U. assert (R : reads8 (map code s) [c] true). { rewrite <- (app_nil_r (map code s)). apply r8_good; [exact U|constructor]. }
    destruct (reads8_fun _ _ _ _ _ (codes_small _) R E) as [<- <-]. now split. }
  destruct ok; [|right; intros (c & U); destruct (W c U); discriminate].
  destruct out as [|c [|d out]]; [right; intros (c & U); destruct (W c U); discriminate| |right; intros (c' & U); destruct (W c' U); discriminate].
  left. exists c. apply reads8_true in E. remember (map code s) as bs eqn:Hb. clear Hb W. inversion E as [|c' w cs us U T Ec Eu]. subst. inversion T. subst. rewrite app_nil_r. exact U.
Qed.
Lemma escapes_dec n : forall e, (exists bs r, length bs = n /\ escapes e bs r) \/ ~ (exists bs r, length bs = n /\ escapes e bs r).
Proof.
  induction n as [|n IH]; intros e.
  - left. exists [], e. split; [reflexivity|constructor].
  - destruct (esc e) eqn:B.
    + apply esc_iff in B as (b & r & E). destruct (IH r) as [(bs & r' & Ln & X)|X].
      * left. exists (b :: bs), r'. split; [cbn; now rewrite Ln|]. econstructor; eassumption.
      * right. intros (bs & r' & Ln & Y). inversion Y as [|e0 b' s ds r0 E' Y']; subst; [discriminate Ln|].
        destruct (escaped_at_fun _ _ _ _ _ E E') as [<- <-]. apply X. exists ds, r'. split; [now injection Ln|exact Y'].
    + right. intros (bs & r' & Ln & Y). inversion Y as [|e0 b' s ds r0 E' Y']; subst; [discriminate Ln|].
      assert (K : esc e = true) by (apply esc_iff; eauto). congruence.
Qed.
Lemma convertible_dec f e : (exists c r, convertible f e c r) \/ (forall c r, ~ convertible f e c r).
Proof.
  assert (X : forall n, (exists c bs r, length bs < n /\ shown f c /\ utf8_of c (map code bs) /\ escapes e bs r) \/ ~ (exists c bs r, length bs < n /\ shown f c /\ utf8_of c (map code bs) /\ escapes e bs r)).
  { induction n as [|n [IH|IH]]; [right; intros (c & bs & r & Ln & _); lia| |].
    - left. destruct IH as (c & bs & r & Ln & H). exists c, bs, r. split; [lia|exact H].
    - assert (N : ~ (exists c bs r, length bs = n /\ shown f c /\ utf8_of c (map code bs) /\ escapes e bs r) -> ~ (exists c bs r, length bs < S n /\ shown f c /\ utf8_of c (map code bs) /\ escapes e bs r)).
      { intros K (c & bs & r & Ln & H). destruct (Nat.eq_dec (length bs) n) as [Q|Q]; [apply K|apply IH]; exists c, bs, r; (split; [lia|exact H]). }
      destruct (escapes_dec n e) as [(bs & r & Ln & E)|Q]; [|right; apply N; intros (c & bs & r & Ln & _ & _ & E); apply Q; now exists bs, r].
      assert (One : forall bs' r', length bs' = n -> escapes e bs' r' -> bs' = bs).
      { intros bs' r' Ln' E'. destruct (escapes_compare _ _ _ E _ _ E') as [(d & -> & _)|(d & -> & _)]; rewrite app_length in *; destruct d; cbn [length] in *; try lia; now rewrite app_nil_r. }
      destruct (utf8_dec bs) as [(c & U)|Q]; [|right; apply N; intros (c & bs' & r' & Ln' & _ & U & E'); rewrite (One _ _ Ln' E') in U; apply Q; now exists c].
      destruct (shown_dec f c) as [Sh|Q]; [left; exists c, bs, r; split; [lia|now split]|].
      right. apply N. intros (c' & bs' & r' & Ln' & Sh & U' & E'). rewrite (One _ _ Ln' E') in U'. apply Q. destruct (utf8_starts c bs c' [] U) as [-> _]; [now rewrite app_nil_r|exact Sh]. }
  destruct (X 5) as [(c & bs & r & _ & Sh & U & E)|Q]; [left; exists c, r; split; [exact Sh|now exists bs]|].
  right. intros c r (Sh & bs & U & E). apply Q. exists c, bs, r. split; [|now split]. apply utf8_short in U. rewrite map_length in U. lia.
Qed.
Lemma escapes_shrink e bs r : escapes e bs r -> length r <= length e.
Proof. induction 1 as [e|e b s bs r (h & l & x & y & -> & _) _ IH]; [lia|]. cbn [length]. lia. Qed.
Lemma from_uri_total f : forall n e, length e <= n -> exists u k, from_uri f e u k.
Proof.
  induction n as [|n IH]; intros e Ln.
  - destruct e; [|cbn in Ln; lia]. exists [], 0. constructor.
  - destruct e as [|c e]; [exists [], 0; constructor|]. cbn [length] in Ln.
    destruct (esc (c :: e)) eqn:B.
    + apply esc_iff in B as (b & r & E). destruct (convertible_dec f (c :: e)) as [(d & r' & V)|V].
      * destruct V as (Sh & bs & U & X). assert (Lr : length r' <= n).
        { inversion X as [|e0 b' s ds r0 E' X']; subst; [destruct (utf8_some _ _ U eq_refl)|]. apply escapes_shrink in X'. destruct E' as (h & l & x & y & E' & _). injection E' as _ E'. apply (f_equal (@length _)) in E'. cbn [length] in E'. lia. }
        destruct (IH r' Lr) as (u & k & F). exists (d :: u), k. apply fu_convert with (rest := r'); [|exact F]. split; [exact Sh|now exists bs].
      * pose proof E as (h & l & x & y & E' & _). injection E' as -> E'. subst e. cbn [length] in Ln. destruct (IH r ltac:(lia)) as (u & k & F). eexists _, _. eapply fu_keep; eassumption.
    + destruct (IH e ltac:(lia)) as (u & k & F). eexists _, _. apply fu_char; [|exact F]. intros b r E. assert (K : esc (c :: e) = true) by (apply esc_iff; eauto). congruence.
Qed.

(* --- what comes out is a component of an IRI --- *)
Definition pieces (fb : ascii -> bool) (e : str) : Prop := exists l, e = List.concat l /\ Forall (elemL fb) l.
Lemma pieces_at fb e b r : fb percent = false -> pieces fb e -> escaped_at e b r ->
  pieces fb r /\ exists h l, e = percent :: h :: l :: r /\ b_hex h = true /\ b_hex l = true.
Proof.
  intros NP (ps & -> & F) (h & l & x & y & E & _). destruct ps as [|m ps]; [discriminate E|]. inversion F as [|? ? Hm F']; subst.
  destruct Hm as [(c & -> & Hc)|(h1 & h2 & -> & H1 & H2)]; cbn [List.concat app] in E.
  - injection E as -> _. change "%"%char with percent in Hc. congruence.
  - injection E as <- <- <-. split; [now exists ps|]. exists h1, h2. split; [reflexivity|now split].
Qed.
Lemma pieces_escapes fb e bs r : fb percent = false -> escapes e bs r -> pieces fb e -> pieces fb r.
Proof. intros NP H. induction H as [|e b r bs rest E _ IH]; intros P; [exact P|]. apply IH. eapply pieces_at; eassumption. Qed.
Lemma pieces_iri f fb e u k : fb percent = false -> PegLang.same_cls (plain_rule f) fb = true -> from_uri f e u k -> pieces fb e -> itext f u.
Proof.
  intros NP SC H. assert (PL : forall a, fb a = true -> ichar f (code a)).
  { intros a Ha. left. exists a. split; [reflexivity|]. apply (PegLang.L_cls _ _ SC). now exists a. }
  induction H as [|c e u k N _ IH|e c rest u k (Sh & bs & U & E) _ IH|h l rest b u k E N _ IH]; intros P.
  - constructor.
  - destruct P as (ps & E & F). destruct ps as [|m ps]; [discriminate E|]. inversion F as [|? ? Hm F']; subst.
    destruct Hm as [(a & -> & Ha)|(h1 & h2 & -> & H1 & H2)]; cbn [List.concat app] in E.
    + injection E as -> ->. apply it_char; [now apply PL|]. apply IH. now exists ps.
    + exfalso. assert (X : esc (percent :: h1 :: h2 :: List.concat ps) = true).
      { assert (Y : forall h, b_hex h = true -> ishex h = true). { intros h. refine (proj1 (Bool.implb_true_iff _ _) _). pose proof (Peg.sweep (fun h => implb (b_hex h) (ishex h))) as S. apply S. vm_compute. reflexivity. }
        cbn [esc]. now rewrite (Y _ H1), (Y _ H2). }
      apply esc_iff in X as (b & r & X). injection E as -> ->. exact (N _ _ X).
  - apply it_char; [|apply IH; eapply pieces_escapes; eassumption]. destruct Sh as [(a & <- & La)|Sh]; [left|right; exact Sh].
    exists a. split; [reflexivity|]. destruct f; cbn [plain_rule]; repeat first [exact La|left].
  - destruct (pieces_at _ _ _ _ NP P E) as (P' & h' & l' & Q & Hh & Hl). injection Q as <- <-.
    apply it_escape; [exists h; split; [reflexivity|apply L_hex; now exists h]|exists l; split; [reflexivity|apply L_hex; now exists l]|now apply IH].
Qed.
Definition uri_rule (f : field) : abnf := match f with Userinfo => userinfo | Segment => segment | Query => query | Fragment => fragment | _ => query end.
Definition rule_chars (f : field) : ascii -> bool := match f with Userinfo => f_u | Segment => f_p | _ => f_q end.
Lemma rule_pieces f e : texty f = true -> L (uri_rule f) e -> pieces (rule_chars f) e.
Proof.
  intros T H. assert (X : exists g, uri_rule f = Rep 0 None g /\ forall m, L g m <-> elemL (rule_chars f) m).
  { destruct f; try discriminate T; (eexists; split; [reflexivity|]); [apply (proj1 (proj2 e_uchar))|apply (proj1 (proj2 e_pchar))|apply (proj1 (proj2 e_qchar))|apply (proj1 (proj2 e_qchar))]. }
  destruct X as (g & Eg & X). rewrite Eg in H. destruct H as (ps & -> & F & _). exists ps. split; [reflexivity|]. eapply Forall_impl; [|exact F]. intros m Hm. now apply X.
Qed.
Lemma rule_iri f e u k : texty f = true -> L (uri_rule f) e -> from_uri f e u k -> itext f u.
Proof.
  intros T H X. eapply pieces_iri; [| |exact X|apply rule_pieces; [exact T|exact H]]; destruct f; try discriminate T; vm_compute; reflexivity.
Qed.
Lemma rule_ascii f e : texty f = true -> L (uri_rule f) e -> Forall (fun c => (code c < 0x80)%N) e.
Proof.
  intros T H. apply uses in H. eapply Forall_impl; [|exact H]. intros c Hc.
  pose proof (Peg.sweep (fun c => implb (may_use (uri_rule f) c) (code c <? 0x80)%N)) as S. specialize (S ltac:(destruct f; try discriminate T; vm_compute; reflexivity) c).
  cbv beta in S, Hc. rewrite Hc in S. now apply N.ltb_lt.
Qed.

(* --- there and back --- *)
Lemma escapes_map bs rest : escapes (flat_map escape bs ++ rest) bs rest.
Proof. induction bs as [|b bs IH]; [constructor|]. cbn [flat_map]. rewrite <- app_assoc. econstructor; [apply escape_escaped|exact IH]. Qed.
Lemma back f u e : rfc3987_uri u e -> itext f u -> ~ In (code percent) u -> from_uri f e u 0.
Proof.
  intros H. induction H as [|a u e La Na _ IH|a u e La [] _ IH|c bs u e Hc U _ IH]; intros I NP.
  - constructor.
  - inversion I as [|c v _ I'|h l v _ _ _ E]; [|exfalso; apply NP; left; change (code percent) with 37%N; congruence]. subst. apply fu_char; [|apply IH; [exact I'|intros X; apply NP; now right]].
    intros b r (h & l & x & y & E & _). injection E as -> _. apply NP. now left.
  - inversion I as [|d v Ic I'|h l v _ _ _ E]; [|exfalso; apply NP; left; change (code percent) with 37%N; congruence]. subst.
    apply fu_convert with (rest := e); [|apply IH; [exact I'|intros X; apply NP; now right]]. split; [|exists bs; split; [exact U|apply escapes_map]].
    destruct Ic as [(a & <- & La)|Ic]; [|right; exact Ic]. exfalso. apply plain_bool in La. 
    pose proof (Peg.sweep (fun c => implb (plainb f c) (code c <? 0x80)%N)) as S. specialize (S ltac:(destruct f; vm_compute; reflexivity) a). cbv beta in S. rewrite La in S. apply N.ltb_lt in S. lia.
Qed.
