From Verif Require Import Base ModelUri ModelStream.
Local Open Scope list_scope.

Definition inserts (l : list str) (os : stream) : stream := fold_left (fun os s => insert s os) l os.
Lemma inserts_app a b os : inserts (a ++ b) os = inserts b (inserts a os).
Proof. apply fold_left_app. Qed.
Definition opt_pieces (f : str -> list str) (o : option str) : list str := match o with None => [] | Some s => f s end.
Definition auth_pieces (a : authority) : list str :=
  opt_pieces (fun u => [u; ss "@"]) (userinfo a) ++ match host a with [] => [] | h => [h] end
  ++ opt_pieces (fun p => ss ":" :: match p with [] => [] | _ => [p] end) (port a).
Definition pieces (p : parts) : list str :=
  opt_pieces (fun s => [s; ss ":"]) (p_scheme p)
  ++ match p_authority p with
     | Some a => ss "//" :: auth_pieces a ++ if negb (path_is_empty (p_path p)) && negb (absolute (p_path p)) then [ss "/"] else []
     | None => []
     end
  ++ [path_string (p_path p)] ++ opt_pieces (fun q => [ss "?"; q]) (p_query p) ++ opt_pieces (fun f => [ss "#"; f]) (p_fragment p).
Lemma inserts_nil os : inserts [] os = os. Proof. reflexivity. Qed.
Lemma inserts_cons x l os : inserts (x :: l) os = inserts l (insert x os). Proof. reflexivity. Qed.
Lemma auth_inserts a os : insert_authority a os = inserts (auth_pieces a) os.
Proof.
  unfold insert_authority, auth_pieces. cbv zeta. rewrite !inserts_app.
  destruct (userinfo a) as [u|], (host a) as [|c h], (port a) as [[|d q]|]; cbn [opt_pieces];
    rewrite ?inserts_cons, ?inserts_nil; reflexivity.
Qed.
Lemma opt_insert (f : str -> list str) o os :
  inserts (opt_pieces f o) os = match o with Some s => inserts (f s) os | None => os end.
Proof. destruct o; reflexivity. Qed.
Lemma parts_inserts p os : insert_parts p os = inserts (pieces p) os.
Proof.
  unfold insert_parts, pieces. rewrite !inserts_app, !opt_insert.
  set (o1 := match p_scheme p with Some s => insert (ss ":") (insert s os) | None => os end).
  change (match p_scheme p with Some s => inserts [s; ss ":"] os | None => os end) with o1. clearbody o1. cbv zeta.
  set (o2 := match p_authority p with Some a => _ | None => o1 end).
  assert (E : inserts match p_authority p with
     | Some a => ss "//" :: auth_pieces a ++ if negb (path_is_empty (p_path p)) && negb (absolute (p_path p)) then [ss "/"] else []
     | None => [] end o1 = o2).
  { unfold o2. destruct (p_authority p); [|reflexivity]. rewrite inserts_cons, inserts_app, <- auth_inserts.
    destruct (_ && _)%bool; rewrite ?inserts_cons, inserts_nil; reflexivity. }
  rewrite E. clearbody o2. clear E. rewrite inserts_cons, inserts_nil.
  unfold insert_path. set (o3 := insert (path_string (p_path p)) o2). clearbody o3.
  destruct (p_query p) as [q|]; rewrite ?inserts_cons, ?inserts_nil; [set (o4 := insert q _); clearbody o4|];
    destruct (p_fragment p) as [g|]; rewrite ?inserts_cons, ?inserts_nil; reflexivity.
Qed.
Lemma auth_concat a : List.concat (auth_pieces a) = authority_string a.
Proof.
  unfold auth_pieces, authority_string. rewrite !concat_app. f_equal; [|f_equal].
  - destruct (userinfo a); cbn; now rewrite ?app_nil_r.
  - destruct (host a); cbn; now rewrite ?app_nil_r.
  - destruct (port a) as [[|]|]; cbn; now rewrite ?app_nil_r.
Qed.
Lemma pieces_concat p : List.concat (pieces p) = compose p.
Proof.
  unfold pieces, compose. rewrite !concat_app. f_equal; [|f_equal; [|f_equal; [|f_equal]]].
  - destruct (p_scheme p); cbn; now rewrite ?app_nil_r.
  - destruct (p_authority p) as [a|]; [|reflexivity]. cbn [List.concat]. rewrite concat_app, auth_concat.
    destruct (_ && _)%bool; cbn; now rewrite ?app_nil_r.
  - cbn. now rewrite app_nil_r.
  - destruct (p_query p); cbn; now rewrite ?app_nil_r.
  - destruct (p_fragment p); cbn; now rewrite ?app_nil_r.
Qed.
Lemma pieces_nonempty p : exists x l, pieces p = x :: l.
Proof.
  unfold pieces. destruct (p_scheme p); cbn; eauto. destruct (p_authority p); cbn; eauto.
Qed.
Lemma bad_inserts l os : good os = false -> inserts l os = os.
Proof. revert os. induction l as [|x l IH]; intros os H; [reflexivity|]. cbn. unfold insert. rewrite H. now apply IH. Qed.
Lemma padded_zero f b s : padded 0 f b s = s.
Proof. unfold padded. cbn. destruct b; now rewrite ?app_nil_r. Qed.
Definition after (r : option nat) (s : str) : option nat := option_map (fun n => n - length s) r.
Definition enough (r : option nat) (s : str) : bool := match r with None => true | Some n => Nat.leb (length s) n end.
Lemma plain_inserts l : forall os, good os = true -> width os = 0 ->
  out (inserts l os) = out os ++ accepted (room os) (List.concat l)
  /\ good (inserts l os) = enough (room os) (List.concat l) /\ width (inserts l os) = 0.
Proof.
  induction l as [|x l IH]; intros os G W; cbn [List.concat inserts fold_left].
  - destruct (room os) as [n|]; cbn; rewrite ?firstn_nil, app_nil_r, G; auto.
  - fold (inserts l (insert x os)). unfold insert. rewrite G, W, padded_zero.
    destruct (room os) as [n|] eqn:R; cbn [accepted enough option_map].
    + destruct (Nat.leb_spec (length x) n) as [L|L].
      * destruct (IH (mkstream (out os ++ firstn n x) (Some (n - length x)) 0 (fill os) (left os) true) eq_refl eq_refl) as (E1 & E2 & E3).
        cbn [out room accepted enough] in *. rewrite E1, E2, E3. rewrite app_length, firstn_app, (firstn_all2 x) by lia. rewrite app_assoc.
        split; [reflexivity|]. split; [|reflexivity].
        destruct (Nat.leb_spec (length (List.concat l)) (n - length x)), (Nat.leb_spec (length x + length (List.concat l)) n); auto; lia.
      * rewrite bad_inserts by reflexivity. cbn [out good width]. rewrite app_length, firstn_app.
        replace (n - length x) with 0 by lia. rewrite app_nil_r. split; [reflexivity|]. split; [|reflexivity].
        destruct (Nat.leb_spec (length x + length (List.concat l)) n); auto; lia.
    + destruct (IH (mkstream (out os ++ x) None 0 (fill os) (left os) true) eq_refl eq_refl) as (E1 & E2 & E3).
      cbn [out room accepted enough] in *. rewrite E1, E2, E3, app_assoc. auto.
Qed.
(* with a width the first piece is padded, nothing else *)
Lemma padded_inserts x l os : good os = true ->
  let t := padded (width os) (fill os) (left os) x ++ List.concat l in
  out (inserts (x :: l) os) = out os ++ accepted (room os) t /\ good (inserts (x :: l) os) = enough (room os) t
  /\ width (inserts (x :: l) os) = 0.
Proof.
  intros G. set (y := padded (width os) (fill os) (left os) x).
  pose (os' := mkstream (out os) (room os) 0 (fill os) (left os) true).
  assert (E : insert x os = insert y os').
  { unfold insert. rewrite G. cbn [good width fill left out room os']. rewrite padded_zero. reflexivity. }
  cbn [inserts fold_left]. fold (inserts l (insert x os)). rewrite E.
  exact (plain_inserts (y :: l) os' eq_refl eq_refl).
Qed.

Lemma compose_streams p : compose_stream p = compose p.
Proof.
  unfold compose_stream. rewrite parts_inserts, (proj1 (plain_inserts _ fresh eq_refl eq_refl)), pieces_concat. reflexivity.
Qed.
Lemma insert_parts_plain p os : good os = true -> width os = 0 ->
  out (insert_parts p os) = out os ++ accepted (room os) (compose p)
  /\ good (insert_parts p os) = enough (room os) (compose p) /\ width (insert_parts p os) = 0.
Proof. intros G W. rewrite parts_inserts, <- pieces_concat. now apply plain_inserts. Qed.
Lemma insert_authority_plain a os : good os = true -> width os = 0 ->
  out (insert_authority a os) = out os ++ accepted (room os) (authority_string a)
  /\ good (insert_authority a os) = enough (room os) (authority_string a) /\ width (insert_authority a os) = 0.
Proof. intros G W. rewrite auth_inserts, <- auth_concat. now apply plain_inserts. Qed.
Definition first_piece (p : parts) : str :=
  match p_scheme p, p_authority p with Some s, _ => s | None, Some _ => ss "//" | None, None => path_string (p_path p) end.
Lemma insert_parts_width p os : good os = true ->
  exists rest, compose p = first_piece p ++ rest /\
    let t := padded (width os) (fill os) (left os) (first_piece p) ++ rest in
    out (insert_parts p os) = out os ++ accepted (room os) t /\ good (insert_parts p os) = enough (room os) t
    /\ width (insert_parts p os) = 0.
Proof.
  intros G. rewrite parts_inserts.
  assert (E : exists l, pieces p = first_piece p :: l).
  { unfold pieces, first_piece. destruct (p_scheme p); cbn; eauto. destruct (p_authority p); cbn; eauto. }
  destruct E as [l E]. exists (List.concat l). rewrite <- pieces_concat, E. split; [reflexivity|]. now apply padded_inserts.
Qed.
Lemma bad_parts p os : good os = false -> insert_parts p os = os.
Proof. intros G. rewrite parts_inserts. now apply bad_inserts. Qed.
