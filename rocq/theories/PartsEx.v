(* Concrete cases for the theorems of PropParts. *)
From Verif Require Import Base ModelUri ModelParts SpecPct SpecPuny SpecIcu SpecStore SpecViews SpecUri.
From Verif Require Import PartsHost PartsDec PartsProps.
From Verif Require ModelPuny PropSplitFacts.
Local Open Scope list_scope.

Definition ok_view (f : field) (v : view) : bool :=
  match v with InStore _ _ _ => false | Null => true | Caller s => match f with Host => (N.of_nat (length s) <? 2 ^ 32)%N | _ => true end end.
Definition ok_opt (f : field) (o : option view) : bool := match o with None => true | Some v => ok_view f v end.
Definition ok_parts (p : vparts) : bool :=
  ok_opt Scheme (v_scheme p) && forallb (ok_view Segment) (v_segments p)
  && match v_authority p with None => true | Some a => ok_opt Userinfo (v_userinfo a) && ok_view Host (v_host a) && ok_opt Port (v_port a) end
  && ok_opt Query (v_query p) && ok_opt Fragment (v_fragment p) && (N.of_nat (length (v_segments p)) <? 2 ^ 32 - 6)%N.
Lemma ok_parts_all (P : field -> view -> Prop) p : (forall f v, ok_view f v = true -> P f v) -> ok_parts p = true -> views_all P p.
Proof.
  intros H E. unfold ok_parts in E. rewrite !andb_true_iff in E. destruct E as [[[[[E1 E2] E3] E4] E5] _].
  assert (O : forall f o, ok_opt f o = true -> opt_rel2 (fun v _ : view => P f v) o o) by (intros f [v|] X; constructor; apply H; exact X).
  unfold views_all, views_rel. split; [apply O; exact E1|]. split; [|split; [reflexivity|split; [|split; apply O; assumption]]].
  - destruct (v_authority p) as [a|]; constructor. rewrite !andb_true_iff in E3. destruct E3 as [[A B] C]. split; [apply O; exact A|]. split; [apply H; exact B|apply O; exact C].
  - rewrite forallb_forall in E2. assert (X : forall v, In v (v_segments p) -> P Segment v) by (intros v Hv; apply H, E2, Hv). clear - X. induction (v_segments p); constructor; [apply X; left; reflexivity|]. apply IHl. intros v Hv. apply X. right. exact Hv.
Qed.
Lemma ok_proper p : ok_parts p = true -> proper p.
Proof.
  intros E. split; [|split].
  - apply ok_parts_all; [|exact E]. intros f [|s|] X; cbn in *; auto. discriminate.
  - unfold ok_parts in E. apply andb_true_iff in E as [_ E]. apply N.ltb_lt. exact E.
  - apply ok_parts_all; [|exact E]. intros f [|s|] X; destruct f; cbn [ok_view] in X |- *; auto. apply N.ltb_lt. exact X.
Qed.
Definition many_segments : vparts :=
  mkvparts (Some (Caller (ss "http"))) (Some (mkvauth (Some Null) (Caller [chr 0xC3; chr 0xBC; "."%char; "a"%char]) (Some (Caller (ss "80")))))
    true (Null :: Caller [] :: repeat (Caller (ss "a b")) 31) (Some (Caller (ss "q"))) None.
Lemma c25_ex : proper many_segments
  /\ match parts_encode (fun n => n) (Vec 0 7 (ss "old")) many_segments with
     | Ok (st, q) => vc_alloc st = 1 /\ length (vc_data st) = 31 * 5 + 9
         /\ firstn 5 (v_segments q) = [Null; Caller []; InStore 1 0 5; InStore 1 5 5; InStore 1 10 5]
         /\ v_scheme q = Some (Caller (ss "http")) /\ option_map v_host (v_authority q) = Some (InStore 1 155 9)
         /\ read st (InStore 1 155 9) = Ok (ss "xn--tda.a")
     | _ => False
     end.
Proof. split; [apply ok_proper; vm_compute; reflexivity|]. vm_compute. repeat split. Qed.
Lemma c25_same_store : exists p st q, proper p /\ parts_encode (fun n => n) (Vec 0 0 []) p = Ok (st, q)
  /\ parts_decode (fun n => n) st q = Fault dangling_view /\ parts_encode (fun n => n) st q = Fault dangling_view.
Proof.
  exists (mkvparts None None false [Caller (ss " ")] None None), (Vec 1 6 (ss "%20")), (mkvparts None None false [InStore 1 0 3] None None).
  split; [apply ok_proper; vm_compute; reflexivity|]. vm_compute. repeat split.
Qed.
Definition with_host (h : str) : vparts := mkvparts None (Some (mkvauth None (Caller h) None)) false [] None None.
Lemma one_label s : ~ In dot s -> labels dot s [s].
Proof. intros H. exists s, []. repeat split. constructor; [exact H|constructor]. Qed.
Ltac no_in := cbn; intros H; repeat (destruct H as [H|H]; [discriminate H|]); destruct H.
Lemma c26_host :
  (exists st, parts_decode (fun n => n) (Vec 0 0 []) (with_host (ss "xn--")) = Ok (st, inl (with_host (ss "xn--"))) /\ host_decoded (ss "xn--") [])
  /\ (exists st, parts_decode (fun n => n) (Vec 0 0 []) (with_host (ss "XN--bcher-kva")) = Ok (st, inl (with_host (ss "XN--bcher-kva")))).
Proof.
  split; [|eexists; vm_compute; reflexivity]. eexists. split; [vm_compute; reflexivity|].
  exists [ss "xn--"], [[]]. split; [apply one_label; no_in|]. split; [|exists [], []; auto]. apply Forall2_cons; [|apply Forall2_nil]. right.
  exists [], [], [], true. split; [reflexivity|]. split; [|split; constructor]. apply decode_puny_text; [vm_compute; reflexivity|vm_compute; reflexivity].
Qed.
Lemma bad_host : host_undecodable (ss "a.xn--!").
Proof.
  exists [ss "a"; ss "xn--!"], (ss "xn--!"). split.
  { exists (ss "a"), [ss "xn--!"]. split; [reflexivity|]. split; [reflexivity|]. apply Forall_cons; [no_in|apply Forall_cons; [no_in|apply Forall_nil]]. }
  split; [right; left; reflexivity|]. split; [exists (ss "!"); reflexivity|]. intros u H. apply decode_puny_text in H; [|vm_compute; reflexivity]. vm_compute in H. discriminate H.
Qed.
Lemma c26_ex : let p := mkvparts (Some (Caller (ss "http"))) (Some (mkvauth (Some (Caller (ss "u%3A"))) (Caller (ss "www.xn--bcher-kva.x")) None))
      true [Caller (ss "a%20b"); Caller (ss "c")] None (Some (Caller (ss "%41"))) in
  proper p /\ parts_decode (fun n => n) (Vec 3 1 []) p
    = Ok (Vec 4 38 (ss "a bu:www.b" ++ [chr 0xC3; chr 0xBC] ++ ss "cher.xA"),
          inl (mkvparts (Some (Caller (ss "http"))) (Some (mkvauth (Some (InStore 4 3 2)) (InStore 4 5 13) None))
                 true [InStore 4 0 3; Caller (ss "c")] None (Some (InStore 4 18 1))))
  /\ undecodable (with_host (ss "a.xn--!"))
  /\ parts_decode (fun n => n) (Vec 0 9 (ss "x")) (with_host (ss "a.xn--!")) = Ok (Vec 0 9 [], inr ModelPuny.bad_input).
Proof.
  intros p. split; [apply ok_proper; vm_compute; reflexivity|]. split; [vm_compute; reflexivity|]. split; [|vm_compute; reflexivity].
  exists (mkvauth None (Caller (ss "a.xn--!")) None), (ss "a.xn--!"). split; [reflexivity|]. split; [reflexivity|exact bad_host].
Qed.
Lemma c24_ex : let p := mkvparts (Some (Caller (ss "http"))) (Some (mkvauth (Some (Caller (ss "u:p"))) (Caller (ss "a.b")) (Some (Caller (ss "80")))))
      true [Caller (ss "%41"); Null; Caller []] None (Some (Caller (ss "f"))) in
  let pc := mkparts (Some (ss "http")) (Some (mkauth (Some (ss "u:p")) (ss "a.b") (Some (ss "80")))) (mkpath true [ss "%41"; []; []]) None (Some (ss "f")) in
  proper p /\ shows (Vec 0 0 []) p pc /\ parts_fit 100 pc /\ parts_valid true 100 pc = Ok true /\ no_xn pc /\ parts_all returns pc.
Proof.
  intros p pc. split; [apply ok_proper; vm_compute; reflexivity|]. split; [unfold shows; cbn; repeat constructor|].
  assert (F : parts_fit 100 pc). { unfold parts_fit, opt_fits, fits; cbn; repeat constructor. }
  assert (V : parts_valid true 100 pc = Ok true) by (vm_compute; reflexivity).
  assert (X : no_xn pc).
  { intros a ls l [= <-] HL Hl (r & ->). assert (G : labels dot (ss "a.b") [ss "a"; ss "b"]).
    { exists (ss "a"), [ss "b"]. split; [reflexivity|]. split; [reflexivity|]. apply Forall_cons; [no_in|apply Forall_cons; [no_in|apply Forall_nil]]. }
    rewrite (labels_fun _ _ _ _ HL G) in Hl. destruct Hl as [E|[E|[]]]; discriminate E. }
  split; [exact F|]. split; [exact V|]. split; [exact X|]. apply valid_returns; [|exact X]. apply (PropSplitFacts.valid_spec true 100 pc F). exact V.
Qed.
Lemma c24_ex_utf8 : returns Host [chr 0xC3; chr 0xBC; "."%char; "a"%char].
Proof.
  split.
  - exists [0xFC; 0x2E; 0x61]%N. change (map code [chr 0xC3; chr 0xBC; "."%char; "a"%char]) with ([0xC0 + 0xFC / 2 ^ 6; 0x80 + 0xFC mod 2 ^ 6] ++ [0x2E] ++ [0x61] ++ [])%N.
    constructor; [apply utf8_2; [discriminate|reflexivity]|]. constructor; [apply utf8_1; reflexivity|]. constructor; [apply utf8_1; reflexivity|constructor].
  - intros ls l HL Hl _ (r & ->). assert (G : labels dot [chr 0xC3; chr 0xBC; "."%char; "a"%char] [[chr 0xC3; chr 0xBC]; ["a"%char]]).
    { exists [chr 0xC3; chr 0xBC], [["a"%char]]. split; [reflexivity|]. split; [reflexivity|]. apply Forall_cons; [no_in|apply Forall_cons; [no_in|apply Forall_nil]]. }
    rewrite (labels_fun _ _ _ _ HL G) in Hl. destruct Hl as [E|[E|[]]]; discriminate E.
Qed.
Lemma c24_excluded :
  (exists st st' q, parts_encode (fun n => n) (Vec 0 0 []) (with_host (ss "xn--bcher-kva")) = Ok (st, with_host (ss "xn--bcher-kva"))
     /\ parts_decode (fun n => n) (Vec 0 0 []) (with_host (ss "xn--bcher-kva")) = Ok (st', inl q)
     /\ ~ shows st' q (mkparts None (Some (mkauth None (ss "xn--bcher-kva") None)) (mkpath false []) None None))
  /\ (exists st st' q, let p := mkvparts (Some (Caller (ss "%41"))) None false [] None None in
     parts_encode (fun n => n) (Vec 0 0 []) p = Ok (st, p)
     /\ parts_decode (fun n => n) (Vec 0 0 []) p = Ok (st', inl q)
     /\ ~ shows st' q (mkparts (Some (ss "%41")) None (mkpath false []) None None)).
Proof.
  split.
  - eexists _, _, _. split; [vm_compute; reflexivity|]. split; [vm_compute; reflexivity|]. intros (_ & H & _). cbn in H. inversion H as [|a b (_ & K & _)]; subst. cbn in K. discriminate K.
  - eexists _, _, _. cbv zeta. split; [vm_compute; reflexivity|]. split; [vm_compute; reflexivity|]. intros (H & _). cbn in H. inversion H as [|a b K]; subst. cbn in K. discriminate K.
Qed.
Lemma c24_invalid : exists p st pc, proper p /\ parts_encode (fun n => n) (Vec 0 0 []) p = Ok (st, p)
  /\ shows st p pc /\ parts_valid true 100 pc = Ok false.
Proof.
  exists (mkvparts (Some (Caller (ss "a"))) None true [Caller (ss "[")] None None), (Vec 0 0 []), (mkparts (Some (ss "a")) None (mkpath true [ss "["]) None None).
  split; [apply ok_proper; vm_compute; reflexivity|]. split; [vm_compute; reflexivity|]. split; [unfold shows; cbn; repeat constructor|vm_compute; reflexivity].
Qed.
