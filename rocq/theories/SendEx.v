(* Concrete cases for PropSend. *)
From Verif Require Import Base ModelUri ModelParts Rfc3986 SpecHost SpecPct SpecIcu SpecStore SpecViews SpecUri SpecSend.
From Verif Require Import PartsHost PartsDec PartsProps PartsEx SendFacts.
From Verif Require UriLang UriHost UriProps PropSplitFacts PegUri.
Local Open Scope list_scope.

Definition e_acute : str := [chr 0xC3; chr 0xA9].
Definition to_send_host : str := [chr 0xC3; chr 0xBC; "."%char; "a"%char].
Definition to_send : parts :=
  mkparts (Some (ss "http")) (Some (mkauth (Some (ss "u:p@/?#%")) to_send_host (Some (ss "80"))))
    (mkpath true [ss "a b?"; ss "%41"; []; e_acute]) (Some (ss "x=y&#")) None.
Definition to_send_views : vparts :=
  mkvparts (Some (Caller (ss "http"))) (Some (mkvauth (Some (Caller (ss "u:p@/?#%"))) (Caller to_send_host) (Some (Caller (ss "80")))))
    true [Caller (ss "a b?"); Caller (ss "%41"); Null; Caller e_acute] (Some (Caller (ss "x=y&#"))) None.
Definition out_parts : parts :=
  mkparts (Some (ss "http")) (Some (mkauth (Some (ss "u%3Ap%40%2F%3F%23%25")) (ss "xn--tda.a") (Some (ss "80"))))
    (mkpath true [ss "a%20b%3F"; ss "%2541"; []; ss "%C3%A9"]) (Some (ss "x=y&%23")) None.
Lemma rep_digits s : Forall (fun c => (0x30 <= code c <= 0x39)%N) s -> L port s.
Proof.
  intros H. exists (map (fun c => [c]) s). split; [clear; induction s; cbn; congruence|]. split; [|split; [lia|exact I]].
  apply Forall_forall. intros x Hx. apply in_map_iff in Hx as (c & <- & Hc). rewrite Forall_forall in H. exists c. auto.
Qed.
Lemma http_scheme : L scheme (ss "http").
Proof.
  exists (ss "h"), (ss "ttp"). split; [reflexivity|]. split; [right; exists "h"%char; split; [reflexivity|vm_compute; split; discriminate]|].
  exists [ss "t"; ss "t"; ss "p"]. split; [reflexivity|]. split; [|split; [cbn; lia|exact I]].
  repeat (apply Forall_cons; [do 4 left; right; eexists; split; [reflexivity|vm_compute; split; discriminate]|]). apply Forall_nil.
Qed.
Ltac no_chars := intros c Hc Hd; cbn in Hc, Hd; repeat (destruct Hc as [<-|Hc]; [repeat (destruct Hd as [Hd|Hd]; [discriminate Hd|]); exact Hd|]); exact Hc.
Lemma no_ipv4 c s : c <> dot -> PegUri.b_digit c = false -> ~ exists p q, c :: s = p ++ q /\ L IPv4address p.
Proof.
  intros N D (p & q & E & H). destruct p as [|d p].
  - destruct H as (s1 & s2 & E1 & H1 & _). symmetry in E1. apply app_eq_nil in E1 as [-> _]. apply UriLang.L_octet in H1.
    destruct H1 as [(? & X & _)|[(? & ? & X & _)|(? & ? & ? & X & _)]]; discriminate X.
  - injection E as <- E. destruct (ipv4_chars _ c H (or_introl eq_refl)); congruence.
Qed.
Lemma to_send_sendable : parts_all sendable to_send.
Proof.
  assert (K : forall f s, f <> Host -> encodable f s -> sendable f s) by (intros f s Nf E; split; [exact E|intros; contradiction]).
  split; [apply (K Scheme); [discriminate|exact http_scheme]|]. split.
  - split; [apply (K Userinfo); [discriminate|exact I]|]. split.
    + split; [|intros _; exact c24_ex_utf8]. right. split; [|apply no_ipv4; [discriminate|reflexivity]].
      apply Forall_cons; [intros X; vm_compute in X; discriminate X|]. apply Forall_cons; [intros X; vm_compute in X; discriminate X|].
      apply Forall_cons; [intros _; apply regc_iff; reflexivity|]. apply Forall_cons; [intros _; apply regc_iff; reflexivity|]. apply Forall_nil.
    + apply (K Port); [discriminate|]. apply rep_digits. repeat (apply Forall_cons; [vm_compute; split; discriminate|]). apply Forall_nil.
  - split; [|split; [apply (K Query); [discriminate|no_chars]|exact I]].
    repeat (apply Forall_cons; [apply (K Segment); [discriminate|no_chars]|]). apply Forall_nil.
Qed.
Definition sent := Eval vm_compute in parts_encode (fun n => n) (Vec 0 0 []) to_send_views.
Lemma sent_eq : parts_encode (fun n => n) (Vec 0 0 []) to_send_views = sent.
Proof. vm_compute. reflexivity. Qed.
Lemma c43_ex : proper to_send_views /\ shows (Vec 0 0 []) to_send_views to_send /\ parts_all sendable to_send
  /\ p_scheme to_send <> None /\ representable to_send
  /\ match parts_encode (fun n => n) (Vec 0 0 []) to_send_views with
     | Ok (st, q) => exists qc, shows st q qc
         /\ compose qc = ss "http://u%3Ap%40%2F%3F%23%25@xn--tda.a:80/a%20b%3F/%2541//%C3%A9?x=y&%23" /\ fits 1000 (compose qc)
     | _ => False
     end.
Proof.
  split; [apply ok_proper; vm_compute; reflexivity|]. split; [repeat (constructor || split)|]. split; [exact to_send_sendable|]. split; [discriminate|].
  split; [left; discriminate|]. rewrite sent_eq. unfold sent. exists out_parts. split; [repeat (constructor || split)|]. split; [vm_compute; reflexivity|].
  split; [vm_compute; reflexivity|]. apply Nat.ltb_lt. vm_compute. reflexivity.
Qed.
Definition one_segment (s : str) : vparts := mkvparts (Some (Caller (ss "a"))) None true [Caller s] None None.
Definition one_segment_text (s : str) : parts := mkparts (Some (ss "a")) None (mkpath true [s]) None None.
Lemma c43_refuted :
  (exists p pc st qc qc', shows (Vec 0 0 []) p pc /\ parts_encode (fun n => n) (Vec 0 0 []) p = Ok (st, p) /\ shows st p qc
     /\ split true 100 (compose qc) = Ok (Some qc') /\ segments (p_path pc) = [ss "a/b"] /\ segments (p_path qc') = [ss "a"; ss "b"])
  /\ (exists p pc st, shows (Vec 0 0 []) p pc /\ parts_encode (fun n => n) (Vec 0 0 []) p = Ok (st, p) /\ segments (p_path pc) = [ss "["]
     /\ split true 100 (compose pc) = Ok None)
  /\ (exists p pc st qc, shows (Vec 0 0 []) p pc /\ parts_all returns pc /\ parts_encode (fun n => n) (Vec 0 0 []) p = Ok (st, p) /\ shows st p qc
     /\ L host (ss "1.2.3.4.com") /\ p_authority pc = Some (mkauth None (ss "1.2.3.4.com") None)
     /\ split true 100 (compose qc) = Ok None).
Proof.
  split; [|split].
  - exists (one_segment (ss "a/b")), (one_segment_text (ss "a/b")). eexists. exists (one_segment_text (ss "a/b")). eexists.
    split; [repeat (constructor || split)|]. split; [vm_compute; reflexivity|]. split; [repeat (constructor || split)|]. split; [vm_compute; reflexivity|]. split; reflexivity.
  - exists (one_segment (ss "[")), (one_segment_text (ss "[")). eexists.
    split; [repeat (constructor || split)|]. split; [vm_compute; reflexivity|]. split; [reflexivity|]. vm_compute; reflexivity.
  - set (au := mkauth None (ss "1.2.3.4.com") None).
    exists (mkvparts (Some (Caller (ss "http"))) (Some (mkvauth None (Caller (ss "1.2.3.4.com")) None)) false [] None None), (mkparts (Some (ss "http")) (Some au) (mkpath false []) None None). eexists.
    exists (mkparts (Some (ss "http")) (Some au) (mkpath false []) None None).
    assert (HL : L host (ss "1.2.3.4.com")).
    { right. exists (map (fun c => [c]) (ss "1.2.3.4.com")). split; [reflexivity|]. split; [|split; [lia|exact I]]. apply Forall_forall. intros x Hx. apply in_map_iff in Hx as (c & <- & Hc).
      apply UriLang.e_rchar. left. exists c. split; [reflexivity|]. assert (X : forallb UriLang.f_r (ss "1.2.3.4.com") = true) by reflexivity. rewrite forallb_forall in X. auto. }
    split; [repeat (constructor || split)|]. split; [|split; [vm_compute; reflexivity|split; [repeat (constructor || split)|split; [exact HL|split; [reflexivity|vm_compute; reflexivity]]]]].
    split; [apply tame_plain, scheme_tame, http_scheme|]. split; [|split; [constructor|split; exact I]]. split; [exact I|]. split; [|exact I]. split.
    + exists (map code (ss "1.2.3.4.com")). apply ascii_text, host_ascii, HL.
    + intros ls l HLb Hl _ (r & ->). assert (G : labels dot (ss "1.2.3.4.com") [ss "1"; ss "2"; ss "3"; ss "4"; ss "com"]).
      { exists (ss "1"), [ss "2"; ss "3"; ss "4"; ss "com"]. split; [reflexivity|]. split; [reflexivity|]. repeat (apply Forall_cons; [no_in|]). apply Forall_nil. }
      cbn in HLb. rewrite (labels_fun _ _ _ _ HLb G) in Hl. destruct Hl as [E|[E|[E|[E|[E|[]]]]]]; discriminate E.
Qed.
