(* PROPERTY THEOREMS: C82 encoding or decoding all components of a base and a reference and then resolving gives the same
   as resolving first.  Vocabulary: SpecStore.v (encoded, decoded, parts_rel), SpecViews.v (shows, proper), SpecCommute.v. *)
From Verif Require Import Base ModelUri ModelParts SpecUri SpecPct SpecPath SpecStore SpecViews SpecCommute PctFacts CommuteUri.
Local Open Scope list_scope.

(* --- encode: for all parts, strict ------------------------------------------------------------------------- *)
(* encode and join: with any stores and any growth policy of them, j, what encode makes of join(b, r), is what join makes of
   b' and r', the encoded b and r *)
Theorem C82_encode grow1 store1 vb b st1 qb b' grow2 store2 vr r st2 qr r' grow3 store3 vj st3 qj j strict :
  proper vb -> shows store1 vb b -> parts_encode grow1 store1 vb = Ok (st1, qb) -> shows st1 qb b' ->
  proper vr -> shows store2 vr r -> parts_encode grow2 store2 vr = Ok (st2, qr) -> shows st2 qr r' ->
  proper vj -> shows store3 vj (join_parts b r strict) -> parts_encode grow3 store3 vj = Ok (st3, qj) -> shows st3 qj j ->
  strict = true \/ (plain_scheme b /\ plain_scheme r) ->
  j = join_parts b' r' strict.
Proof. exact (encode_then_join grow1 store1 vb b st1 qb b' grow2 store2 vr r st2 qr r' grow3 store3 vj st3 qj j strict). Qed.
Print Assumptions C82_encode.
(* the same about the texts only, without any bound on the sizes *)
Theorem C82_encode_text b b' r r' strict : parts_rel encoded b b' -> parts_rel encoded r r' ->
  strict = true \/ (plain_scheme b /\ plain_scheme r) -> parts_rel encoded (join_parts b r strict) (join_parts b' r' strict).
Proof. exact (encode_join b b' r r' strict). Qed.
Print Assumptions C82_encode_text.
(* --- decode: unless a segment is "." or ".." in disguise ------------------------------------------------------ *)
Theorem C82_decode grow1 store1 vb b st1 qb b' grow2 store2 vr r st2 qr r' grow3 store3 vj st3 qj j strict :
  proper vb -> shows store1 vb b -> parts_decode grow1 store1 vb = Ok (st1, inl qb) -> shows st1 qb b' ->
  proper vr -> shows store2 vr r -> parts_decode grow2 store2 vr = Ok (st2, inl qr) -> shows st2 qr r' ->
  proper vj -> shows store3 vj (join_parts b r strict) -> parts_decode grow3 store3 vj = Ok (st3, inl qj) -> shows st3 qj j ->
  no_hidden_dots b -> no_hidden_dots r -> strict = true \/ (plain_scheme b /\ plain_scheme r) ->
  j = join_parts b' r' strict.
Proof. exact (decode_then_join grow1 store1 vb b st1 qb b' grow2 store2 vr r st2 qr r' grow3 store3 vj st3 qj j strict). Qed.
Print Assumptions C82_decode.
Theorem C82_decode_text b b' r r' strict : parts_rel decoded b b' -> parts_rel decoded r r' -> no_hidden_dots b -> no_hidden_dots r ->
  strict = true \/ (plain_scheme b /\ plain_scheme r) -> parts_rel decoded (join_parts b r strict) (join_parts b' r' strict).
Proof. exact (decode_join b b' r r' strict). Qed.
Print Assumptions C82_decode_text.
(* the condition on the schemes holds for whatever split and split_reference accept *)
Theorem C82_valid sg fuel s p : fits fuel s -> split sg fuel s = Ok (Some p) \/ split_reference sg fuel s = Ok (Some p) -> plain_scheme p.
Proof. exact (split_plain sg fuel s p). Qed.
Print Assumptions C82_valid.

(* --- the conditions are needed ----------------------------------------------------------------------------------- *)
Definition hidden_base : parts := mkparts (Some (ss "http")) (Some (mkauth None (ss "h") None)) (mkpath true [ss "a"; ss "b"]) None None.
Definition hidden_ref (s : string) : parts := mkparts None None (mkpath false [ss s; ss "c"]) None None.
(* "%2e%2e/c" against http://h/a/b: decoding the result gives the path /a/../c, resolving what was decoded gives /c *)
Theorem C82_hidden_refuted : exists b' r' j, no_hidden_dots hidden_base /\ plain_scheme hidden_base
  /\ parts_rel decoded hidden_base b' /\ parts_rel decoded (hidden_ref "%2e%2e") r' /\ parts_rel decoded (join_parts hidden_base (hidden_ref "%2e%2e") true) j
  /\ p_path j = mkpath true [ss "a"; ss ".."; ss "c"] /\ p_path (join_parts b' r' true) = mkpath true [ss "c"].
Proof.
  assert (DP : forall s, ~ In percent s -> decodes s s) by exact decodes_plain.
  assert (DD : decodes (ss "%2e%2e") (ss "..")).
  { eapply (dec_escape _ "."%char (ss "%2e")); [exists "2"%char, "e"%char, 2%N, 14%N; repeat split|]. eapply (dec_escape _ "."%char []); [exists "2"%char, "e"%char, 2%N, 14%N; repeat split|constructor]. }
  exists hidden_base, (hidden_ref ".."), (mkparts (Some (ss "http")) (Some (mkauth None (ss "h") None)) (mkpath true [ss "a"; ss ".."; ss "c"]) None None).
  assert (HH : decoded Host (ss "h") (ss "h")).
  { left. split; [|discriminate]. exists [ss "h"], [ss "h"]. assert (N : ~ In SpecStore.dot (ss "h")) by (cbn; intuition discriminate). split; [exists (ss "h"), []; split; [reflexivity|split; [reflexivity|now repeat constructor]]|].
    split; [constructor; [left; split; [intros [r E]; discriminate E|reflexivity]|constructor]|]. exists (ss "h"), []. split; reflexivity. }
  assert (HA : opt_rel (auth_rel decoded) (Some (mkauth None (ss "h") None)) (Some (mkauth None (ss "h") None))) by (constructor; split; [constructor|split; [exact HH|constructor]]).
  assert (HS : opt_rel (decoded Scheme) (Some (ss "http")) (Some (ss "http"))) by (constructor; apply DP; cbn; intuition discriminate).
  assert (P1 : forall c, In c ["a"; "b"; "c"]%char -> decodes [c] [c]) by (intros c H; apply DP; cbn in *; intuition (subst; discriminate)).
  split; [|split; [|split; [|split; [|split; [|split]]]]].
  - intros s t I D K. cbn in I. destruct I as [<-|[<-|[]]]; [pose proof (decodes_fun _ _ D _ (P1 "a"%char ltac:(cbn; auto)))|pose proof (decodes_fun _ _ D _ (P1 "b"%char ltac:(cbn; auto)))]; subst t; exact K.
  - intros s E. injection E as <-. unfold field_set, c0_control_set. repeat constructor; try discriminate; intros [[H|H]|H]; try discriminate H; vm_compute in H; try discriminate H; now apply H.
  - split; [exact HS|]. split; [exact HA|]. split; [reflexivity|]. split; [constructor; [apply P1; cbn; auto|constructor; [apply P1; cbn; auto|constructor]]|]. split; constructor.
  - split; [constructor|]. split; [constructor|]. split; [reflexivity|]. split; [constructor; [exact DD|constructor; [apply P1; cbn; auto|constructor]]|]. split; constructor.
  - split; [exact HS|]. split; [exact HA|]. split; [reflexivity|].
    split; [change (Forall2 (decoded Segment) [ss "a"; ss "%2e%2e"; ss "c"] [ss "a"; ss ".."; ss "c"]); constructor; [apply P1; cbn; auto|constructor; [exact DD|constructor; [apply P1; cbn; auto|constructor]]]|]. split; constructor.
  - reflexivity.
  - reflexivity.
Qed.
Print Assumptions C82_hidden_refuted.
(* not strict, and a scheme that no URI has: " " and "%20" become the same *)
Definition odd_scheme (s : string) : parts := mkparts (Some (ss s)) None (mkpath false [ss "a"]) None None.
Theorem C82_scheme_refuted : exists b' r' j, parts_rel encoded (odd_scheme "%20") b' /\ parts_rel encoded (mkparts (Some (ss " ")) None (mkpath false []) None None) r'
  /\ parts_rel encoded (join_parts (odd_scheme "%20") (mkparts (Some (ss " ")) None (mkpath false []) None None) false) j
  /\ p_path j = mkpath false [] /\ p_path (join_parts b' r' false) = mkpath false [ss "a"].
Proof.
  assert (E1 : encodes (field_set Scheme) (ss "%20") (ss "%20")).
  { assert (N : forall c, In c (ss "%20") -> ~ field_set Scheme c) by (intros c I [[H|H]|H]; cbn in I; repeat (destruct I as [<-|I]; [try discriminate H; vm_compute in H; try discriminate H; now apply H|]); exact I).
    apply enc_copy; [apply N; cbn; auto|]. apply enc_copy; [apply N; cbn; auto|]. apply enc_copy; [apply N; cbn; auto|]. constructor. }
  assert (E2 : encodes (field_set Scheme) (ss " ") (ss "%20")) by (apply (enc_escape _ " "%char [] []); [now right|constructor]).
  assert (E3 : encodes (field_set Segment) (ss "a") (ss "a")).
  { apply enc_copy; [|constructor]. intros [H|H]; [|discriminate H]. destruct H as [[[H|H]|[H|H]]|[H|H]]; vm_compute in H; intuition discriminate. }
  exists (odd_scheme "%20"), (mkparts (Some (ss "%20")) None (mkpath false []) None None), (mkparts (Some (ss "%20")) None (mkpath false []) None None).
  unfold parts_rel, odd_scheme. cbn [p_scheme p_authority p_path p_query p_fragment absolute segments].
  split; [split; [now constructor|split; [constructor|split; [reflexivity|split; [constructor; [exact E3|constructor]|split; constructor]]]]|].
  split; [split; [now constructor|split; [constructor|split; [reflexivity|split; [constructor|split; constructor]]]]|].
  split; [split; [now constructor|split; [constructor|split; [reflexivity|split; [constructor|split; constructor]]]]|]. split; reflexivity.
Qed.
Print Assumptions C82_scheme_refuted.

(* --- a concrete case ---------------------------------------------------------------------------------------------- *)
(* http://h/a b/c and ../d e?x y: the views, what they show, and what encode and decode return for them *)
Example C82_ex :
  let vb := mkvparts (Some (Caller (ss "http"))) (Some (mkvauth None (Caller (ss "h")) None)) true [Caller (ss "x"); Caller (ss "a b"); Caller (ss "c")] None None in
  let b := mkparts (Some (ss "http")) (Some (mkauth None (ss "h") None)) (mkpath true [ss "x"; ss "a b"; ss "c"]) None None in
  let vr := mkvparts None None false [Caller (ss ".."); Caller (ss "d e")] (Some (Caller (ss "x y"))) None in
  let r := mkparts None None (mkpath false [ss ".."; ss "d e"]) (Some (ss "x y")) None in
  let vj := mkvparts (Some (Caller (ss "http"))) (Some (mkvauth None (Caller (ss "h")) None)) true [Caller (ss "x"); Caller (ss "d e")] (Some (Caller (ss "x y"))) None in
  proper vb /\ proper vr /\ proper vj /\ shows (Vec 0 0 []) vb b /\ shows (Vec 0 0 []) vr r /\ shows (Vec 0 0 []) vj (join_parts b r true)
  /\ plain_scheme b /\ plain_scheme r
  /\ parts_encode (fun n => n) (Vec 0 0 []) vb = Ok (Vec 1 10 (ss "a%20b"),
       mkvparts (Some (Caller (ss "http"))) (Some (mkvauth None (Caller (ss "h")) None)) true [Caller (ss "x"); InStore 1 0 5; Caller (ss "c")] None None)
  /\ parts_encode (fun n => n) (Vec 0 0 []) vr = Ok (Vec 1 20 (ss "d%20ex%20y"),
       mkvparts None None false [Caller (ss ".."); InStore 1 0 5] (Some (InStore 1 5 5)) None)
  /\ parts_encode (fun n => n) (Vec 0 0 []) vj = Ok (Vec 1 20 (ss "d%20ex%20y"),
       mkvparts (Some (Caller (ss "http"))) (Some (mkvauth None (Caller (ss "h")) None)) true [Caller (ss "x"); InStore 1 0 5] (Some (InStore 1 5 5)) None).
Proof.
  cbv zeta. assert (P : forall p, views_all (fun f v => match v with InStore _ _ _ => False | Caller s => f = Host -> s = ss "h" | Null => True end) p -> length (v_segments p) < 9 -> proper p).
  { intros p H L. assert (M : forall (A B : field -> view -> Prop), (forall f v, A f v -> B f v) -> views_all A p -> views_all B p).
    { intros A B I (H1 & H2 & H3 & H4 & H5 & H6). assert (O : forall f o, opt_rel2 (fun v (_ : view) => A f v) o o -> opt_rel2 (fun v (_ : view) => B f v) o o) by (intros f [v|] Q; [inversion Q; subst; constructor; auto|constructor]).
      split; [exact (O Scheme _ H1)|]. split; [|split; [exact H3|split; [|split; [exact (O Query _ H5)|exact (O Fragment _ H6)]]]].
      - destruct (v_authority p) as [a|]; [|constructor]. inversion H2 as [|? ? (Q1 & Q2 & Q3)]; subst. constructor. split; [exact (O Userinfo _ Q1)|split; [auto|exact (O Port _ Q3)]].
      - clear - H4 I. induction (v_segments p); inversion H4; subst; constructor; auto. }
    split; [|split].
    - eapply M; [|exact H]. intros f [|s|x y z]; auto.
    - unfold few_segments. lia.
    - eapply M; [|exact H]. intros [] [|s|x y z]; auto. intros E. rewrite (E eq_refl). reflexivity. }
  assert (S : forall p, p_scheme p = Some (ss "http") \/ p_scheme p = None -> plain_scheme p).
  { intros p H s E. destruct H as [H|H]; rewrite H in E; [|discriminate E]. injection E as <-. unfold field_set, c0_control_set. repeat constructor; try discriminate; intros [[K|K]|K]; try discriminate K; vm_compute in K; try discriminate K; now apply K. }
  split; [apply P; [|cbn; lia]; repeat (constructor; try discriminate)|]. split; [apply P; [|cbn; lia]; repeat (constructor; try discriminate)|]. split; [apply P; [|cbn; lia]; repeat (constructor; try discriminate)|].
  split; [repeat constructor|]. split; [repeat constructor|]. split; [repeat constructor|]. split; [apply S; now left|]. split; [apply S; now right|].
  split; [vm_compute; reflexivity|]. split; vm_compute; reflexivity.
Qed.
