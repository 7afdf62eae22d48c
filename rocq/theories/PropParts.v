(* PROPERTY THEOREMS: uri::encode and uri::decode of whole parts (C24-C26).  Vocabulary: SpecStore.v (texts),
   SpecViews.v (views and the store).  [grow] is any growth policy of the container, [store] any container
   with anything in it; [proper] is what the caller has to provide. *)
From Verif Require Import Base ModelUri ModelParts SpecPct SpecPuny SpecIcu SpecStore SpecViews SpecUri.
From Verif Require Import PartsProps PartsEx.
From Verif Require PropSplitFacts.
Local Open Scope list_scope.

(* --- C25: the returned views ------------------------------------------------------------------------- *)
(* encode always succeeds; it allocates at most once; each returned view is the one passed in or lies in the
   store, where they follow one another without gap or overlap and use all of it *)
Theorem C25_encode grow store p : proper p ->
  exists st q, parts_encode grow store p = Ok (st, q)
  /\ vc_alloc st <= S (vc_alloc store) /\ (length (vc_data st) <= vc_cap store -> vc_alloc st = vc_alloc store)
  /\ length (vc_data st) <= vc_cap st
  /\ views_rel (fun _ v v' => v' = v \/ inside st v') p q
  /\ consecutive (vc_alloc st) 0 (view_list q) (length (vc_data st)).
Proof. exact (c25_encode grow store p). Qed.
Print Assumptions C25_encode.
Theorem C25_decode grow store p : proper p ->
  exists st r, parts_decode grow store p = Ok (st, r)
  /\ match r with
     | inr _ => vc_data st = []
     | inl q =>
         vc_alloc st <= S (vc_alloc store) /\ (length (vc_data st) <= vc_cap store -> vc_alloc st = vc_alloc store)
         /\ length (vc_data st) <= vc_cap st
         /\ views_rel (fun _ v v' => v' = v \/ inside st v') p q
         /\ consecutive (vc_alloc st) 0 (view_list q) (length (vc_data st))
     end.
Proof. exact (c25_decode grow store p). Qed.
Print Assumptions C25_decode.
(* the views returned stay readable as long as the store is left alone *)
Theorem C25_readable st v : inside st v -> exists s, read st v = Ok s.
Proof. exact (c25_readable st v). Qed.
Print Assumptions C25_readable.
(* many_segments (PartsEx.v): 33 path segments (the bit set has room for 26), one of them null, an empty one, a host in UTF-8 *)
Example C25_ex : proper many_segments
  /\ match parts_encode (fun n => n) (Vec 0 7 (ss "old")) many_segments with
     | Ok (st, q) => vc_alloc st = 1 /\ length (vc_data st) = 31 * 5 + 9
         /\ firstn 5 (v_segments q) = [Null; Caller []; InStore 1 0 5; InStore 1 5 5; InStore 1 10 5]
         /\ v_scheme q = Some (Caller (ss "http")) /\ option_map v_host (v_authority q) = Some (InStore 1 155 9)
         /\ read st (InStore 1 155 9) = Ok (ss "xn--tda.a")
     | _ => False
     end.
Proof. exact c25_ex. Qed.
(* a caller that passes the store the views point into gets dangling views *)
Theorem C25_same_store_refuted : exists p st q, proper p /\ parts_encode (fun n => n) (Vec 0 0 []) p = Ok (st, q)
  /\ parts_decode (fun n => n) st q = Fault dangling_view /\ parts_encode (fun n => n) st q = Fault dangling_view.
Proof. exact c25_same_store. Qed.
Print Assumptions C25_same_store_refuted.

(* --- C26: what changes, and how ------------------------------------------------------------------------- *)
(* Every component is treated on its own: null stays null; a text that needs nothing comes back as the very
   same view; any other as a view of the store, showing its encoded text. *)
Theorem C26_encode grow store p st q : proper p -> parts_encode grow store p = Ok (st, q) -> views_rel (view_encoded st) p q.
Proof. exact (c26_encode grow store p st q). Qed.
Print Assumptions C26_encode.
(* the same in terms of the texts *)
Theorem C26_encode_text grow store p pc st q : proper p -> shows store p pc -> parts_encode grow store p = Ok (st, q) ->
  exists qc, shows st q qc /\ parts_rel encoded pc qc.
Proof. exact (c26_encode_text grow store p pc st q). Qed.
Print Assumptions C26_encode_text.
Theorem C26_encoded_unique f s e e' : (N.of_nat (length s) < 2 ^ 32)%N -> encoded f s e -> encoded f s e' -> e = e'.
Proof. exact (c26_unique f s e e'). Qed.
Print Assumptions C26_encoded_unique.
Theorem C26_encode_nothing grow store p st q : proper p ->
  views_all (fun f v => match v with Caller s => ~ must_encode f s | _ => True end) p ->
  parts_encode grow store p = Ok (st, q) -> q = p /\ vc_data st = [].
Proof. exact (c26_encode_nothing grow store p st q). Qed.
Print Assumptions C26_encode_nothing.
(* decode fails exactly for a host with a label "xn--..." that is not Punycode *)
Theorem C26_decode grow store p : proper p ->
  ((exists st e, parts_decode grow store p = Ok (st, inr e)) <-> undecodable p)
  /\ forall st q, parts_decode grow store p = Ok (st, inl q) -> views_rel (view_decoded st) p q.
Proof. exact (c26_decode grow store p). Qed.
Print Assumptions C26_decode.
Theorem C26_decode_text grow store p pc st q : proper p -> shows store p pc -> parts_decode grow store p = Ok (st, inl q) ->
  exists qc, shows st q qc /\ parts_rel decoded pc qc.
Proof. exact (c26_decode_text grow store p pc st q). Qed.
Print Assumptions C26_decode_text.
Theorem C26_decoded_unique f s t t' : decoded f s t -> decoded f s t' -> t = t'.
Proof. exact (decoded_fun f s t t'). Qed.
Print Assumptions C26_decoded_unique.
Theorem C26_decode_nothing grow store p : proper p ->
  views_all (fun f v => match v with Caller s => ~ must_decode f s | _ => True end) p ->
  exists st, parts_decode grow store p = Ok (st, inl p) /\ vc_data st = [].
Proof. exact (c26_decode_nothing grow store p). Qed.
Print Assumptions C26_decode_nothing.
(* scheme, host and port of valid parts are never changed by encode *)
Theorem C26_valid_unchanged sg fuel pc qc : parts_fit fuel pc -> parts_valid sg fuel pc = Ok true -> parts_rel encoded pc qc ->
  p_scheme qc = p_scheme pc
  /\ forall a b, p_authority pc = Some a -> p_authority qc = Some b -> host b = host a /\ port b = port a.
Proof. exact (c26_valid_unchanged sg fuel pc qc). Qed.
Print Assumptions C26_valid_unchanged.
(* IDNA corners: a host that decodes to nothing is returned as it is; the prefix is known in lower case only *)
(* [with_host h] (PartsEx.v): parts with the host h and nothing else *)
Theorem C26_host_refuted :
  (exists st, parts_decode (fun n => n) (Vec 0 0 []) (with_host (ss "xn--")) = Ok (st, inl (with_host (ss "xn--"))) /\ host_decoded (ss "xn--") [])
  /\ (exists st, parts_decode (fun n => n) (Vec 0 0 []) (with_host (ss "XN--bcher-kva")) = Ok (st, inl (with_host (ss "XN--bcher-kva")))).
Proof. exact c26_host. Qed.
Print Assumptions C26_host_refuted.
Example C26_ex : let p := mkvparts (Some (Caller (ss "http"))) (Some (mkvauth (Some (Caller (ss "u%3A"))) (Caller (ss "www.xn--bcher-kva.x")) None))
      true [Caller (ss "a%20b"); Caller (ss "c")] None (Some (Caller (ss "%41"))) in
  proper p /\ parts_decode (fun n => n) (Vec 3 1 []) p
    = Ok (Vec 4 38 (ss "a bu:www.b" ++ [chr 0xC3; chr 0xBC] ++ ss "cher.xA"),
          inl (mkvparts (Some (Caller (ss "http"))) (Some (mkvauth (Some (InStore 4 3 2)) (InStore 4 5 13) None))
                 true [InStore 4 0 3; Caller (ss "c")] None (Some (InStore 4 18 1))))
  /\ undecodable (with_host (ss "a.xn--!"))
  /\ parts_decode (fun n => n) (Vec 0 9 (ss "x")) (with_host (ss "a.xn--!")) = Ok (Vec 0 9 [], inr ModelPuny.bad_input).
Proof. exact c26_ex. Qed.

(* --- C24: encode, then decode ---------------------------------------------------------------------------- *)
(* [returns] says which texts: anything in userinfo, path, query and fragment; any well-formed UTF-8 as host
   except labels that already begin with "xn--"; scheme and port without escapes.  decode is given any
   views (p2) showing the text that encode produced, and any other store. *)
Theorem C24_round_trip grow store p pc : proper p -> shows store p pc -> parts_all returns pc ->
  exists st q qc, parts_encode grow store p = Ok (st, q) /\ shows st q qc
  /\ forall grow2 st2 p2, proper p2 -> shows st2 p2 qc ->
       exists st3 r, parts_decode grow2 st2 p2 = Ok (st3, inl r) /\ shows st3 r pc.
Proof. exact (c24 grow store p pc). Qed.
Print Assumptions C24_round_trip.
Theorem C24_valid sg fuel grow store p pc : proper p -> shows store p pc -> parts_fit fuel pc -> parts_valid sg fuel pc = Ok true ->
  exists st q qc, parts_encode grow store p = Ok (st, q) /\ shows st q qc /\ (parts_fit fuel qc -> parts_valid sg fuel qc = Ok true)
  /\ (no_xn pc -> forall grow2 st2 p2, proper p2 -> shows st2 p2 qc ->
       exists st3 r, parts_decode grow2 st2 p2 = Ok (st3, inl r) /\ shows st3 r pc).
Proof. exact (c24_valid sg fuel grow store p pc). Qed.
Print Assumptions C24_valid.
Example C24_ex : let p := mkvparts (Some (Caller (ss "http"))) (Some (mkvauth (Some (Caller (ss "u:p"))) (Caller (ss "a.b")) (Some (Caller (ss "80")))))
      true [Caller (ss "%41"); Null; Caller []] None (Some (Caller (ss "f"))) in
  let pc := mkparts (Some (ss "http")) (Some (mkauth (Some (ss "u:p")) (ss "a.b") (Some (ss "80")))) (mkpath true [ss "%41"; []; []]) None (Some (ss "f")) in
  proper p /\ shows (Vec 0 0 []) p pc /\ parts_fit 100 pc /\ parts_valid true 100 pc = Ok true /\ no_xn pc /\ parts_all returns pc.
Proof. exact c24_ex. Qed.
Example C24_ex_utf8 : returns Host [chr 0xC3; chr 0xBC; "."%char; "a"%char].
Proof. exact c24_ex_utf8. Qed.
(* What is excluded is not recovered: a host with an "xn--" label (here the result shows other text; it may
   also be an error), an escape in scheme or port. *)
Theorem C24_excluded_refuted :
  (exists st st' q, parts_encode (fun n => n) (Vec 0 0 []) (with_host (ss "xn--bcher-kva")) = Ok (st, with_host (ss "xn--bcher-kva"))
     /\ parts_decode (fun n => n) (Vec 0 0 []) (with_host (ss "xn--bcher-kva")) = Ok (st', inl q)
     /\ ~ shows st' q (mkparts None (Some (mkauth None (ss "xn--bcher-kva") None)) (mkpath false []) None None))
  /\ (exists st st' q, let p := mkvparts (Some (Caller (ss "%41"))) None false [] None None in
     parts_encode (fun n => n) (Vec 0 0 []) p = Ok (st, p)
     /\ parts_decode (fun n => n) (Vec 0 0 []) p = Ok (st', inl q)
     /\ ~ shows st' q (mkparts (Some (ss "%41")) None (mkpath false []) None None)).
Proof. exact c24_excluded. Qed.
Print Assumptions C24_excluded_refuted.
(* encode does not make arbitrary parts valid *)
Theorem C24_invalid_refuted : exists p st pc, proper p /\ parts_encode (fun n => n) (Vec 0 0 []) p = Ok (st, p)
  /\ shows st p pc /\ parts_valid true 100 pc = Ok false.
Proof. exact c24_invalid. Qed.
Print Assumptions C24_invalid_refuted.
