(* PROPERTY THEOREMS: a text put into a URI arrives at the other end (C43): encode, compose, split, decode.
   Vocabulary: SpecSend.v (which texts), SpecStore.v, SpecViews.v. *)
From Verif Require Import Base ModelUri ModelParts Rfc3986 SpecHost SpecPct SpecIcu SpecStore SpecViews SpecUri SpecSend.
From Verif Require Import SendFacts SendEx.
Local Open Scope list_scope.

(* the texts that encode makes into text of the component's grammar rule, exactly *)
Theorem C43_components f s e : f <> Host -> encoded f s e -> (L (rule_of f) e <-> encodable f s).
Proof. exact (component_iff f s e). Qed.
Print Assumptions C43_components.
(* a host: the encoded text is in the grammar and is not taken for an IPv4 address followed by something *)
Theorem C43_host s e : sendable Host s -> host_encoded s e -> L host e /\ host_unambiguous e.
Proof. exact (host_sent s e). Qed.
Print Assumptions C43_host.
Theorem C43_valid sg fuel pc qc : parts_all sendable pc -> p_scheme pc <> None -> parts_rel encoded pc qc ->
  parts_fit fuel qc -> parts_valid sg fuel qc = Ok true.
Proof. exact (c43_valid sg fuel pc qc). Qed.
Print Assumptions C43_valid.
(* The whole way.  The sender encodes parts p showing the texts pc and composes the result; the receiver splits
   that string and decodes any views (p2) of the components found: they show the texts of pc.  ("==" of parts
   disregards only the absolute flag of a path behind an authority: C27.) *)
Theorem C43_send grow store p pc : proper p -> shows store p pc -> parts_all sendable pc -> p_scheme pc <> None -> representable pc ->
  exists st q qc, parts_encode grow store p = Ok (st, q) /\ shows st q qc /\
  forall sg fuel, fits fuel (compose qc) -> exists qc', split sg fuel (compose qc) = Ok (Some qc') /\ parts_eqb qc' qc = true /\
  forall grow2 st2 p2, proper p2 -> shows st2 p2 qc' ->
  exists st3 r pc', parts_decode grow2 st2 p2 = Ok (st3, inl r) /\ shows st3 r pc' /\ parts_eqb pc' pc = true.
Proof. exact (c43_send grow store p pc). Qed.
Print Assumptions C43_send.
(* to_send (SendEx.v): http, "u:p@/?#%", a host in UTF-8, segments "a b?", "%41", empty, "é" and a query "x=y&#" *)
Example C43_ex : proper to_send_views /\ shows (Vec 0 0 []) to_send_views to_send /\ parts_all sendable to_send
  /\ p_scheme to_send <> None /\ representable to_send
  /\ match parts_encode (fun n => n) (Vec 0 0 []) to_send_views with
     | Ok (st, q) => exists qc, shows st q qc
         /\ compose qc = ss "http://u%3Ap%40%2F%3F%23%25@xn--tda.a:80/a%20b%3F/%2541//%C3%A9?x=y&%23" /\ fits 1000 (compose qc)
     | _ => False
     end.
Proof. exact c43_ex. Qed.
(* Outside of [sendable] it fails: "a/b" arrives as two segments, "[" makes a string that is not accepted. *)
Theorem C43_refuted :
  (exists p pc st qc qc', shows (Vec 0 0 []) p pc /\ parts_encode (fun n => n) (Vec 0 0 []) p = Ok (st, p) /\ shows st p qc
     /\ split true 100 (compose qc) = Ok (Some qc') /\ segments (p_path pc) = [ss "a/b"] /\ segments (p_path qc') = [ss "a"; ss "b"])
  /\ (exists p pc st, shows (Vec 0 0 []) p pc /\ parts_encode (fun n => n) (Vec 0 0 []) p = Ok (st, p) /\ segments (p_path pc) = [ss "["]
     /\ split true 100 (compose pc) = Ok None)
  /\ (exists p pc st qc, shows (Vec 0 0 []) p pc /\ parts_all returns pc /\ parts_encode (fun n => n) (Vec 0 0 []) p = Ok (st, p) /\ shows st p qc
     /\ L host (ss "1.2.3.4.com") /\ p_authority pc = Some (mkauth None (ss "1.2.3.4.com") None)
     /\ split true 100 (compose qc) = Ok None).
Proof. exact c43_refuted. Qed.
Print Assumptions C43_refuted.
