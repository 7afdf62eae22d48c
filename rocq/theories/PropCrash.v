(* PROPERTY THEOREMS: uri::encode and uri::decode when memory runs out (C56).  parts_encode_x al grow store p k is the call
   when k allocations succeed and the next one throws, al saying how many the library makes where (any numbers): Ret (st, q) _ when fewer than that were needed, Exc st when the
   exception left the call, st being the store as the caller then finds it.  Vocabulary: SpecCrash.v, SpecViews.v. *)
From Verif Require Import Base ModelParts ModelCrash SpecStore SpecViews SpecCrash PartsProps PartsEx CrashFacts CrashSame.
From Coq Require Import Lia.
From Verif Require ModelPuny.
Local Open Scope list_scope.

(* There is a number n of allocations that suffices, and with it the result is that of C25 and C26.  With fewer the
   exception gets out; the store is then untouched (if it was the copy of the parts that failed), or holds a beginning of
   the text it would have held in the end; and
   calling encode again with that store, memory permitting, gives the result after all. *)
Theorem C56_encode al grow store p : proper p ->
  exists st q n, parts_encode grow store p = Ok (st, q) /\ a_copy al p <= n
  /\ (forall k, n <= k -> parts_encode_x al grow store p k = Ok (Ret (st, q) (k - n)))
  /\ (forall k, k < n -> exists st', parts_encode_x al grow store p k = Ok (Exc st')
        /\ (k < a_copy al p -> st' = store) /\ (a_copy al p <= k -> begins (vc_data st') (vc_data st))
        /\ exists st2 q2, parts_encode grow st' p = Ok (st2, q2) /\ same_result st q st2 q2).
Proof. exact (c56_encode al grow store p). Qed.
Print Assumptions C56_encode.
(* decode: the same; when the host cannot be decoded, the store is untouched or empty *)
Theorem C56_decode al grow store p : proper p ->
  exists st r n, parts_decode grow store p = Ok (st, r) /\ a_copy al p <= n
  /\ (forall k, n <= k -> parts_decode_x al grow store p k = Ok (Ret (st, r) (k - n)))
  /\ (forall k, k < n -> exists st', parts_decode_x al grow store p k = Ok (Exc st')
        /\ (k < a_copy al p -> st' = store) /\ (a_copy al p <= k -> begins (vc_data st') (vc_data st))
        /\ match r with
           | inl q => exists st2 q2, parts_decode grow st' p = Ok (st2, inl q2) /\ same_result st q st2 q2
           | inr e => (a_copy al p <= k -> vc_data st' = []) /\ exists st2, parts_decode grow st' p = Ok (st2, inr e)
           end).
Proof. exact (c56_decode al grow store p). Qed.
Print Assumptions C56_decode.
(* With one allocation for each label: the exception gets out with the old text, with none, with a part of the new one
   (stopped at the second and at the third label), and not at all; and so with decode. *)
Example C56_ex : let uu := [chr 0xC3; chr 0xBC] in
  let p := mkvparts (Some (Caller (ss "http"))) (Some (mkvauth (Some (Caller (ss "u ^"))) (Caller (uu ++ ss ".a." ++ uu)) None)) true [Caller (ss "a b")] None None in
  let p2 := mkvparts None (Some (mkvauth (Some (Caller (ss "u%3A"))) (Caller (ss "xn--bcher-kva.a.xn--bcher-kva")) None)) true [Caller (ss "a%20b")] None None in
  let al := mkallocs (fun p => length (v_segments p)) (fun _ => 1) (fun _ => 2) in
  let held {T} (r : outcome (ex (vec * T))) := match r with Ok (Exc st) => (Some (vc_data st), false) | Ok (Ret (st, _) _) => (Some (vc_data st), true) | _ => (None, false) end in
  let old := Vec 3 5 (ss "old") in
  proper p /\ proper p2
  /\ map (fun k => held (parts_encode_x al (fun n => n) old p k)) [0; 1; 4; 5; 11; 12; 13; 16; 17; 30]
     = map (fun x => (Some (ss (fst x)), snd x))
       [("old", false); ("", false); ("", false); ("a%20bu%20%5E", false); ("a%20bu%20%5E", false); ("a%20bu%20%5Exn--tda.", false);
        ("a%20bu%20%5Exn--tda.a.", false); ("a%20bu%20%5Exn--tda.a.xn--tda", false); ("a%20bu%20%5Exn--tda.a.xn--tda", true); ("a%20bu%20%5Exn--tda.a.xn--tda", true)]%string
  /\ map (fun k => held (parts_decode_x al (fun n => n) old p2 k)) [0; 5; 6; 8]
     = [(Some (ss "old"), false); (Some [], false); (Some (ss "a bu:"), false); (Some (ss "a bu:b" ++ uu ++ ss "cher.a."), false)]
  /\ snd (held (parts_decode_x al (fun n => n) old p2 10)) = true.
Proof. intros uu p p2 al held old. split; [apply ok_proper; vm_compute; reflexivity|]. split; [apply ok_proper; vm_compute; reflexivity|]. split; [|split]; vm_compute; reflexivity. Qed.
(* "a call that throws leaves the store as it was" is false: what it held is gone *)
Theorem C56_strong_refuted : exists al grow store p k st', proper p /\ parts_encode_x al grow store p k = Ok (Exc st') /\ vc_data store = ss "old" /\ vc_data st' = ss "a%20b".
Proof.
  exists (mkallocs (fun p => length (v_segments p)) (fun _ => 1) (fun _ => 2)), (fun n => n), (Vec 3 5 (ss "old")),
    (mkvparts None (Some (mkvauth None (Caller [chr 0xC3; chr 0xBC]) None)) true [Caller (ss "a b")] None None), 3. eexists.
  split; [apply ok_proper; vm_compute; reflexivity|]. vm_compute. auto.
Qed.
Print Assumptions C56_strong_refuted.
