(* C55: how much work Punycode takes, and how long its results are. *)
From Verif Require Import Base ModelPuny ModelWork WorkPuny.
From Verif Require ModelParts.
Local Open Scope N_scope.

(* the counting functions are encode and decode *)
Theorem C55_same_encode u plain e b : (exists w, encode_w u plain = Ok (e, b, w)) <-> encode u plain = Ok (e, b).
Proof. exact (encode_both u plain e b). Qed.
Print Assumptions C55_same_encode.
Theorem C55_same_decode s r : (exists w, decode_w s = Ok (r, w)) <-> decode s = Ok r.
Proof. exact (decode_both s r). Qed.
Print Assumptions C55_same_decode.

(* encode reads the whole text once, and once more for each distinct non-ASCII code point [ds] in it; it writes each
   character of its result once *)
Theorem C55_encode u plain e b w ds : encode_w u plain = Ok (e, b, w) ->
  NoDup ds -> (forall c, In c ds <-> In c u /\ 0x80 <= c) ->
  let ascii := N.of_nat (length (filter (fun c => c <? 0x80) u)) in
  let others := N.of_nat (length (filter (fun c => 0x80 <=? c) u)) in
  reads w = N.of_nat (length u) * (1 + N.of_nat (length ds))
  /\ writes w = N.of_nat (length e) /\ N.of_nat (length e) <= ascii + 1 + 21 * others
  /\ moves w = 0 /\ loops w <= 11 * others.
Proof. exact (encode_count u plain e b w ds). Qed.
Print Assumptions C55_encode.
Theorem C55_encode_bound u plain e b w : encode_w u plain = Ok (e, b, w) ->
  let n := N.of_nat (length u) in reads w + writes w + moves w + loops w <= n * n + 33 * n + 1.
Proof. exact (encode_total_work u plain e b w). Qed.
Print Assumptions C55_encode_bound.
Theorem C55_decode s r w : decode_w s = Ok (r, w) ->
  let n := N.of_nat (length s) in
  reads w <= 2 * n /\ writes w <= n /\ moves w <= n * n /\ loops w <= 11 * n
  /\ (forall u, r = inl u -> writes w = N.of_nat (length u)).
Proof. exact (decode_count s r w). Qed.
Print Assumptions C55_decode.
Theorem C55_decode_bound s r w : decode_w s = Ok (r, w) ->
  let n := N.of_nat (length s) in reads w + writes w + moves w + loops w <= n * n + 14 * n.
Proof. exact (decode_total_work s r w). Qed.
Print Assumptions C55_decode_bound.
(* the host of several labels that encode and decode of a parts object handle (details::puny_encoded, puny_decoded) *)
Theorem C55_host_encode u e b : ModelParts.puny_encoded u = Ok (e, b) -> exists w, puny_encoded_w u = Ok (e, b, w)
  /\ let n := N.of_nat (length u) in
     reads w + writes w + moves w + loops w <= n * n + 61 * n + 7 /\ N.of_nat (length e) <= 26 * n + 5.
Proof.
  intros E. apply host_encode_both in E as [w E]. exists w. split; [exact E|]. exact (host_encode_count u e b w E).
Qed.
Print Assumptions C55_host_encode.
Theorem C55_host_decode s t r : N.of_nat (length s) < 2 ^ 32 -> ModelParts.puny_decoded s = Ok (t, r) -> exists w, puny_decoded_w s = Ok (t, r, w)
  /\ let n := N.of_nat (length s) in
     reads w + writes w + moves w + loops w <= n * n + 23 * n + 5 /\ N.of_nat (length t) <= 4 * n.
Proof.
  intros H E. apply host_decode_both in E as [w E]. exists w. split; [exact E|]. exact (host_decode_count s t r w H E).
Qed.
Print Assumptions C55_host_decode.
(* no linear bound holds for either *)
Theorem C55_encode_linear_refuted k : N.of_nat k < 2 ^ 31 -> exists u e b w, length u = k
  /\ (forall c, In c u -> 0x80 <= c < 2 ^ 32) /\ encode_w u true = Ok (e, b, w)
  /\ reads w = N.of_nat k * (1 + N.of_nat k).
Proof. exact (encode_quadratic k). Qed.
Print Assumptions C55_encode_linear_refuted.
Theorem C55_decode_linear_refuted k : N.of_nat k < 2 ^ 31 -> exists s u w, length s = (2 * k + 1)%nat
  /\ decode_w s = Ok (inl u, w) /\ length u = (2 * k)%nat /\ moves w = N.of_nat k * N.of_nat k.
Proof. exact (decode_quadratic k). Qed.
Print Assumptions C55_decode_linear_refuted.
Example C55_ex : encode_w [0x62; 0xFC; 0x63; 0x68; 0xFC; 0xE4] true = Ok (ss "bch-sla1jc", true, Work 18 10 0 0)
  /\ decode_w (ss "bch-sla1jc") = Ok (inl [0x62; 0xFC; 0x63; 0x68; 0xFC; 0xE4], Work 16 6 4 0)
  /\ decode_w (ss "a!") = Ok (inr bad_input, Work 4 1 0 0).
Proof. vm_compute. repeat split. Qed.
Example C55_ex_host : exists w, ModelParts.puny_encoded [0xFC; 46; 0x61; 0xE4] = Ok (ss "xn--tda.xn--a-0fa", true)
  /\ puny_encoded_w [0xFC; 46; 0x61; 0xE4] = Ok (ss "xn--tda.xn--a-0fa", true, w) /\ reads w + writes w = 31.
Proof. eexists. vm_compute. repeat split. Qed.
