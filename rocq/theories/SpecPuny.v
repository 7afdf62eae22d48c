(* SPECIFICATIONS for find_last/starts_with and for Punycode (RFC 3492), over unbounded integers. *)
From Verif Require Import Base.

(* p is the position of the last element of l satisfying P *)
Definition last_at {A} (P : A -> Prop) (l : list A) (p : nat) : Prop :=
  exists a x b, l = a ++ x :: b /\ length a = p /\ P x /\ forall y, In y b -> ~ P y.

Local Open Scope N_scope.
Local Open Scope list_scope.

(* --- RFC 3492 section 5: parameter values for Punycode ------------------------------------------- *)
Definition rfc_base : N := 36.
Definition rfc_tmin : N := 1.
Definition rfc_tmax : N := 26.
Definition rfc_skew : N := 38.
Definition rfc_damp : N := 700.
Definition rfc_initial_bias : N := 72.
Definition rfc_initial_n : N := 0x80.
Definition hyphen : ascii := "-"%char.

(* code point -> digit value: A-Z and a-z are 0..25, 0-9 are 26..35 *)
Definition lower_digits : str := ss "abcdefghijklmnopqrstuvwxyz0123456789".
Definition upper_digits : str := ss "ABCDEFGHIJKLMNOPQRSTUVWXYZ0123456789".
Definition has_value (c : ascii) (d : N) : Prop :=
  nth_error lower_digits (N.to_nat d) = Some c \/ nth_error upper_digits (N.to_nat d) = Some c.

(* section 6.2/6.3: let t = tmin if k <= bias, tmax if k >= bias + tmax, or k - bias otherwise *)
Definition threshold (k bias : N) : N :=
  if k <=? bias then rfc_tmin else if bias + rfc_tmax <=? k then rfc_tmax else k - bias.

(* section 6.1, the bias adaptation function; its while loop as a relation *)
Inductive adapt_while : N -> N -> N -> Prop :=
| aw_stop delta k : delta <= ((rfc_base - rfc_tmin) * rfc_tmax) / 2 ->
    adapt_while delta k (k + (((rfc_base - rfc_tmin + 1) * delta) / (delta + rfc_skew)))
| aw_step delta k r : ((rfc_base - rfc_tmin) * rfc_tmax) / 2 < delta ->
    adapt_while (delta / (rfc_base - rfc_tmin)) (k + rfc_base) r -> adapt_while delta k r.
Definition adapted (delta numpoints : N) (firsttime : bool) (r : N) : Prop :=
  let delta := if firsttime then delta / rfc_damp else delta / 2 in
  adapt_while (delta + delta / numpoints) 0 r.

(* section 3.3: generalized variable-length integers.  [vli bias k q s]: s represents q, the position of
   its first digit being k *)
Inductive vli (bias : N) : N -> N -> str -> Prop :=
| vli_last k q c : has_value c q -> q < threshold k bias -> vli bias k q [c]
| vli_more k q d q' c s :
    has_value c d -> threshold k bias <= d ->
    q = d + (rfc_base - threshold k bias) * q' ->
    vli bias (k + rfc_base) q' s ->
    vli bias k q (c :: s).

(* section 6.2: from the state (n, i, bias) with this output so far, the remaining input gives [final] *)
Inductive decoding : N -> N -> N -> list N -> str -> list N -> Prop :=
| dc_done n i bias out : decoding n i bias out [] out
| dc_step n i bias pre post delta bias' n' i' word rest final :
    vli bias rfc_base delta word ->
    let size := N.of_nat (length (pre ++ post)) + 1 in
    adapted delta size (i =? 0) bias' ->
    n' = n + (i + delta) / size ->
    i' = (i + delta) mod size ->
    N.of_nat (length pre) = i' ->
    decoding n' (i' + 1) bias' (pre ++ n' :: post) rest final ->
    decoding n i bias (pre ++ post) (word ++ rest) final.

(* what is before the last delimiter, if anything is, is literal; the rest is a sequence of deltas *)
Definition puny_decodes (s : str) (u : list N) : Prop :=
  exists literal deltas,
    (s = literal ++ hyphen :: deltas /\ literal <> [] \/ s = deltas /\ literal = [])
    /\ ~ In hyphen deltas
    /\ (forall c, In c literal -> code c < 0x80)
    /\ decoding rfc_initial_n 0 rfc_initial_bias (map code literal) deltas u.

(* the Punycode text of u: as above with digits in lower case *)
Definition punycode_of (u : list N) (s : str) : Prop :=
  exists literal deltas,
    (s = literal ++ hyphen :: deltas /\ literal <> [] \/ s = deltas /\ literal = [])
    /\ (forall c, In c deltas -> In c lower_digits)
    /\ (forall c, In c literal -> code c < 0x80)
    /\ decoding rfc_initial_n 0 rfc_initial_bias (map code literal) deltas u.
