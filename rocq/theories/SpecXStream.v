(* What is assumed of stream buffers and of the standard library's streams (C69). *)
From Verif Require Import Base ModelXStream.
Local Open Scope list_scope.

(* sputn takes at most what it is given, says All only when it took everything and Short only when it did not; when it
   throws it may have taken any part *)
Definition honest {B} (sputn : B -> str -> B * nat * taken) : Prop := forall b s b' n r,
  sputn b s = (b', n, r) -> n <= length s /\ (r = All -> n = length s) /\ (r = Short -> n < length s).
(* writing less than asked is an error: it sets badbit or failbit *)
Definition reports (lib : library) : Prop := badbit (on_short lib) = true \/ failbit (on_short lib) = true.
(* every way in which a write can fail is in the exceptions () mask *)
Definition watches (lib : library) (m : bits) : Prop := badbit m = true /\ bits_meet (on_short lib) m = true.
(* a buffer with room for b more characters *)
Definition fixed (b : nat) (s : str) : nat * nat * taken :=
  (b - length s, Nat.min b (length s), if Nat.leb (length s) b then All else Short).
