(* SPECIFICATION vocabulary for C84: encoding and decoding several times *)
From Verif Require Import Base ModelUri ModelParts SpecPct SpecStore SpecViews.
Local Open Scope list_scope.

(* n steps of R lead from x to y *)
Fixpoint times {X} (n : nat) (R : X -> X -> Prop) (x y : X) : Prop :=
  match n with O => y = x | S n => exists z, R x z /\ times n R z y end.
(* one call of uri::encode (uri::decode): some views showing the parts p, some other store, and the parts it then shows *)
Definition encode_call (p q : parts) : Prop := exists grow store vp st vq,
  proper vp /\ shows store vp p /\ parts_encode grow store vp = Ok (st, vq) /\ shows st vq q.
Definition decode_call (p q : parts) : Prop := exists grow store vp st vq,
  proper vp /\ shows store vp p /\ parts_decode grow store vp = Ok (st, inl vq) /\ shows st vq q.
(* some call of uri::decode reports an error *)
Definition decode_fails (p : parts) : Prop := exists grow store vp st e, proper vp /\ shows store vp p /\ parts_decode grow store vp = Ok (st, inr e).
