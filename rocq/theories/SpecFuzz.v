(* SPECIFICATION vocabulary for C91: when the text of valid parts is a URI at all *)
From Verif Require Import Base ModelUri Rfc3986 SpecHost.
Local Open Scope list_scope.

(* the path begins with two slashes, and y follows them up to the next slash *)
Definition two_slashes (path y : str) : Prop :=
  exists rest, path = ss "//" ++ y ++ rest /\ ~ In "/"%char y /\ (rest = [] \/ exists r, rest = "/"%char :: r).
(* y reads as [ userinfo "@" ] host [ ":" port ] *)
Definition reads_as_authority (y : str) : Prop := exists u h po, authority_decomp y (u, h, po) /\ host_unambiguous h.
(* some label of the host begins with xn-- *)
Definition begins_xn (h : str) : Prop := (exists r, h = ss "xn--" ++ r) \/ exists a b, h = a ++ ss ".xn--" ++ b.
