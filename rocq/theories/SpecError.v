(* SPECIFICATION for the errors of Punycode decoding (C67).  The meaning of a text is that of RFC 3492 over
   unbounded integers, SpecPuny.puny_decodes. *)
From Verif Require Import Base SpecPuny SpecStore.
Local Open Scope N_scope.
Local Open Scope list_scope.

(* what s stands for; a delimiter in front is skipped (C21) *)
Definition reads (s : str) (u : list N) : Prop :=
  puny_decodes s u \/ exists s', s = hyphen :: s' /\ ~ In hyphen s' /\ puny_decodes s' u.
(* s stands for code points some of which are not 32-bit numbers *)
Definition too_large (s : str) : Prop := exists u c, reads s u /\ In c u /\ 2 ^ 32 <= c.
(* [first_bad s q]: xn--q is the first label of the host s that cannot be decoded *)
Definition first_bad (s q : str) : Prop :=
  exists before after, labels dot s (before ++ (xn ++ q) :: after)
    /\ Forall (fun l => exists t, label_decoded l t) before /\ ~ exists t, label_decoded (xn ++ q) t.
