(* SPECIFICATION vocabulary for C89: internationalised names that mean the same.  labels, puny_text, xn, ascii_only: SpecStore.v *)
From Verif Require Import Base SpecPuny SpecIcu SpecStore.
From Verif Require Rfc3986.
Local Open Scope list_scope.

(* the tidy spelling of a Punycode: what is after the last hyphen (the digits) in lower case; a hyphen with nothing before it goes away *)
Definition tidy (s e : str) : Prop :=
  exists lit ds, (s = lit ++ hyphen :: ds \/ (s = ds /\ lit = [])) /\ ~ In hyphen ds
    /\ e = (match lit with [] => [] | _ => lit ++ [hyphen] end) ++ map Rfc3986.lower ds.
(* the tidy spelling of a label: after xn--, the tidy Punycode; or the text itself if it is ASCII
   (and does not begin with xn-- again) *)
Definition tidy_label (l e : str) : Prop :=
  (ascii_only (map code l) /\ ~ has_prefix xn l /\ e = l)
  \/ exists q u, l = xn ++ q /\ puny_text q u /\ Forall scalar u
       /\ ((ascii_only u /\ ~ has_prefix xn e /\ map code e = u) \/ (~ ascii_only u /\ exists q', tidy q q' /\ e = xn ++ q')).
Definition tidy_host (s e : str) : Prop := exists ls es, labels dot s ls /\ labels dot e es /\ Forall2 tidy_label ls es.
