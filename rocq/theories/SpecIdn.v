(* SPECIFICATION for internationalised hosts (C68): what may be shown for a host, and the hosts that are written as
   encode writes them.  The vocabulary is that of SpecStore.v: labels, Punycode, UTF-8. *)
From Verif Require Import Base SpecPuny SpecIcu SpecStore.
Local Open Scope list_scope.

Definition ascii_part (t : str) : str := filter (fun c => (code c <? 0x80)%N) t.
(* what is in front of the last hyphen; nothing if there is no hyphen *)
Definition literal (q lit : str) : Prop := (exists d, q = lit ++ hyphen :: d /\ ~ In hyphen d) \/ (~ In hyphen q /\ lit = []).
Definition utf8_text (t : str) : Prop := exists cs, text utf8_of cs (map code t).

(* A label is shown as it is, or, after xn--, as well-formed UTF-8 whose ASCII characters are just those in front of
   its last hyphen, in the same order. *)
Definition label_shown (l t : str) : Prop :=
  (~ has_prefix xn l /\ t = l) \/ exists q, l = xn ++ q /\ literal q (ascii_part t) /\ utf8_text t.
(* A host is shown label by label, with as many labels; two hosts without any text are shown as they are. *)
Definition host_shown (s t : str) : Prop :=
  (exists ls ts, labels dot s ls /\ labels dot t ts /\ Forall2 label_shown ls ts)
  \/ (t = s /\ (s = ss "xn--" \/ s = ss "xn---")).

(* as encode writes it: ASCII that does not begin with xn--, or xn-- and the Punycode (RFC 3492, in lower case) of
   Unicode scalar values not all of which are ASCII *)
Definition normal_label (l : str) : Prop :=
  (ascii_only (map code l) /\ ~ has_prefix xn l)
  \/ exists q u, l = xn ++ q /\ punycode_of u q /\ Forall scalar u /\ ~ ascii_only u.
Definition normal_host (s : str) : Prop := exists ls, labels dot s ls /\ Forall normal_label ls.
