(* Specification: the hosts on which a first-match parser of "IP-literal / IPv4address / reg-name"
   agrees with the RFC 3986 grammar.  RFC 3986 section 3.2.2 resolves the ambiguity between
   IPv4address and reg-name by first-match on the whole host ("1.2.3.4.com" is a reg-name). *)
From Verif Require Import Base Rfc3986.

(* No proper prefix problem: the host is an IPv4 address or an IP literal, or it has no prefix that
   is an IPv4 address. *)
Definition host_unambiguous (h : str) : Prop :=
  L IPv4address h \/ ~ exists p q, h = p ++ q /\ L IPv4address p.

Definition unambiguous (c : components) : Prop :=
  match c_authority c with
  | Some (_, h, _) => host_unambiguous h
  | None => True
  end.
