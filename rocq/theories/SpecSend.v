(* SPECIFICATION: which texts can be sent in a URI, i.e. put into parts, encoded, composed, split and decoded
   again.  Vocabulary: Rfc3986.v (grammar), SpecPct.v (one_of), SpecViews.v (returns). *)
From Verif Require Import Base ModelUri Rfc3986 SpecHost SpecPct SpecStore SpecViews.
Local Open Scope list_scope.

(* the grammar rule of a component *)
Definition rule_of (f : field) : abnf :=
  match f with
  | Scheme => scheme | Userinfo => userinfo | Host => host | Port => port
  | Segment => segment | Query => query | Fragment => fragment
  end.
(* no character of s is one of these *)
Definition without (l : str) (s : str) : Prop := forall c, In c s -> ~ In c l.
(* The texts that encode makes into text of the component's rule.  In a path segment all but / [ \ ] ^ and |,
   in a query all but [ \ ] ^ | { } and the backquote, in a fragment the same and #. *)
Definition encodable (f : field) (s : str) : Prop :=
  match f with
  | Scheme => L scheme s
  | Port => L port s
  | Userinfo => True
  | Segment => without (ss "/[\]^|") s
  | Query => without (backquote :: ss "[\]^|{}") s
  | Fragment => without (backquote :: ss "#[\]^|{}") s
  | Host => (L host s /\ host_unambiguous s)
            \/ (Forall (fun c => (code c < 0x80)%N -> L (unreserved / sub_delims)%abnf [c]) s
                /\ ~ exists p q, s = p ++ q /\ L IPv4address p)
  end.
Definition sendable (f : field) (s : str) : Prop := encodable f s /\ (f = Host -> returns Host s).
