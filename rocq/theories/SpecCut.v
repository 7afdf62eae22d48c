(* SPECIFICATION vocabulary for C86: a URI cut short *)
From Verif Require Import Base Rfc3986 SpecPct SpecStore.
Local Open Scope list_scope.

(* the text ends within an escape *)
Definition cut_escape (u : str) : Prop := exists w, u = w ++ [percent] \/ exists a, u = w ++ [percent; a].
(* the text of scheme and authority, with what follows the one and precedes the other *)
Definition head_text (c : components) : str :=
  opt_post (c_scheme c) (ss ":")
  ++ match c_authority c with Some (u, h, p) => ss "//" ++ opt_post u (ss "@") ++ h ++ opt_pre (ss ":") p | None => [] end.
(* the segments m, cut somewhere: some whole segments, and a beginning of the next *)
Definition cut_segments (l m : list str) : Prop := l = [] \/ exists k x y r, l = k ++ [x] /\ m = k ++ y :: r /\ has_prefix x y.
(* a component is cut: its text is a beginning of the other *)
Definition cut_text (x y : option str) : Prop := exists a b, x = Some a /\ y = Some b /\ has_prefix a b.
(* c is d cut within the path, the query or the fragment *)
Definition cut_behind (c d : components) : Prop :=
  c_scheme c = c_scheme d /\ c_authority c = c_authority d
  /\ ((cut_segments (c_segments c) (c_segments d) /\ (c_segments c <> [] -> c_absolute c = c_absolute d) /\ c_query c = None /\ c_fragment c = None)
      \/ (c_absolute c = c_absolute d /\ c_segments c = c_segments d
          /\ ((cut_text (c_query c) (c_query d) /\ c_fragment c = None)
              \/ (c_query c = c_query d /\ cut_text (c_fragment c) (c_fragment d))))).
(* c is d cut within the host or the port *)
Definition cut_host (c d : components) : Prop :=
  c_scheme c = c_scheme d /\ c_query c = None /\ c_fragment c = None /\ c_segments c = []
  /\ exists x h p y q, c_authority d = Some (None, h, p) /\ c_authority c = Some (None, y, q)
     /\ ((q = None /\ y ++ x = h) \/ (y = h /\ cut_text q p)).
(* the host is not an IP literal, and there is no userinfo *)
Definition plain_host (d : components) : Prop := forall u h p, c_authority d = Some (u, h, p) -> u = None /\ ~ has_prefix (ss "[") h.
