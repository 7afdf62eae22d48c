(* SPECIFICATION vocabulary for C87: a URI continued *)
From Verif Require Import Base ModelUri Rfc3986.
Local Open Scope list_scope.

(* the same parts with another query and fragment *)
Definition with_end (p : parts) (q f : option str) : parts := mkparts (p_scheme p) (p_authority p) (p_path p) q f.
(* the same parts with one more segment *)
Definition with_segment (p : parts) (x : str) : parts :=
  mkparts (p_scheme p) (p_authority p)
    (mkpath (match segments (p_path p) with [] => true | _ => absolute (p_path p) end) (segments (p_path p) ++ [x])) (p_query p) (p_fragment p).
(* the text ends with "/", and this is all of the path *)
Definition only_root (p : parts) : Prop := p_authority p = None /\ absolute (p_path p) = true /\ segments (p_path p) = [[]].
