(* SPECIFICATION vocabulary for C88: references written out *)
From Verif Require Import Base ModelUri Rfc3986.
Local Open Scope list_scope.

(* the parts after parts::path::remove_dot_segments *)
Definition without_dots (p : parts) : parts := mkparts (p_scheme p) (p_authority p) (remove_dot_segments (p_path p)) (p_query p) (p_fragment p).
(* only the scheme and the authority of p *)
Definition origin (p : parts) : parts := mkparts (p_scheme p) (p_authority p) empty_path None None.
(* p, without its query and fragment, up to the last "/" of its path, which is after the segments d *)
Definition up_to (p : parts) (d : list str) : parts := mkparts (p_scheme p) (p_authority p) (mkpath (absolute (p_path p)) (d ++ [[]])) None None.
(* a reference without scheme and authority whose path is not empty and does not begin with "/" *)
Definition from_here (r : parts) : Prop := p_scheme r = None /\ p_authority r = None /\ segments (p_path r) <> [] /\ absolute (p_path r) = false.
