(* SPECIFICATION vocabulary for C78: references that are resolved one after the other. *)
From Verif Require Import Base ModelUri SpecPath SpecConfine.
Local Open Scope list_scope.

(* a reference that names its place without the directory of the base: by a scheme, an authority, a path from the root, or
   as the same document (with another query or fragment) *)
Definition settled (r : parts) : Prop :=
  p_scheme r <> None \/ p_authority r <> None \/ segments (p_path r) = [] \/ absolute (p_path r) = true.
(* the other kind: it continues from the directory of the base *)
Definition continues (r : parts) : Prop := ~ settled r.
(* its path does not depend on the base *)
Definition rooted (r : parts) : Prop :=
  p_scheme r <> None \/ p_authority r <> None \/ (segments (p_path r) <> [] /\ absolute (p_path r) = true).
(* the path ends in a document x below the directories d, which lead somewhere else than where they start *)
Definition document_in (segs d : list str) : Prop := exists x k, segs = d ++ [x] /\ ~ is_dots x /\ resolves d k /\ k <> [].
(* what join keeps of the path of a base (the only segment is kept: F5) *)
Definition directory (p : path) : list str := match segments p with [x] => [x] | l => removelast l end.
(* the directories of the base do not end in an empty segment, as those of "http://h/a//b" do *)
Definition no_double_slash (b : parts) : Prop := forall k, ~ resolves (directory (p_path b)) (k ++ [[]]).
(* going on from r1 by r2, both relative, never leads above the directory of the base, and ends at k below it *)
Definition below (r1 r2 : parts) (k : list str) : Prop := inside (removelast (segments (p_path r1)) ++ segments (p_path r2)) k.
