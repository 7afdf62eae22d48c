(* Model of a program that uses one transcoder for several texts: it feeds each to operator(), calls end_cp and asks
   well_formed() (icubaby.hpp:551-606; the calls themselves are those of ModelIcu.v). *)
From Verif Require Import Base ModelIcu.
Local Open Scope list_scope.

(* the output and the answer of well_formed() for each text *)
Fixpoint session (T : tcdr) (s : tc_st T) (texts : list (list N)) : outcome (list (list N * bool)) :=
  match texts with
  | [] => Ok []
  | l :: rest =>
      do (s1, w) <- feed T s l;
      do (s2, w') <- tc_end T s1;
      do r <- session T s2 rest;
      Ok ((w ++ w', tc_wf T s2) :: r)
  end.
