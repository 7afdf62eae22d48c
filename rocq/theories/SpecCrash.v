(* SPECIFICATION for C56: what a run that failed half-way may have left in the store, and when two runs did the same. *)
From Verif Require Import Base ModelParts SpecStore SpecViews.
Local Open Scope list_scope.

(* a is the beginning of b *)
Definition begins (a b : str) : Prop := exists rest, b = a ++ rest.
(* views of two stores that are in the same place of each *)
Definition same_place (v w : view) : Prop :=
  match v, w with
  | Null, Null => True
  | Caller s, Caller t => s = t
  | InStore _ off len, InStore _ off' len' => off = off' /\ len = len'
  | _, _ => False
  end.
(* the two stores hold the same text, and all the views are in the same places *)
Definition same_result (st : vec) (q : vparts) (st' : vec) (q' : vparts) : Prop :=
  vc_data st = vc_data st' /\ views_rel (fun _ => same_place) q q'.
