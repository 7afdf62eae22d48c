(* SPECIFICATION of views and iterators over numbered texts: an iterator is a cursor, a number between 0 and the length of what its
   text is shown as.  Only the language of programs (ModelViews.vop) is taken from the model. *)
From Verif Require Import Base ModelHist ModelViews.
Local Open Scope list_scope.

(* what a program must see to *)
Record rules := Rules {
  move_needs_view : bool;         (* to move an iterator, its view must be there and have the text it had *)
  read_needs_view : bool;         (* to read from one likewise *)
  equal_needs_view : bool;        (* only iterators of the same view are compared *)
  comparable : nat -> nat -> nat -> bool }.   (* length, two places *)

Section Spec.
Context {V : Type}.
Variable shown : nat -> list V.   (* what text n is shown as *)
Variable fine : nat -> bool.      (* whether text n is well formed *)
Variable R : rules.

(* a view: its text, and whether that was looked at to its end through this view or the one it was copied from *)
Record sview := Sview { s_text : nat; s_seen : bool }.
Record scursor := Scursor { s_view : nat; s_of : nat; s_at : nat }.
Record sworld := Sworld { s_views : list (option sview); s_its : list (option scursor) }.
Definition view (c : sworld) (v : nat) : option sview := match nth_error (s_views c) v with Some x => x | None => None end.
Definition cur (c : sworld) (k : nat) : option scursor := match nth_error (s_its c) k with Some x => x | None => None end.
Definition in_place (c : sworld) (x : scursor) : bool := match view c (s_view x) with Some w => Nat.eqb (s_text w) (s_of x) | None => false end.
Definition seen_if (b : bool) (w : sview) : sview := Sview (s_text w) (s_seen w || b).

(* None: the program does something it has no right to *)
Definition spec_step (o : vop) (c : sworld) : option (sworld * list (obs V)) :=
  let new_view x := Sworld (s_views c ++ [Some x]) (s_its c) in
  let view_is v x := Sworld (put (s_views c) v x) (s_its c) in
  let new_it x := Sworld (s_views c) (s_its c ++ [Some x]) in
  let it_is k x := Sworld (s_views c) (put (s_its c) k x) in
  match o with
  | Make n => Some (new_view (Sview n false), [])
  | CopyView v => match view c v with Some x => Some (new_view x, []) | None => None end
  | AssignView v w => match view c v, view c w with Some _, Some x => Some (view_is v (Some x), []) | _, _ => None end
  | DropView v => match view c v with Some _ => Some (view_is v None, []) | None => None end
  | WellFormed v => match view c v with
                    | Some x => if fine (s_text x) || s_seen x then Some (c, [Bool (fine (s_text x))]) else None
                    | None => None
                    end
  | BeginOf v => match view c v with
                 | Some x => Some (Sworld (put (s_views c) v (Some (seen_if (Nat.eqb 0 (length (shown (s_text x)))) x))) (s_its c ++ [Some (Scursor v (s_text x) 0)]), [])
                 | None => None
                 end
  | EndOf v => match view c v with Some x => Some (new_it (Scursor v (s_text x) (length (shown (s_text x)))), []) | None => None end
  | CopyIt k => match cur c k with Some x => Some (new_it x, []) | None => None end
  | AssignIt k j => match cur c k, cur c j with Some _, Some x => Some (it_is k (Some x), []) | _, _ => None end
  | DropIt k => match cur c k with Some _ => Some (it_is k None, []) | None => None end
  | IncIt k =>
      match cur c k with
      | Some x =>
          let len := length (shown (s_of x)) in
          let moved := put (s_its c) k (Some (Scursor (s_view x) (s_of x) (S (s_at x)))) in
          if negb (Nat.ltb (s_at x) len) then None
          else if move_needs_view R then
            match view c (s_view x) with
            | Some w => if in_place c x then Some (Sworld (put (s_views c) (s_view x) (Some (seen_if (Nat.eqb (S (s_at x)) len) w))) moved, []) else None
            | None => None
            end
          else Some (Sworld (s_views c) moved, [])
      | None => None
      end
  | ValueOf k =>
      match cur c k with
      | Some x => if read_needs_view R && negb (in_place c x) then None
                  else match nth_error (shown (s_of x)) (s_at x) with Some v => Some (c, [Val v]) | None => None end
      | None => None
      end
  | EqualIt k j =>
      match cur c k, cur c j with
      | Some x, Some y =>
          if Nat.eqb (s_of x) (s_of y) && (negb (equal_needs_view R) || Nat.eqb (s_view x) (s_view y)) && comparable R (length (shown (s_of x))) (s_at x) (s_at y)
          then Some (c, [Bool (Nat.eqb (s_at x) (s_at y))]) else None
      | _, _ => None
      end
  end.
Fixpoint spec_steps (ops : list vop) (c : sworld) : option (list (obs V)) :=
  match ops with
  | [] => Some []
  | o :: ops' => match spec_step o c with
                 | Some (c', x) => match spec_steps ops' c' with Some y => Some (x ++ y) | None => None end
                 | None => None
                 end
  end.
Definition spec_run (ops : list vop) : option (list (obs V)) := spec_steps ops (Sworld [] []).
(* where a program has come to *)
Fixpoint state_after (ops : list vop) (c : sworld) : option sworld :=
  match ops with [] => Some c | o :: ops' => match spec_step o c with Some (c', _) => state_after ops' c' | None => None end end.
(* iterator k is there, but its view is not, or shows another text by now *)
Definition abandoned (ops : list vop) (k : nat) : Prop := exists c x, state_after ops (Sworld [] []) = Some c /\ cur c k = Some x /\ in_place c x = false.
End Spec.

(* the rules: for pctdecode_view, for pctdecoder and for transcode_view (whose iterators may be compared at the same place or
   with the end) *)
Definition pctdecode_view_rules : rules := Rules true true false (fun _ _ _ => true).
Definition pctdecoder_rules : rules := Rules false false false (fun _ _ _ => true).
Definition transcode_view_rules : rules := Rules true false true (fun n i j => Nat.eqb i j || Nat.eqb i n || Nat.eqb j n).
