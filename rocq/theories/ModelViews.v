(* Model of programs that use several views and their iterators: views are copied, assigned to and destroyed while
   iterators of theirs are in use.  An iterator of pctdecode_view or transcode_view holds the address of its view and asks it for
   the end of the input; one of pctdecoder holds that end itself.  The texts that are looked at lie outside, are not
   changed and outlive everything; they are numbered.  The iterators' own work is that of ModelHist.v. *)
From Verif Require Import Base ModelPct ModelIcu ModelHist.
Local Open Scope list_scope.

(* a kind of views: what its iterators do over text number n, and what they use their view for *)
Record kind (V It : Type) := Kind {
  k_begin : nat -> bool -> outcome (It * bool);
  k_end : nat -> It;
  k_next : nat -> It -> bool -> outcome (It * bool);
  k_value : nat -> It -> outcome (It * V);          (* operator*, the value read at once *)
  k_eq : It -> It -> bool;
  k_next_asks : bool;                               (* operator++ asks the view for the end *)
  k_value_asks : bool;                              (* operator* does *)
  k_eq_parents : bool }.                            (* operator== compares the views' addresses *)
Arguments k_begin {V It}. Arguments k_end {V It}. Arguments k_next {V It}. Arguments k_value {V It}. Arguments k_eq {V It}.
Arguments k_next_asks {V It}. Arguments k_value_asks {V It}. Arguments k_eq_parents {V It}.

(* One step of a program.  Views and iterators are numbered in the order in which they come about. *)
Inductive vop :=
| Make (n : nat)             (* a view of text n *)
| CopyView (v : nat)
| AssignView (v w : nat)     (* view_v = view_w *)
| DropView (v : nat)         (* the end of its lifetime *)
| WellFormed (v : nat)
| BeginOf (v : nat)          (* auto it = view_v.begin () *)
| EndOf (v : nat)
| CopyIt (k : nat)
| AssignIt (k j : nat)
| DropIt (k : nat)
| IncIt (k : nat)
| ValueOf (k : nat)          (* the value of *it_k *)
| EqualIt (k j : nat).

Section Views.
Context {V It : Type}.
Variable K : kind V It.
(* the text and the mutable flag of a view; the view that an iterator came from, the text that it points into, and the rest of it *)
Record vobj := Vobj { w_text : nat; w_flag : bool }.
Record iobj := Iobj { o_view : nat; o_text : nat; o_it : It }.
Record world := World { views : list (option vobj); its : list (option iobj) }.

Definition the_view (m : world) (v : nat) : outcome vobj := match nth_error (views m) v with Some (Some x) => Ok x | _ => Fault dangling_view end.
Definition the_it (m : world) (k : nat) : outcome iobj := match nth_error (its m) k with Some (Some x) => Ok x | _ => Fault dangling_view end.
Definition add_view (m : world) (x : vobj) : world := World (views m ++ [Some x]) (its m).
Definition set_view (m : world) (v : nat) (x : option vobj) : world := World (put (views m) v x) (its m).
Definition add_it (m : world) (x : iobj) : world := World (views m) (its m ++ [Some x]).
Definition set_it (m : world) (k : nat) (x : option iobj) : world := World (views m) (put (its m) k x).

(* the end that an iterator gets from its view: the view must be there, and a position in one text has no distance to the end of another *)
Definition asks (m : world) (x : iobj) : outcome vobj :=
  do w <- the_view m (o_view x);
  if Nat.eqb (w_text w) (o_text x) then Ok w else Fault dangling_view.

Definition vstep (o : vop) (m : world) : outcome (world * list (obs V)) :=
  match o with
  | Make n => Ok (add_view m (Vobj n true), [])                                     (* pctdecode.hpp:108, 325-329, icubaby.hpp:2028 *)
  | CopyView v => do w <- the_view m v; Ok (add_view m w, [])                        (* implicitly defined, memberwise *)
  | AssignView v w => do _ <- the_view m v; do x <- the_view m w; Ok (set_view m v (Some x), [])
  | DropView v => do _ <- the_view m v; Ok (set_view m v None, [])
  | WellFormed v => do w <- the_view m v; Ok (m, [Bool (w_flag w)])                  (* icubaby.hpp:2047 *)
  | BeginOf v =>                                                                      (* pctdecode.hpp:118-120, 331, icubaby.hpp:2036 *)
      do w <- the_view m v; do (it, fl) <- k_begin K (w_text w) (w_flag w);
      Ok (add_it (set_view m v (Some (Vobj (w_text w) fl))) (Iobj v (w_text w) it), [])
  | EndOf v => do w <- the_view m v; Ok (add_it m (Iobj v (w_text w) (k_end K (w_text w))), [])   (* pctdecode.hpp:121-127, 332, icubaby.hpp:2038-2044 *)
  | CopyIt k => do x <- the_it m k; Ok (add_it m x, [])
  | AssignIt k j => do _ <- the_it m k; do x <- the_it m j; Ok (set_it m k (Some x), [])
  | DropIt k => do _ <- the_it m k; Ok (set_it m k None, [])
  | IncIt k =>                                                                        (* pctdecode.hpp:170-173, 282-285, icubaby.hpp:2106-2114 *)
      do x <- the_it m k;
      if k_next_asks K then
        do w <- asks m x; do (it, fl) <- k_next K (o_text x) (o_it x) (w_flag w);
        Ok (set_it (set_view m (o_view x) (Some (Vobj (w_text w) fl))) k (Some (Iobj (o_view x) (o_text x) it)), [])
      else
        do (it, _) <- k_next K (o_text x) (o_it x) true;
        Ok (set_it m k (Some (Iobj (o_view x) (o_text x) it)), [])
  | ValueOf k =>                                                                      (* pctdecode.hpp:160-163, 277-279, icubaby.hpp:2103 *)
      do x <- the_it m k;
      do _ <- (if k_value_asks K then do _ <- asks m x; Ok tt else Ok tt);
      do (it, v) <- k_value K (o_text x) (o_it x);
      Ok (set_it m k (Some (Iobj (o_view x) (o_text x) it)), [Val v])
  | EqualIt k j =>                                                                    (* pctdecode.hpp:182-186, 270-274, icubaby.hpp:2121-2125 *)
      do x <- the_it m k; do y <- the_it m j;
      if negb (Nat.eqb (o_text x) (o_text y)) then Fault assert_failed               (* iterators into different inputs *)
      else Ok (m, [Bool (k_eq K (o_it x) (o_it y) && (negb (k_eq_parents K) || Nat.eqb (o_view x) (o_view y)))])
  end.
Fixpoint vsteps (ops : list vop) (m : world) : outcome (list (obs V)) :=
  match ops with
  | [] => Ok []
  | o :: ops' => do (m', x) <- vstep o m; do y <- vsteps ops' m'; Ok (x ++ y)
  end.
Definition vrun (ops : list vop) : outcome (list (obs V)) := vsteps ops (World [] []).
End Views.

(* the value that a reference shows at once *)
Definition read_at {V} (C : iclass V) (it : ic_it C) : outcome (ic_it C * V) :=
  do (it', p) <- ic_deref C it;
  do v <- (match p with InRange i => ic_range C i | InObject j => ic_inside C it' j end);
  Ok (it', v).
(* uri::pctdecode_view (pctdecode.hpp:96-203): the end of the input is that of parent_->base_ *)
Definition pctdecode_views (text : nat -> str) : kind ascii pit :=
  Kind ascii pit (fun n => ic_begin (pct_class (text n))) (fun n => ic_end (pct_class (text n))) (fun n => ic_next (pct_class (text n)))
    (fun n => read_at (pct_class (text n))) (fun a b => Nat.eqb (i_pos a) (i_pos b)) true true false.
(* uri::pctdecoder with pctdecode_iterator (pctdecode.hpp:250-340): the iterators hold pos_ and end_ *)
Definition pctdecoders (text : nat -> str) : kind ascii pit :=
  Kind ascii pit (fun n => ic_begin (pct_class (text n))) (fun n => ic_end (pct_class (text n))) (fun n => ic_next (pct_class (text n)))
    (fun n => read_at (pct_class (text n))) (fun a b => Nat.eqb (i_pos a) (i_pos b)) false false false.
(* icubaby::ranges::transcode_view (icubaby.hpp:2004-2245): ++ asks the view for its end and sets its flag, * does not *)
Definition transcode_views (T : tcdr) (cap : nat) (text : nat -> list N) : kind N (vit T) :=
  Kind N (vit T) (fun n => ic_begin (view_class T cap (text n))) (fun n => ic_end (view_class T cap (text n))) (fun n => ic_next (view_class T cap (text n)))
    (fun n => read_at (view_class T cap (text n))) (fun a b => Nat.eqb (v_current T a) (v_current T b)) true false true.
