(* Bytes, strings, integers and the outcome monad shared by all models. *)
From Coq Require Export Ascii String List NArith ZArith Lia Bool.
Export ListNotations.
Open Scope list_scope.

(* A std::string / std::string_view is represented by its contents. *)
Definition str := list ascii.
Definition ss (s : string) : str := list_ascii_of_string s.
Arguments ss s%string_scope.

Definition code (c : ascii) : N := N_of_ascii c.
Definition chr (n : N) : ascii := ascii_of_N n.

(* Ways in which a C++ evaluation can leave the language's guarantees. *)
Inductive fault :=
| ctype_domain      (* <cctype> call with an argument that is neither EOF nor an unsigned char *)
| out_of_range      (* std::out_of_range thrown by string_view::substr *)
| assert_failed     (* failed assert, or the undefined access it guards *)
| buffer_overflow   (* write outside a fixed-size array *)
| div_zero          (* integer division by zero *)
| dangling_view     (* use of a view into a buffer that has been reallocated *).

Inductive outcome (A : Type) :=
| Ok (a : A)
| Fault (f : fault)
| Diverge.          (* the loop did not finish within the given fuel *)
Arguments Ok {A} a. Arguments Fault {A} f. Arguments Diverge {A}.

Definition bind {A B} (x : outcome A) (f : A -> outcome B) : outcome B :=
  match x with Ok a => f a | Fault e => Fault e | Diverge => Diverge end.
Notation "x >>= f" := (bind x f) (at level 50, left associativity).
Notation "'do' x <- e ; k" := (bind e (fun x => k)) (at level 200, x pattern, e at level 100, k at level 200).

Definition str_eqb (a b : str) : bool := if list_eq_dec ascii_dec a b then true else false.
Definition opt_eqb {A} (e : A -> A -> bool) (a b : option A) : bool :=
  match a, b with Some x, Some y => e x y | None, None => true | _, _ => false end.
