(* Model of several threads that use one const view, and iterators obtained from it before the threads were
   started.  Each thread has its own further iterators.  The threads do not wait for each other; a run is a
   list of (thread, operation), any interleaving, and yields what each thread sees and which accesses were made to
   memory that more than one thread can reach: the shared iterators, and the view's well_formed_.  The
   underlying range and the view's other members are only read. *)
From Verif Require Import Base ModelPct ModelIcu ModelHist.
Local Open Scope list_scope.

Inductive location := SharedIterator (k : nat) | WellFormedFlag.
Record event := Event { e_thread : nat; e_at : location; e_write : bool }.

Section Threads.
Context {V : Type}.
Variable C : iclass V.
(* does operator* const write to the iterator it is called on? *)
Variable deref_writes : ic_it C -> bool.

(* w_shared: the iterators made before the threads started; thread i has its own ones and its references.
   In the program of a thread the numbers 0 .. length w_shared - 1 are the shared iterators. *)
Record world := World {
  w_shared : list (option (ic_it C)); w_flag : bool;
  w_own : nat -> list (option (ic_it C)); w_refs : nat -> list (nat * place) }.
Definition start (m : machine C) : world := World (m_objs C m) (m_flag C m) (fun _ => []) (fun _ => m_refs C m).
(* what thread i can see *)
Definition view_of_thread (w : world) (i : nat) : machine C := Machine C (w_shared w ++ w_own w i) (w_refs w i) (w_flag w).

(* iterators read (false) or written (true) by an operation *)
Definition touches (o : op) (m : machine C) : list (nat * bool) :=
  match o with
  | Begin | End | Flag => []
  | Copy k => [(k, false)]
  | Assign k j => [(k, true); (j, false)]
  | Inc k | PostInc k | Destroy k => [(k, true)]
  | Deref k => match object C m k with Ok it => [(k, deref_writes it)] | _ => [] end
  | Read r => match nth_error (m_refs C m) r with Some (k, InObject _) => [(k, false)] | _ => [] end
  | Equal k j => [(k, false); (j, false)]
  end.
(* icubaby.hpp:2224-2226 is the only assignment to well_formed_ and it assigns false: it is made exactly when a
   flag that was true is false afterwards *)
Definition writes_flag (o : op) (m : machine C) : bool :=
  match step C o (Machine C (m_objs C m) (m_refs C m) true) with Ok (m', _) => negb (m_flag C m') | _ => false end.
Definition accesses (i n : nat) (o : op) (m : machine C) : list event :=
  map (fun x => Event i (SharedIterator (fst x)) (snd x)) (filter (fun x => Nat.ltb (fst x) n) (touches o m))
  ++ (match o with Flag => [Event i WellFormedFlag false] | _ => [] end)
  ++ (if writes_flag o m then [Event i WellFormedFlag true] else []).

Definition set {A} (f : nat -> A) (i : nat) (a : A) : nat -> A := fun j => if Nat.eqb j i then a else f j.
Definition thread_step (i : nat) (o : op) (w : world) : outcome (world * list (obs V) * list event) :=
  let n := length (w_shared w) in
  let m := view_of_thread w i in
  do (m', x) <- step C o m;
  Ok (World (firstn n (m_objs C m')) (m_flag C m') (set (w_own w) i (skipn n (m_objs C m'))) (set (w_refs w) i (m_refs C m')), x,
      accesses i n o m).
Fixpoint threads (g : list (nat * op)) (w : world) : outcome (list (nat * obs V) * list event) :=
  match g with
  | [] => Ok ([], [])
  | (i, o) :: g' =>
      do (w', x, ev) <- thread_step i o w;
      do (y, ev') <- threads g' w';
      Ok (map (pair i) x ++ y, ev ++ ev')
  end.
(* first [setup] is run by a single thread, then the threads run *)
Fixpoint steps_to (ops : list op) (m : machine C) : outcome (machine C) :=
  match ops with [] => Ok m | o :: ops' => do (m', _) <- step C o m; steps_to ops' m' end.
Definition run_threads (setup : list op) (g : list (nat * op)) : outcome (list (nat * obs V) * list event) :=
  do m <- steps_to setup (Machine C [] [] true); threads g (start m).
End Threads.

(* pctdecode.hpp:89: hex_, a mutable member of the iterator, is assigned when there is an escape to decode *)
Definition pit_deref_writes (s : str) (it : pit) : bool := match pit_deref s it with Ok (_, InObject _) => true | _ => false end.
Definition pct_threads (s : str) := run_threads (pct_class s) (pit_deref_writes s).
(* icubaby.hpp:2103, 2139-2142: state_ is mutable but front () changes nothing *)
Definition view_threads (T : tcdr) (cap : nat) (base : list N) := run_threads (view_class T cap base) (fun _ => false).
