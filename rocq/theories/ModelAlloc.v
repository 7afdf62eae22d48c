(* Model of the parser, of valid () and of join () in a memory that may run out.  The rules of uri.cpp are those of
   ModelParse.v; what is modelled here is where memory is asked for and that a refusal (std::bad_alloc) ends everything
   up to the caller.  Memory is asked for by std::vector only: for the acceptors of a rule and for the segments of a
   path (string_views, optionals, the tuples and the functions passed by value need none; a std::function made from one of
   uri.cpp's function objects may or may not, so that it counts as part of the request for its vector). *)
From Verif Require Import Base ModelRule ModelUri ModelParse.

(* a vector of n elements is wanted *)
Inductive request := Accs (n : nat) | Segs (n : nat).
Section Memory.
Context {Mem : Type}.
(* what the allocator answers: None is std::bad_alloc *)
Variable alloc : request -> Mem -> option Mem.
Definition R (X : Type) : Type := Mem -> outcome (option (X * Mem)).
Definition ret {X} (x : X) : R X := fun m => Ok (Some (x, m)).
Definition lift {X} (o : outcome X) : R X := fun m => do x <- o; Ok (Some (x, m)).
(* what follows an exception is not done *)
Definition seqm {X Y} (a : R X) (f : X -> R Y) : R Y := fun m =>
  do r <- a m; match r with None => Ok None | Some (x, m') => f x m' end.
Definition need (k : request) : R unit := fun m => Ok (option_map (fun m' => (tt, m')) (alloc k m)).
Notation "x <~ a ; b" := (seqm a (fun x => b)) (at level 61, a at next level, right associativity).
Notation "a ;; b" := (seqm a (fun _ => b)) (at level 61, right associativity).

Section Rule.
Context {A : Type}.
Definition matcher_m := rule A -> R (matched_result A).
(* *this returned by value: the acceptors are copied *)
Definition copy_m (r : rule A) : R (rule A) := need (Accs (length (accs r))) ;; ret r.
(* rule.hpp:178-190: substr first, then reserve (a.size () + b.size ()) *)
Definition join_rule_mm (self : rule A) (x : str * acceptors A) : R (rule A) :=
  r <~ lift (join_rule_m self x) ; need (Accs (length (accs self) + length (snd x))) ;; ret r.
(* rule.hpp:294-312 *)
Definition concat_impl_m (f : matcher_m) (acc : option A) (opt : bool) (self : rule A) : R (rule A) :=
  match tail self with
  | None => copy_m self
  | Some t =>
    x <~ f (rule_of t) ;
    match x with
    | Some (s, a) =>
      a' <~ match acc with None => ret a | Some g => need (Accs (S (length a))) ;; ret (a ++ [(g, s)]) end ;
      join_rule_mm self (s, a')
    | None => if opt then copy_m self else ret rule_fail
    end
  end.
(* rule.hpp:273-290, 192-194 *)
Definition optional_impl_m (f : matcher_m) (acc : option A) (self : rule A) : R (rule A) :=
  match tail self with
  | None => copy_m self
  | Some t =>
    res <~ concat_impl_m f acc true (rule_of t) ;
    match tail res with
    | None => copy_m self
    | Some _ => need (Accs (length (accs self) + length (accs res))) ;; ret (join_rule_r self res)
    end
  end.
(* rule.hpp:209-241; inserting an empty range asks for nothing *)
Fixpoint star_loop_m (fuel : nat) (f : matcher_m) (max : N) (s : str) (len : nat)
    (acc : acceptors A) (count : N) : R (nat * acceptors A * N) :=
  match fuel with
  | O => lift Diverge
  | S fuel' =>
    x <~ f (rule_of s) ;
    match x with
    | None => ret (len, acc, count)
    | Some (ms, a) =>
      let count := uint_incr count in
      if (max <? count)%N then ret (len, acc, count)
      else if Nat.ltb (length s) (length ms) then lift (Fault out_of_range)
      else need (Accs match a with [] => 0 | _ => length acc + length a end) ;;
           star_loop_m fuel' f max (skipn (length ms) s) (len + length ms) (acc ++ a) count
    end
  end.
Definition star_m (fuel : nat) (f : matcher_m) (min max : N) (self : rule A) : R (rule A) :=
  match tail self with
  | None => copy_m self
  | Some t =>
    need (Accs (length (accs self))) ;;
    x <~ star_loop_m fuel f max t 0 (accs self) 0 ;
    let '(len, acc, count) := x in
    if (count <? min)%N then ret rule_fail
    else t' <~ lift (substr_from len t) ; ret (mkrule (Some t') acc)
  end.
(* rule.hpp:149, 245-257 *)
Fixpoint alternative_m (fs : list matcher_m) (self : rule A) : R (rule A) :=
  match fs with
  | [] => ret rule_fail
  | f :: rest =>
    match tail self with
    | None => copy_m self
    | Some t =>
      x <~ f (rule_of t) ;
      match x with Some x => join_rule_mm self x | None => alternative_m rest self end
    end
  end.
(* rule.cpp:36-56: make_tuple (str, acceptors_) *)
Definition matched_m (input self : rule A) : R (matched_result A) :=
  x <~ lift (matched input self) ;
  match x with None => ret None | Some y => need (Accs (length (accs self))) ;; ret (Some y) end.
(* rule.hpp:316-323, uri.cpp:94-106: the acceptor container is empty *)
Definition leaf_m (f : matcher A) : matcher_m := fun r => lift (f r).
End Rule.

(* uri.cpp:477-520: emplace_back may make segments grow; nothing else asks for memory *)
Definition run_action_m (a : action) (s : str) (p : parts) : R parts :=
  match a with
  | AppendDir _ | RecordInitialSegment => need (Segs (S (length (segments (p_path p))))) ;; lift (run_action a s p)
  | _ => lift (run_action a s p)
  end.
Fixpoint run_accs_m (l : acceptors action) (p : parts) : R parts :=
  match l with [] => ret p | (a, s) :: l' => p' <~ run_action_m a s p ; run_accs_m l' p' end.
(* rule.cpp:24-34 *)
Definition done_m (r : rule action) (p : parts) : R (bool * parts) :=
  match tail r with Some [] => p' <~ run_accs_m (accs r) p ; ret (true, p') | _ => ret (false, p) end.

Section Run.
Variable sg : bool.
Variable fuel : nat.
(* the rules, see ModelParse.v *)
Fixpoint run_m (g : gram) : rule action -> R (matched_result action) :=
  match g with
  | Single cp => leaf_m (single_code_point sg cp)
  | Range a b => leaf_m (code_point_range sg a b)
  | Alpha => leaf_m (alpha sg) | Digit => leaf_m (digit sg) | Hexdig => leaf_m (hexdig sg)
  | Unreserved => leaf_m (unreserved sg) | Sub_delims => leaf_m sub_delims | Not_colon => leaf_m not_colon
  | Rule c => fun r => x <~ run_chain_m c r ; matched_m r x
  end
with run_chain_m (c : chain) (r : rule action) : R (rule action) :=
  match c with
  | Start => ret r
  | Concat c g acc => x <~ run_chain_m c r ; concat_impl_m (run_m g) acc false x
  | Optional c g acc => x <~ run_chain_m c r ; optional_impl_m (run_m g) acc x
  | Repeat c g min max => x <~ run_chain_m c r ; star_m fuel (run_m g) min max x
  | Alt c gs => x <~ run_chain_m c r ; alternative_m (run_all_m gs) x
  end
with run_all_m (gs : grams) : list (rule action -> R (matched_result action)) :=
  match gs with Gnil => [] | Gcons g gs => run_m g :: run_all_m gs end.

(* rule{in}.concat (f).done () *)
Definition parse_m (g : gram) (inp : str) : R (option parts) :=
  r <~ concat_impl_m (run_m g) None false (rule_of inp) ;
  b <~ done_m r empty_parts ;
  ret (if fst b then Some (snd b) else None).
(* uri.cpp:896-907; the result is moved out *)
Definition split_m : str -> R (option parts) := parse_m Uri.
Definition split_reference_m : str -> R (option parts) := parse_m Uri_reference.

(* uri.cpp:828-875 *)
Definition matches_m (g : gram) (s : str) : R bool :=
  r <~ concat_impl_m (run_m g) None false (rule_of s) ; b <~ done_m r empty_parts ; ret (fst b).
Definition opt_matches_m (g : gram) (s : option str) : R bool := match s with None => ret true | Some s => matches_m g s end.
Definition andalso_m (x y : R bool) : R bool := b <~ x ; if b then y else ret false.
Fixpoint segs_valid_m (l : list str) : R bool :=
  match l with [] => ret true | seg :: l' => andalso_m (matches_m Segment seg) (segs_valid_m l') end.
Definition authority_valid_m (a : authority) : R bool :=
  andalso_m (opt_matches_m Userinfo (userinfo a)) (andalso_m (matches_m Host (host a)) (opt_matches_m Port (port a))).
Definition parts_valid_m (p : parts) : R bool :=
  andalso_m (match p_scheme p with None => ret false | Some s => matches_m Scheme s end)
  (andalso_m (match p_authority p with None => ret true | Some a => authority_valid_m a end)
  (andalso_m (segs_valid_m (segments (p_path p)))
  (andalso_m (opt_matches_m Query (p_query p)) (opt_matches_m Query (p_fragment p))))).
End Run.

(* uri.cpp:769-800: emplace_back after erase (outit, end).  The vector has room for as many segments as it had before
   (n: that many, there may be more), so that memory is wanted only if the result is longer. *)
Definition remove_dot_segments_m (p : path) : R path :=
  let p' := remove_dot_segments p in
  need (Segs (if Nat.leb (length (segments p')) (length (segments p)) then 0 else length (segments p'))) ;; ret p'.
(* uri.cpp:940-983: target.path = reference.path copies the segments, merge () makes a new vector (simplified: one request
   for its final size, where std::back_inserter makes it grow) *)
Definition join_parts_m (base reference : parts) (strict : bool) : R parts :=
  let ref_scheme :=
    if negb strict && opt_eqb str_eqb (p_scheme reference) (p_scheme base) then None else p_scheme reference in
  let copied p := need (Segs (length (segments p))) ;; ret p in
  match ref_scheme with
  | Some s =>
    p <~ copied (p_path reference) ; p <~ remove_dot_segments_m p ;
    ret (mkparts (Some s) (p_authority reference) p (p_query reference) (p_fragment reference))
  | None =>
    match p_authority reference with
    | Some a =>
      p <~ copied (p_path reference) ; p <~ remove_dot_segments_m p ;
      ret (mkparts (p_scheme base) (Some a) p (p_query reference) (p_fragment reference))
    | None =>
      if path_is_empty (p_path reference) then
        p <~ copied (p_path base) ;
        ret (mkparts (p_scheme base) (p_authority base) p
               (match p_query reference with Some q => Some q | None => p_query base end) (p_fragment reference))
      else
        p <~ copied (if absolute (p_path reference) then p_path reference else merge base reference) ; p <~ remove_dot_segments_m p ;
        ret (mkparts (p_scheme base) (p_authority base) p (p_query reference) (p_fragment reference))
    end
  end.
(* uri.cpp:985-996 *)
Definition join_m (sg : bool) (fuel : nat) (base reference : str) (strict : bool) : R (option parts) :=
  b <~ split_m sg fuel base ;
  match b with
  | None => ret None
  | Some bp =>
    r <~ split_reference_m sg fuel reference ;
    match r with
    | None => ret None
    | Some rp => t <~ join_parts_m bp rp strict ; ret (Some t)
    end
  end.
End Memory.
