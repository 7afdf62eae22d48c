(* Model of the parser of uri.cpp with the depth of its calls: how many calls of the project's functions are under way at once, at most.
   Counted are the match functions (named ones and lambdas), the members of rule (concat, concat_impl, optional, star, alternative, single_char,
   matched, join_rule, join, done), single_code_point, the predicates, the acceptors and what they call, split and valid; not the functions of the standard library.
   The rules as data (gram) are those of ModelParse.v. *)
From Verif Require Import Base ModelRule ModelUri ModelParse.
Local Open Scope nat_scope.

Section Rule.
Context {A : Type}.
Definition matcher_d := rule A -> outcome (matched_result A * nat).
(* rule.hpp:187-189, 178-185: join_rule calls join *)
Definition join_depth : nat := 2.

(* rule.hpp:294-312; the depth is that of concat_impl itself *)
Definition concat_impl_d (f : matcher_d) (acc : option A) (opt : bool) (self : rule A) : outcome (rule A * nat) :=
  match tail self with
  | None => Ok (self, 1)
  | Some t =>
    do (m, d) <- f (rule_of t);
    match m with
    | Some (s, a) =>
      let a' := match acc with None => a | Some g => a ++ [(g, s)] end in
      do r <- join_rule_m self (s, a'); Ok (r, S (Nat.max d join_depth))
    | None => if opt then Ok (self, S d) else Ok (rule_fail, S d)
    end
  end.
(* rule.hpp:111-121: concat calls concat_impl *)
Definition concat_d (f : matcher_d) (acc : option A) (self : rule A) : outcome (rule A * nat) :=
  do (r, d) <- concat_impl_d f acc false self; Ok (r, S d).
(* rule.hpp:273-290: optional (match) calls optional (match, accept), and this concat_impl and join_rule *)
Definition optional_d (f : matcher_d) (acc : option A) (self : rule A) : outcome (rule A * nat) :=
  let outer := match acc with None => 1 | Some _ => 0 end in
  match tail self with
  | None => Ok (self, outer + 1)
  | Some t =>
    do (res, d) <- concat_impl_d f acc true (rule_of t);
    match tail res with
    | None => Ok (self, outer + S d)
    | Some _ => Ok (join_rule_r self res, outer + S (Nat.max d join_depth))
    end
  end.
(* rule.hpp:209-241: a loop *)
Fixpoint star_loop_d (fuel : nat) (f : matcher_d) (max : N) (s : str) (len : nat)
    (acc : acceptors A) (count : N) : outcome (nat * acceptors A * N * nat) :=
  match fuel with
  | O => Diverge
  | S fuel' =>
    do (m, d) <- f (rule_of s);
    match m with
    | None => Ok (len, acc, count, d)
    | Some (ms, a) =>
      let count := uint_incr count in
      if (max <? count)%N then Ok (len, acc, count, d)
      else if Nat.ltb (length s) (length ms) then Fault out_of_range
      else do (r, d') <- star_loop_d fuel' f max (skipn (length ms) s) (len + length ms) (acc ++ a) count;
           Ok (r, Nat.max d d')
    end
  end.
Definition star_d (fuel : nat) (f : matcher_d) (min max : N) (self : rule A) : outcome (rule A * nat) :=
  match tail self with
  | None => Ok (self, 1)
  | Some t =>
    do (r, d) <- star_loop_d fuel f max t 0 (accs self) 0%N;
    let '(len, acc, count) := r in
    if (count <? min)%N then Ok (rule_fail, S d)
    else do t' <- substr_from len t; Ok (mkrule (Some t') acc, S d)
  end.
(* rule.hpp:149, 245-257: calls itself for the next alternative *)
Fixpoint alternative_d (fs : list matcher_d) (self : rule A) : outcome (rule A * nat) :=
  match fs with
  | [] => Ok (rule_fail, 1)
  | f :: rest =>
    match tail self with
    | None => Ok (self, 1)
    | Some t =>
      do (m, d) <- f (rule_of t);
      match m with
      | Some (s, a) => do r <- join_rule_m self (s, a); Ok (r, S (Nat.max d join_depth))
      | None => do (r, d') <- alternative_d rest self; Ok (r, S (Nat.max d d'))
      end
    end
  end.
(* rule.cpp:36-56 *)
Definition matched_d (input self : rule A) : outcome (matched_result A * nat) := do m <- matched input self; Ok (m, 1).
(* a match function that looks at one character, at the given depth if there is one *)
Definition leaf_d (k : nat) (f : matcher A) : matcher_d := fun r =>
  do m <- f r; Ok (m, match tail r with Some (_ :: _) => k | _ => k - 1 end).
(* r.xxx (...) after what has been done to r before: the first call has returned when the second is made *)
Definition then_d (x : outcome (rule A * nat)) {B} (f : rule A -> outcome (B * nat)) : outcome (B * nat) :=
  do (r, d) <- x; do (y, d') <- f r; Ok (y, Nat.max d d').
(* the call of a match function *)
Definition fn_d {B} (x : outcome (B * nat)) : outcome (B * nat) := do (y, d) <- x; Ok (y, S d).
End Rule.
Arguments matcher_d : clear implicits.

Section Run.
Variable sg : bool.
Variable fuel : nat.
(* uri.cpp:25-30, 48-92: colon, say, calls single_code_point, single_char (char), single_char (pred), pred;
   uri.cpp:32-46, 108-131, rule.hpp:328-349: the others call single_char (pred), pred; uri.cpp:97-105: the lambda calls tail () *)
Fixpoint run_d (g : gram) : matcher_d action :=
  match g with
  | Single cp => leaf_d 5 (single_code_point sg cp)
  | Range a b => leaf_d 3 (code_point_range sg a b)
  | Alpha => leaf_d 3 (alpha sg) | Digit => leaf_d 3 (digit sg) | Hexdig => leaf_d 3 (hexdig sg)
  | Unreserved => leaf_d 3 (unreserved sg) | Sub_delims => leaf_d 3 sub_delims
  | Not_colon => fun r => do m <- not_colon r; Ok (m, 2)
  | Rule c => fun r => fn_d (then_d (run_chain_d c r) (matched_d r))
  end
with run_chain_d (c : chain) (r : rule action) : outcome (rule action * nat) :=
  match c with
  | Start => Ok (r, 0)
  | Concat c g acc => then_d (run_chain_d c r) (concat_d (run_d g) acc)
  | Optional c g acc => then_d (run_chain_d c r) (optional_d (run_d g) acc)
  | Repeat c g min max => then_d (run_chain_d c r) (star_d fuel (run_d g) min max)
  | Alt c gs => then_d (run_chain_d c r) (alternative_d (run_all_d gs))
  end
with run_all_d (gs : grams) : list (matcher_d action) :=
  match gs with Gnil => [] | Gcons g gs => run_d g :: run_all_d gs end.
(* rule.cpp:23-34: done, the lambda, the acceptor, parts::ensure_authority (or what else the acceptor calls) *)
Definition done_depth (accepted : bool) : nat := if accepted then 4 else 1.
(* rule{in}.concat (f).done () *)
Definition parse_d (g : gram) (inp : str) : outcome (option parts * nat) :=
  do (r, d) <- concat_d (run_d g) None (rule_of inp);
  do b <- done run_action r empty_parts;
  Ok (if fst b then Some (snd b) else None, Nat.max d (done_depth (fst b))).
(* uri.cpp:896-907 *)
Definition split_d : str -> outcome (option parts * nat) := fun s => fn_d (parse_d Uri s).
Definition split_reference_d : str -> outcome (option parts * nat) := fun s => fn_d (parse_d Uri_reference s).

(* uri.cpp:828-875: the valid () functions *)
Definition matches_d (g : gram) (s : str) : outcome (bool * nat) :=
  do (r, d) <- parse_d g s; Ok (match r with Some _ => true | None => false end, d).
Definition opt_matches_d (g : gram) (s : option str) : outcome (bool * nat) :=
  match s with None => Ok (true, 0) | Some s => matches_d g s end.
Definition andalso_d (x y : outcome (bool * nat)) : outcome (bool * nat) :=
  do (b, d) <- x; if b then do (b', d') <- y; Ok (b', Nat.max d d') else Ok (false, d).
Fixpoint segs_valid_d (l : list str) : outcome (bool * nat) :=
  match l with [] => Ok (true, 0) | seg :: l' => andalso_d (matches_d Segment seg) (segs_valid_d l') end.
Definition authority_valid_d (a : authority) : outcome (bool * nat) :=
  andalso_d (opt_matches_d Userinfo (userinfo a)) (andalso_d (matches_d Host (host a)) (opt_matches_d Port (port a))).
Definition parts_valid_d (p : parts) : outcome (bool * nat) := fn_d
  (andalso_d (match p_scheme p with None => Ok (false, 0) | Some s => matches_d Scheme s end)
  (andalso_d (match p_authority p with None => Ok (true, 0) | Some a => fn_d (authority_valid_d a) end)
  (andalso_d (fn_d (segs_valid_d (segments (p_path p))))
  (andalso_d (opt_matches_d Query (p_query p)) (opt_matches_d Query (p_fragment p)))))).
End Run.
(* uri.cpp:985-996, 944-983: join on strings calls split and split_reference, then join on parts, which calls merge or remove_dot_segments, and this a lambda *)
Definition join_d (sg : bool) (fuel : nat) (b r : str) (strict : bool) : outcome (option parts * nat) := fn_d
  (do (x, d) <- split_d sg fuel b;
   match x with
   | None => Ok (None, d)
   | Some x => do (y, d') <- split_reference_d sg fuel r;
               match y with None => Ok (None, Nat.max d d') | Some y => Ok (Some (join_parts x y strict), Nat.max (Nat.max d d') 3) end
   end).
