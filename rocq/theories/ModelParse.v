(* Model of the parser of uri.cpp with a count of what it does.  The rules of uri.cpp are written down once more as data
   (gram): run gives them the meaning they have in ModelRule.v and ModelUri.v (ParseWork.v shows that it is the very
   same function), run_w the same with a count.  Not counted: the elements std::vector moves when it grows in
   star () (amortised constant for each element appended), and the destruction of what was copied. *)
From Verif Require Import Base ModelRule ModelUri.
Local Open Scope N_scope.

(* looks: characters given to a predicate; calls: match functions called; copies: acceptors (a std::function and a
   string_view) copied or constructed; runs: acceptors run by done () *)
Record cost := Cost { looks : N; calls : N; copies : N; runs : N }.
Definition free : cost := Cost 0 0 0 0.
Definition plus_cost (a b : cost) : cost := Cost (looks a + looks b) (calls a + calls b) (copies a + copies b) (runs a + runs b).
Definition look (k : N) : cost := Cost k 0 0 0.
Definition call (k : N) : cost := Cost 0 k 0 0.
Definition copy (k : nat) : cost := Cost 0 0 (N.of_nat k) 0.
Infix "+$" := plus_cost (at level 50, left associativity).

Section Rule.
Context {A : Type}.
Definition matcher_w := rule A -> outcome (matched_result A * cost).

(* rule.hpp:294-312, 178-190: *this and the containers joined by join () are copied *)
Definition concat_impl_w (f : matcher_w) (acc : option A) (opt : bool) (self : rule A) : outcome (rule A * cost) :=
  match tail self with
  | None => Ok (self, copy (length (accs self)))
  | Some t =>
    do (m, w) <- f (rule_of t);
    match m with
    | Some (s, a) =>
      let a' := match acc with None => a | Some g => a ++ [(g, s)] end in
      let made := match acc with None => 0%nat | Some _ => 1%nat end in
      do r <- join_rule_m self (s, a');
      Ok (r, call 1 +$ w +$ copy (made + length (accs self) + length a'))
    | None => if opt then Ok (self, call 1 +$ w +$ copy (length (accs self))) else Ok (rule_fail, call 1 +$ w)
    end
  end.
(* rule.hpp:273-290, 192-194 *)
Definition optional_impl_w (f : matcher_w) (acc : option A) (self : rule A) : outcome (rule A * cost) :=
  match tail self with
  | None => Ok (self, copy (length (accs self)))
  | Some t =>
    do (res, w) <- concat_impl_w f acc true (rule_of t);
    match tail res with
    | None => Ok (self, w +$ copy (length (accs self)))
    | Some _ => Ok (join_rule_r self res, w +$ copy (length (accs self) + length (accs res)))
    end
  end.
(* rule.hpp:209-241 *)
Fixpoint star_loop_w (fuel : nat) (f : matcher_w) (max : N) (s : str) (len : nat)
    (acc : acceptors A) (count : N) : outcome (nat * acceptors A * N * cost) :=
  match fuel with
  | O => Diverge
  | S fuel' =>
    do (m, w) <- f (rule_of s);
    match m with
    | None => Ok (len, acc, count, call 1 +$ w)
    | Some (ms, a) =>
      let count := uint_incr count in
      if (max <? count)%N then Ok (len, acc, count, call 1 +$ w)
      else if Nat.ltb (length s) (length ms) then Fault out_of_range
      else do (r, w') <- star_loop_w fuel' f max (skipn (length ms) s) (len + length ms) (acc ++ a) count;
           Ok (r, call 1 +$ w +$ copy (length a) +$ w')
    end
  end.
Definition star_w (fuel : nat) (f : matcher_w) (min max : N) (self : rule A) : outcome (rule A * cost) :=
  match tail self with
  | None => Ok (self, copy (length (accs self)))
  | Some t =>
    do (r, w) <- star_loop_w fuel f max t 0 (accs self) 0;
    let '(len, acc, count) := r in
    if (count <? min)%N then Ok (rule_fail, copy (length (accs self)) +$ w)
    else do t' <- substr_from len t; Ok (mkrule (Some t') acc, copy (length (accs self)) +$ w)
  end.
(* rule.hpp:149, 245-257 *)
Fixpoint alternative_w (fs : list matcher_w) (self : rule A) : outcome (rule A * cost) :=
  match fs with
  | [] => Ok (rule_fail, free)
  | f :: rest =>
    match tail self with
    | None => Ok (self, copy (length (accs self)))
    | Some t =>
      do (m, w) <- f (rule_of t);
      match m with
      | Some (s, a) => do r <- join_rule_m self (s, a); Ok (r, call 1 +$ w +$ copy (length (accs self) + length a))
      | None => do (r, w') <- alternative_w rest self; Ok (r, call 1 +$ w +$ w')
      end
    end
  end.
(* rule.cpp:36-56 *)
Definition matched_w (input self : rule A) : outcome (matched_result A * cost) :=
  do m <- matched input self; Ok (m, match tail self with Some _ => copy (length (accs self)) | None => free end).
(* rule.hpp:316-323, and the lambda of uri.cpp:94-106: one character is looked at, if there is one *)
Definition leaf_w (f : matcher A) : matcher_w := fun r =>
  do m <- f r; Ok (m, match tail r with Some (_ :: _) => look 1 | _ => free end).
(* r.xxx (...) after what has been done to r before *)
Definition then_w (x : outcome (rule A * cost)) {B} (f : rule A -> outcome (B * cost)) : outcome (B * cost) :=
  do (r, w) <- x; do (y, w') <- f r; Ok (y, w +$ w').
End Rule.
Arguments matcher_w : clear implicits.

(* the rules of uri.cpp as data *)
Inductive gram :=
| Single (cp : N)                            (* single_code_point *)
| Range (a b : N)                            (* code_point_range *)
| Alpha | Digit | Hexdig | Unreserved | Sub_delims | Not_colon
| Rule (c : chain)                           (* return r.xxx (...).yyy (...). ... .matched ("", r); *)
with chain :=
| Start                                      (* r *)
| Concat (c : chain) (g : gram) (acc : option action)
| Optional (c : chain) (g : gram) (acc : option action)
| Repeat (c : chain) (g : gram) (min max : N)
| Alt (c : chain) (gs : grams)
with grams := Gnil | Gcons (g : gram) (gs : grams).

Section Run.
Variable sg : bool.
Variable fuel : nat.
Fixpoint run (g : gram) : matcher action :=
  match g with
  | Single cp => single_code_point sg cp
  | Range a b => code_point_range sg a b
  | Alpha => alpha sg | Digit => digit sg | Hexdig => hexdig sg
  | Unreserved => unreserved sg | Sub_delims => sub_delims | Not_colon => not_colon
  | Rule c => fun r => run_chain c r >>= matched r
  end
with run_chain (c : chain) (r : rule action) : outcome (rule action) :=
  match c with
  | Start => Ok r
  | Concat c g acc => run_chain c r >>= concat_impl (run g) acc false
  | Optional c g acc => run_chain c r >>= optional_impl (run g) acc
  | Repeat c g min max => run_chain c r >>= star fuel (run g) min max
  | Alt c gs => run_chain c r >>= alternative (run_all gs)
  end
with run_all (gs : grams) : list (matcher action) :=
  match gs with Gnil => [] | Gcons g gs => run g :: run_all gs end.

Fixpoint run_w (g : gram) : matcher_w action :=
  match g with
  | Single cp => leaf_w (single_code_point sg cp)
  | Range a b => leaf_w (code_point_range sg a b)
  | Alpha => leaf_w (alpha sg) | Digit => leaf_w (digit sg) | Hexdig => leaf_w (hexdig sg)
  | Unreserved => leaf_w (unreserved sg) | Sub_delims => leaf_w sub_delims | Not_colon => leaf_w not_colon
  | Rule c => fun r => then_w (run_chain_w c r) (matched_w r)
  end
with run_chain_w (c : chain) (r : rule action) : outcome (rule action * cost) :=
  match c with
  | Start => Ok (r, free)
  | Concat c g acc => then_w (run_chain_w c r) (concat_impl_w (run_w g) acc false)
  | Optional c g acc => then_w (run_chain_w c r) (optional_impl_w (run_w g) acc)
  | Repeat c g min max => then_w (run_chain_w c r) (star_w fuel (run_w g) min max)
  | Alt c gs => then_w (run_chain_w c r) (alternative_w (run_all_w gs))
  end
with run_all_w (gs : grams) : list (matcher_w action) :=
  match gs with Gnil => [] | Gcons g gs => run_w g :: run_all_w gs end.

(* rule{in}.concat (f).done () *)
Definition parse_w (g : gram) (inp : str) : outcome (option parts * cost) :=
  do (r, w) <- concat_impl_w (run_w g) None false (rule_of inp);
  do b <- done run_action r empty_parts;
  Ok (if fst b then Some (snd b) else None, w +$ (if fst b then Cost 0 0 0 (N.of_nat (length (accs r))) else free)).
End Run.

(* r.concat (a).concat (b) ... *)
Fixpoint seq (c : chain) (l : list gram) : chain := match l with [] => c | g :: l => seq (Concat c g None) l end.
Fixpoint grams_of (l : list gram) : grams := match l with [] => Gnil | g :: l => Gcons g (grams_of l) end.
Definition Seq (l : list gram) : gram := Rule (seq Start l).
Definition Any (l : list gram) : gram := Rule (Alt Start (grams_of l)).
Definition Many (min max : N) (g : gram) : gram := Rule (Repeat Start g min max).

Definition Colon := Single 0x3A. Definition At_sign := Single 0x40. Definition Solidus := Single 0x2F. Definition Stop := Single 0x2E.
(* uri.cpp:94-106 *)
Definition Single_colon := Seq [Colon; Not_colon].
(* uri.cpp:133-145 *)
Definition Pct_encoded := Seq [Single 0x25; Hexdig; Hexdig].
Definition Pchar := Any [Unreserved; Pct_encoded; Sub_delims; Colon; At_sign].
(* uri.cpp:148-177 *)
Definition Userinfo := Many 0 uint_max (Any [Unreserved; Pct_encoded; Sub_delims; Colon]).
Definition Scheme := Rule (Repeat (Concat Start Alpha None) (Any [Alpha; Digit; Single 0x2B; Single 0x2D; Stop]) 0 uint_max).
Definition Reg_name := Many 0 uint_max (Any [Unreserved; Pct_encoded; Sub_delims]).
(* uri.cpp:184-232 *)
Definition Dec_octet := Any
  [ Seq [Single 0x32; Single 0x35; Range 0x30 0x35]; Seq [Single 0x32; Range 0x30 0x34; Digit];
    Seq [Single 0x31; Digit; Digit]; Seq [Range 0x31 0x39; Digit]; Digit ].
Definition Ipv4 := Seq [Dec_octet; Stop; Dec_octet; Stop; Dec_octet; Stop; Dec_octet].
(* uri.cpp:235-257 *)
Definition H16 := Many 1 4 Hexdig.
Definition H16_colon := Seq [H16; Single_colon].
Definition Colon_colon := Seq [Colon; Colon].
Definition Ls32 := Any [Seq [H16; Colon; H16]; Ipv4].
(* uri.cpp:268-367 *)
Definition Upto (k : N) := Rule (Concat (Repeat Start H16_colon 0 k) H16 None).
Definition Opt (g : gram) : chain := Optional Start g None.
Definition Ipv6 := Any
  [ Rule (Concat (Repeat Start H16_colon 6 6) Ls32 None);
    Rule (Concat (Repeat (Concat Start Colon_colon None) H16_colon 5 5) Ls32 None);
    Rule (Concat (Repeat (Concat (Opt H16) Colon_colon None) H16_colon 4 4) Ls32 None);
    Rule (Concat (Repeat (Concat (Opt (Upto 1)) Colon_colon None) H16_colon 3 3) Ls32 None);
    Rule (Concat (Repeat (Concat (Opt (Upto 2)) Colon_colon None) H16_colon 2 2) Ls32 None);
    Rule (Concat (Concat (Concat (Opt (Upto 3)) Colon_colon None) H16_colon None) Ls32 None);
    Rule (Concat (Concat (Opt (Upto 4)) Colon_colon None) Ls32 None);
    Rule (Concat (Concat (Opt (Upto 5)) Colon_colon None) H16 None);
    Rule (Concat (Opt (Upto 6)) Colon_colon None) ].
(* uri.cpp:370-398 *)
Definition Ipvfuture := Rule (Repeat (Concat (Repeat (Concat Start (Single 0x76) None) Hexdig 1 uint_max) Stop None)
  (Any [Unreserved; Sub_delims; Colon]) 1 uint_max).
Definition Ip_literal := Seq [Single 0x5B; Any [Ipv6; Ipvfuture]; Single 0x5D].
Definition Host := Any [Ip_literal; Ipv4; Reg_name].
(* uri.cpp:401-451 *)
Definition Host_rule := Rule (Concat Start Host (Some SetHost)).
Definition Userinfo_at := Rule (Concat (Concat Start Userinfo (Some SetUserinfo)) At_sign None).
Definition Port := Many 0 uint_max Digit.
Definition Colon_port := Rule (Concat (Concat Start Colon None) Port (Some SetPort)).
Definition Authority := Rule (Optional (Concat (Optional Start Userinfo_at None) Host_rule None) Colon_port None).
(* uri.cpp:454-589 *)
Definition Segment := Many 0 uint_max Pchar.
Definition Segment_nz := Many 1 uint_max Pchar.
Definition Segment_nz_nc := Many 1 uint_max (Any [Unreserved; Pct_encoded; Sub_delims; At_sign]).
Definition Slash (isabs : bool) := Rule (Concat (Concat Start Solidus (Some (AppendDir isabs))) Segment (Some AppendSegment)).
Definition Path_abempty := Many 0 uint_max (Slash true).
Definition Path_absolute := Rule (Optional (Concat Start Solidus (Some (AppendDir true)))
  (Rule (Repeat (Concat Start Segment_nz (Some AppendSegment)) (Slash false) 0 uint_max)) None).
Definition Path_noscheme := Rule (Repeat (Concat Start Segment_nz_nc (Some RecordInitialSegment)) (Slash false) 0 uint_max).
Definition Path_empty := Many 0 0 Pchar.
Definition Path_rootless := Rule (Repeat (Concat Start Segment_nz (Some RecordInitialSegment)) (Slash false) 0 uint_max).
Definition Auth_abempty := Seq [Solidus; Solidus; Authority; Path_abempty].
(* uri.cpp:595-703 *)
Definition Relative_part := Any [Auth_abempty; Path_absolute; Path_noscheme; Path_empty].
Definition Query := Many 0 uint_max (Any [Pchar; Solidus; Single 0x3F]).
Definition Question_query := Rule (Concat (Concat Start (Single 0x3F) None) Query (Some SetQuery)).
Definition Hash_fragment := Rule (Concat (Concat Start (Single 0x23) None) Query (Some SetFragment)).
Definition Relative_ref := Rule (Optional (Optional (Concat Start Relative_part None) Question_query None) Hash_fragment None).
Definition Hier_part := Any [Auth_abempty; Path_absolute; Path_rootless; Path_empty].
Definition Uri := Rule (Optional (Optional (Concat (Concat (Concat Start Scheme (Some SetScheme)) Colon None) Hier_part None)
  Question_query None) Hash_fragment None).
Definition Uri_reference := Any [Uri; Relative_ref].

(* uri.cpp:896-907 *)
Definition split_w (sg : bool) (fuel : nat) : str -> outcome (option parts * cost) := parse_w sg fuel Uri.
Definition split_reference_w (sg : bool) (fuel : nat) : str -> outcome (option parts * cost) := parse_w sg fuel Uri_reference.

(* uri.cpp:828-875: the valid () functions; each match is rule{s}.concat (f).done () *)
Section Valid.
Variable sg : bool.
Variable fuel : nat.
Definition matches_w (g : gram) (s : str) : outcome (bool * cost) :=
  do (r, w) <- parse_w sg fuel g s; Ok (match r with Some _ => true | None => false end, w).
Definition opt_matches_w (g : gram) (s : option str) : outcome (bool * cost) :=
  match s with None => Ok (true, free) | Some s => matches_w g s end.
Definition andalso_w (x y : outcome (bool * cost)) : outcome (bool * cost) :=
  do (b, w) <- x; if b then do (b', w') <- y; Ok (b', w +$ w') else Ok (false, w).
Fixpoint segs_valid_w (l : list str) : outcome (bool * cost) :=
  match l with
  | [] => Ok (true, free)
  | seg :: l' => andalso_w (matches_w Segment seg) (segs_valid_w l')
  end.
Definition authority_valid_w (a : authority) : outcome (bool * cost) :=
  andalso_w (opt_matches_w Userinfo (userinfo a)) (andalso_w (matches_w Host (host a)) (opt_matches_w Port (port a))).
Definition parts_valid_w (p : parts) : outcome (bool * cost) :=
  andalso_w (match p_scheme p with None => Ok (false, free) | Some s => matches_w Scheme s end)
  (andalso_w (match p_authority p with None => Ok (true, free) | Some a => authority_valid_w a end)
  (andalso_w (segs_valid_w (segments (p_path p)))
  (andalso_w (opt_matches_w Query (p_query p)) (opt_matches_w Query (p_fragment p))))).
End Valid.
