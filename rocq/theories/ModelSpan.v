(* A second model of rule.hpp, rule.cpp and the grammar of uri.cpp, for what ModelRule.v and ModelUri.v leave out:
   WHERE the returned views are, and HOW MUCH WORK is done.  A std::string_view is a pair (offset, length)
   into the characters [buf] that the caller passed; every evaluation also yields a number of steps:
   one for each call of a match function and of an acceptor function, and one for each acceptor (a
   std::function and a view) that is copied.  (Moving elements when std::vector grows is not counted: that
   is amortised.)  The texts are proved to be those of ModelUri.v. *)
From Verif Require Import Base ModelRule ModelUri.
Local Open Scope list_scope.

(* evaluation with a step count *)
Definition M (T : Type) : Type := outcome (T * nat).
Definition ret {T} (x : T) : M T := Ok (x, 0).
Definition steps (n : nat) : M unit := Ok (tt, n).
Definition mbind {T U} (x : M T) (f : T -> M U) : M U :=
  match x with
  | Ok (a, n) => match f a with Ok (b, k) => Ok (b, n + k) | Fault e => Fault e | Diverge => Diverge end
  | Fault e => Fault e
  | Diverge => Diverge
  end.
Notation "x >>> f" := (mbind x f) (at level 50, left associativity).
Notation "'dom' x <- e ; k" := (mbind e (fun x => k)) (at level 200, x pattern, e at level 100, k at level 200).

Definition span : Type := nat * nat.                       (* offset, length *)

Section Views.
Variable buf : str.
Definition text (v : span) : str := firstn (snd v) (skipn (fst v) buf).

Section Rule.
Variable A : Type.
(* rule.hpp:94-99, 203-204 *)
Definition acceptors := list (A * span).
Record rule := mkrule { tail : option span; accs : acceptors }.
Definition matched_result := option (span * acceptors).
Definition matcher := rule -> M matched_result.
(* rule.hpp:101, 172 *)
Definition rule_of (s : span) : rule := mkrule (Some s) [].
Definition rule_fail : rule := mkrule None [].

(* a copy of a rule object *)
Definition copy (r : rule) : M rule := dom _ <- steps (length (accs r)); ret r.
(* string_view::substr (pos) *)
Definition substr_from (pos : nat) (s : span) : M span :=
  if Nat.ltb (snd s) pos then Fault out_of_range else ret (fst s + pos, snd s - pos).
(* rule.hpp:178-184: both operands are copied *)
Definition join (a b : acceptors) : M acceptors := dom _ <- steps (length a + length b); ret (a ++ b).
(* rule.hpp:186-190 *)
Definition join_rule_m (self : rule) (m : span * acceptors) : M rule :=
  match tail self with
  | None => Fault assert_failed
  | Some t => dom t' <- substr_from (snd (fst m)) t; dom a <- join (accs self) (snd m); ret (mkrule (Some t') a)
  end.
(* rule.hpp:192-194 *)
Definition join_rule_r (self other : rule) : M rule :=
  dom a <- join (accs self) (accs other); ret (mkrule (tail other) a).
(* match (rule{s}) *)
Definition call (f : matcher) (s : span) : M matched_result := dom _ <- steps 1; f (rule_of s).

(* rule.hpp:294-312 *)
Definition concat_impl (f : matcher) (acc : option A) (opt : bool) (self : rule) : M rule :=
  match tail self with
  | None => copy self
  | Some t =>
    dom m <- call f t;
    match m with
    | Some (s, a) =>
      dom a' <- (match acc with None => ret a | Some g => dom _ <- steps 1; ret (a ++ [(g, s)]) end);
      join_rule_m self (s, a')
    | None => if opt then copy self else ret rule_fail
    end
  end.
(* rule.hpp:111-121 *)
Definition concat (f : matcher) : rule -> M rule := concat_impl f None false.
Definition concat_a (f : matcher) (g : A) : rule -> M rule := concat_impl f (Some g) false.
(* rule.hpp:273-290 *)
Definition optional_impl (f : matcher) (acc : option A) (self : rule) : M rule :=
  match tail self with
  | None => copy self
  | Some t =>
    dom res <- concat_impl f acc true (rule_of t);
    match tail res with
    | None => copy self
    | Some _ => join_rule_r self res
    end
  end.
Definition optional (f : matcher) : rule -> M rule := optional_impl f None.

(* rule.hpp:209-241; str.remove_prefix (l) is undefined when l > size () *)
Fixpoint star_loop (fuel : nat) (f : matcher) (max : N) (s : span) (len : nat)
    (acc : acceptors) (count : N) : M (nat * acceptors * N) :=
  match fuel with
  | O => Diverge
  | S fuel' =>
    dom m <- call f s;
    match m with
    | None => ret (len, acc, count)
    | Some (ms, a) =>
      let count := uint_incr count in
      if (max <? count)%N then ret (len, acc, count)
      else
        if Nat.ltb (snd s) (snd ms) then Fault out_of_range
        else
          dom _ <- steps (length a);
          star_loop fuel' f max (fst s + snd ms, snd s - snd ms) (len + snd ms) (acc ++ a) count
    end
  end.
Definition star (fuel : nat) (f : matcher) (min max : N) (self : rule) : M rule :=
  match tail self with
  | None => copy self
  | Some t =>
    dom _ <- steps (length (accs self));
    dom r <- star_loop fuel f max t 0 (accs self) 0;
    let '(len, acc, count) := r in
    if (count <? min)%N then ret rule_fail
    else dom t' <- substr_from len t; ret (mkrule (Some t') acc)
  end.

(* rule.hpp:149, 245-257 *)
Fixpoint alternative (fs : list matcher) (self : rule) : M rule :=
  match fs with
  | [] => ret rule_fail
  | f :: rest =>
    match tail self with
    | None => copy self
    | Some t =>
      dom m <- call f t;
      match m with
      | Some r => join_rule_m self r
      | None => alternative rest self
      end
    end
  end.

(* rule.cpp:36-56; the tuple gets a copy of acceptors_ *)
Definition matched (input : rule) (self : rule) : M matched_result :=
  match tail self with
  | None => ret None
  | Some t =>
    match tail input with
    | None => Fault assert_failed
    | Some i =>
      dom _ <- steps (length (accs self));
      if Nat.ltb (snd i) (snd t) then ret (Some (i, accs self))
      else ret (Some ((fst i, snd i - snd t), accs self))
    end
  end.

(* rule.hpp:316-323 *)
Definition single_char_p (p : ascii -> outcome bool) : matcher := fun r =>
  match tail r with
  | Some (o, S _) =>
      match nth_error buf o with
      | None => Fault out_of_range
      | Some c => match p c with
                  | Ok b => ret (if b then Some ((o, 1), []) else None)
                  | Fault e => Fault e
                  | Diverge => Diverge
                  end
      end
  | _ => ret None
  end.

Section Chars.
Variable sg : bool.
(* rule.hpp:163-167, 325-327 *)
Definition single_char (c : ascii) : matcher := fun r =>
  match c_tolower (as_int sg c) with
  | Ok c2 => single_char_p (fun d => do d2 <- c_tolower (as_int sg d); Ok (c2 =? d2)%Z) r
  | Fault e => Fault e
  | Diverge => Diverge
  end.
(* rule.hpp:328-336, uri.cpp:32-46 *)
Definition char_range (first last : ascii) : matcher := fun r =>
  match c_tolower (as_int sg first), c_tolower (as_int sg last) with
  | Ok f, Ok l => single_char_p (fun c => do cl <- c_tolower (as_int sg c); Ok ((f <=? cl) && (cl <=? l))%Z) r
  | Fault e, _ | Ok _, Fault e => Fault e
  | Diverge, _ | Ok _, Diverge => Diverge
  end.
(* rule.hpp:338-349 *)
Definition alpha : matcher := single_char_p (fun c => ctype c_isalpha (as_int sg c)).
Definition digit : matcher := single_char_p (fun c => ctype c_isdigit (as_int sg c)).
Definition hexdig : matcher := single_char_p (fun c => ctype c_isxdigit (as_int sg c)).
End Chars.

(* rule.cpp:23-34 *)
Fixpoint run_accs {St} (run : A -> span -> St -> outcome St) (l : acceptors) (st : St) : M St :=
  match l with
  | [] => ret st
  | (g, s) :: l' =>
      dom _ <- steps 1;
      match run g s st with
      | Ok st' => run_accs run l' st'
      | Fault e => Fault e
      | Diverge => Diverge
      end
  end.
Definition done {St} (run : A -> span -> St -> outcome St) (self : rule) (st : St) : M (bool * St) :=
  match tail self with
  | Some (_, O) => dom st' <- run_accs run (accs self) st; ret (true, st')
  | _ => ret (false, st)
  end.
End Rule.

Local Notation amatcher := (matcher action).
Arguments tail {A}. Arguments accs {A}. Arguments rule_of {A}.
Arguments concat {A}. Arguments concat_a {A}. Arguments optional {A}. Arguments star {A}. Arguments alternative {A}.
Arguments matched {A}. Arguments single_char_p {A}. Arguments single_char {A}. Arguments char_range {A}.
Arguments alpha {A}. Arguments digit {A}. Arguments hexdig {A}.

(* --- the grammar of uri.cpp, the same text as in ModelUri.v ------------------------------------------------- *)
Section Grammar.
Variable sg : bool.
Variable fuel : nat.

(* uri.cpp:25-92; the code_point values are those of uri.hpp:25-70.  The asserts of
   single_code_point / code_point_range compare constants below 128 with CHAR_MAX. *)
Definition single_code_point (cp : N) : amatcher := single_char sg (chr cp).
Definition code_point_range (a b : N) : amatcher := char_range sg (chr a) (chr b).
Definition commercial_at := single_code_point 0x40.
Definition colon := single_code_point 0x3A.
Definition hash := single_code_point 0x23.
Definition plus := single_code_point 0x2B.
Definition minus := single_code_point 0x2D.
Definition solidus := single_code_point 0x2F.
Definition question_mark := single_code_point 0x3F.
Definition full_stop := single_code_point 0x2E.
Definition left_square_bracket := single_code_point 0x5B.
Definition right_square_bracket := single_code_point 0x5D.
Definition percent_sign := single_code_point 0x25.
Definition digit_one := single_code_point 0x31.
Definition digit_two := single_code_point 0x32.
Definition digit_five := single_code_point 0x35.
Definition latin_small_letter_v := single_code_point 0x76.

(* uri.cpp:94-106; the lambda looks at the next char without any <cctype> call *)
Definition not_colon : amatcher := fun r1 =>
  match tail r1 with
  | None => ret None
  | Some (o, O) => ret (Some ((o, O), []))
  | Some (o, S _) =>
      match nth_error buf o with
      | None => Fault out_of_range
      | Some c => if Ascii.eqb c ":" then ret None else ret (Some ((o, O), []))
      end
  end.
Definition single_colon : amatcher := fun r =>
  ret r >>> concat colon >>> concat not_colon >>> matched r.

(* uri.cpp:110-120.  static_cast<code_point> (c) of a negative char is a huge unsigned, equal
   to none of the constants, and so is never 0x21.. - the same as comparing bytes. *)
Definition sub_delims : amatcher := single_char_p (fun c => Ok (is_sub_delim c)).

(* uri.cpp:123-130 *)
Definition unreserved : amatcher := single_char_p (fun c =>
  do b <- ctype c_isalnum (as_int sg c);
  Ok (b || existsb (fun n => (code c =? n)%N) [0x2D; 0x2E; 0x5F; 0x7E]%N)).

(* uri.cpp:133-138 *)
Definition pct_encoded : amatcher := fun r =>
  ret r >>> concat percent_sign >>> concat (hexdig sg) >>> concat (hexdig sg) >>> matched r.

(* uri.cpp:141-145 *)
Definition pchar : amatcher := fun r =>
  ret r >>> alternative [unreserved; pct_encoded; sub_delims; colon; commercial_at]
       >>> matched r.

(* uri.cpp:148-155 *)
Definition userinfo_r : amatcher := fun r =>
  ret r >>> star fuel (fun r2 =>
             ret r2 >>> alternative [unreserved; pct_encoded; sub_delims; colon] >>> matched r2)
           0 uint_max
       >>> matched r.

(* uri.cpp:159-166 *)
Definition scheme : amatcher := fun r =>
  ret r >>> concat (alpha sg)
       >>> star fuel (fun r2 =>
             ret r2 >>> alternative [alpha sg; digit sg; plus; minus; full_stop] >>> matched r2)
           0 uint_max
       >>> matched r.

(* uri.cpp:170-177 *)
Definition reg_name : amatcher := fun r =>
  ret r >>> star fuel (fun r1 =>
             ret r1 >>> alternative [unreserved; pct_encoded; sub_delims] >>> matched r1)
           0 uint_max
       >>> matched r.

(* uri.cpp:184-219 *)
Definition dec_octet : amatcher := fun r =>
  ret r >>> alternative
    [ (fun r4 => ret r4 >>> concat digit_two >>> concat digit_five
                       >>> concat (code_point_range 0x30 0x35) >>> matched r4);
      (fun r3 => ret r3 >>> concat digit_two >>> concat (code_point_range 0x30 0x34)
                       >>> concat (digit sg) >>> matched r3);
      (fun r2 => ret r2 >>> concat digit_one >>> concat (digit sg) >>> concat (digit sg)
                       >>> matched r2);
      (fun r1 => ret r1 >>> concat (code_point_range 0x31 0x39) >>> concat (digit sg)
                       >>> matched r1);
      digit sg ]
    >>> matched r.

(* uri.cpp:222-232 *)
Definition ipv4address : amatcher := fun r =>
  ret r >>> concat dec_octet >>> concat full_stop >>> concat dec_octet >>> concat full_stop
       >>> concat dec_octet >>> concat full_stop >>> concat dec_octet >>> matched r.

(* uri.cpp:235-245 *)
Definition h16 : amatcher := fun r => ret r >>> star fuel (hexdig sg) 1 4 >>> matched r.
Definition h16_colon : amatcher := fun r => ret r >>> concat h16 >>> concat single_colon >>> matched r.
Definition colon_colon : amatcher := fun r => ret r >>> concat colon >>> concat colon >>> matched r.

(* uri.cpp:248-257 *)
Definition ls32 : amatcher := fun r =>
  ret r >>> alternative
    [ (fun r1 => ret r1 >>> concat h16 >>> concat colon >>> concat h16 >>> matched r1);
      ipv4address ]
    >>> matched r.

(* uri.cpp:295-299, 308-312, 321-325, 334-338, 346-350, 358-362: the lambda
   *k( h16 ":" ) h16, textually repeated in the source for k = 1..6 *)
Definition upto_h16 (k : N) : amatcher := fun ra =>
  ret ra >>> star fuel h16_colon 0 k >>> concat h16 >>> matched ra.

(* uri.cpp:268-367 *)
Definition ipv6address : amatcher := fun r =>
  ret r >>> alternative
    [ (fun r1 => ret r1 >>> star fuel h16_colon 6 6 >>> concat ls32 >>> matched r1);
      (fun r2 => ret r2 >>> concat colon_colon >>> star fuel h16_colon 5 5 >>> concat ls32
                       >>> matched r2);
      (fun r3 => ret r3 >>> optional h16 >>> concat colon_colon >>> star fuel h16_colon 4 4
                       >>> concat ls32 >>> matched r3);
      (fun r4 => ret r4 >>> optional (upto_h16 1) >>> concat colon_colon
                       >>> star fuel h16_colon 3 3 >>> concat ls32 >>> matched r4);
      (fun r5 => ret r5 >>> optional (upto_h16 2) >>> concat colon_colon
                       >>> star fuel h16_colon 2 2 >>> concat ls32 >>> matched r5);
      (fun r6 => ret r6 >>> optional (upto_h16 3) >>> concat colon_colon
                       >>> concat h16_colon >>> concat ls32 >>> matched r6);
      (fun r7 => ret r7 >>> optional (upto_h16 4) >>> concat colon_colon
                       >>> concat ls32 >>> matched r7);
      (fun r8 => ret r8 >>> optional (upto_h16 5) >>> concat colon_colon
                       >>> concat h16 >>> matched r8);
      (fun r9 => ret r9 >>> optional (upto_h16 6) >>> concat colon_colon >>> matched r9) ]
    >>> matched r.

(* uri.cpp:370-381 *)
Definition ipvfuture : amatcher := fun r =>
  ret r >>> concat latin_small_letter_v >>> star fuel (hexdig sg) 1 uint_max
       >>> concat full_stop
       >>> star fuel (fun r1 =>
             ret r1 >>> alternative [unreserved; sub_delims; colon] >>> matched r1)
           1 uint_max
       >>> matched r.

(* uri.cpp:384-392 *)
Definition ip_literal : amatcher := fun r =>
  ret r >>> concat left_square_bracket
       >>> concat (fun r1 => ret r1 >>> alternative [ipv6address; ipvfuture] >>> matched r1)
       >>> concat right_square_bracket >>> matched r.

(* uri.cpp:395-398 *)
Definition host_r : amatcher := fun r =>
  ret r >>> alternative [ip_literal; ipv4address; reg_name] >>> matched r.

(* uri.cpp:401-410 *)
Definition host_rule : amatcher := fun r => ret r >>> concat_a host_r SetHost >>> matched r.
(* uri.cpp:412-423 *)
Definition userinfo_at : amatcher := fun r =>
  ret r >>> concat_a userinfo_r SetUserinfo >>> concat commercial_at >>> matched r.
(* uri.cpp:426-428 *)
Definition port_r : amatcher := fun r => ret r >>> star fuel (digit sg) 0 uint_max >>> matched r.
(* uri.cpp:431-441 *)
Definition colon_port : amatcher := fun r =>
  ret r >>> concat colon >>> concat_a port_r SetPort >>> matched r.
(* uri.cpp:443-451 *)
Definition authority_r : amatcher := fun r =>
  ret r >>> optional userinfo_at >>> concat host_rule >>> optional colon_port >>> matched r.

(* uri.cpp:454-475 *)
Definition segment : amatcher := fun r => ret r >>> star fuel pchar 0 uint_max >>> matched r.
Definition segment_nz : amatcher := fun r => ret r >>> star fuel pchar 1 uint_max >>> matched r.
Definition segment_nz_nc : amatcher := fun r =>
  ret r >>> star fuel (fun r2 =>
             ret r2 >>> alternative [unreserved; pct_encoded; sub_delims; commercial_at]
                   >>> matched r2)
           1 uint_max
       >>> matched r.

(* uri.cpp:519-530 *)
Definition path_abempty : amatcher := fun r =>
  ret r >>> star fuel (fun r2 =>
             ret r2 >>> concat_a solidus (AppendDir true) >>> concat_a segment AppendSegment
                   >>> matched r2)
           0 uint_max
       >>> matched r.

(* the lambda "/" segment of uri.cpp:538-542, 553-557, 571-575 *)
Definition slash_segment : amatcher := fun r2 =>
  ret r2 >>> concat_a solidus (AppendDir false) >>> concat_a segment AppendSegment
        >>> matched r2.

(* uri.cpp:532-547 *)
Definition path_absolute : amatcher := fun r =>
  ret r >>> concat_a solidus (AppendDir true)
       >>> optional (fun r1 =>
             ret r1 >>> concat_a segment_nz AppendSegment
                   >>> star fuel slash_segment 0 uint_max
                   >>> matched r1)
       >>> matched r.
(* uri.cpp:550-560 *)
Definition path_noscheme : amatcher := fun r =>
  ret r >>> concat_a segment_nz_nc RecordInitialSegment
       >>> star fuel slash_segment 0 uint_max >>> matched r.
(* uri.cpp:563-565 *)
Definition path_empty : amatcher := fun r => ret r >>> star fuel pchar 0 0 >>> matched r.
(* uri.cpp:568-578 *)
Definition path_rootless : amatcher := fun r =>
  ret r >>> concat_a segment_nz RecordInitialSegment
       >>> star fuel slash_segment 0 uint_max >>> matched r.
(* uri.cpp:581-589 *)
Definition auth_abempty : amatcher := fun r =>
  ret r >>> concat solidus >>> concat solidus >>> concat authority_r >>> concat path_abempty
       >>> matched r.
(* uri.cpp:595-602 *)
Definition relative_part : amatcher := fun r =>
  ret r >>> alternative [auth_abempty; path_absolute; path_noscheme; path_empty] >>> matched r.
(* uri.cpp:605-612, 627-629 *)
Definition query : amatcher := fun r =>
  ret r >>> star fuel (fun r2 =>
             ret r2 >>> alternative [pchar; solidus; question_mark] >>> matched r2)
           0 uint_max
       >>> matched r.
Definition fragment : amatcher := fun r => query r.
(* uri.cpp:616-624 *)
Definition question_query : amatcher := fun r =>
  ret r >>> concat question_mark >>> concat_a query SetQuery >>> matched r.
(* uri.cpp:633-642 *)
Definition hash_fragment : amatcher := fun rf =>
  ret rf >>> concat hash >>> concat_a fragment SetFragment >>> matched rf.
(* uri.cpp:645-662; its last lambda is the same as hash_fragment *)
Definition relative_ref : amatcher := fun r =>
  ret r >>> concat relative_part >>> optional question_query
       >>> optional (fun rf =>
             ret rf >>> concat hash >>> concat_a fragment SetFragment >>> matched rf)
       >>> matched r.
(* uri.cpp:673-680 *)
Definition hier_part : amatcher := fun r =>
  ret r >>> alternative [auth_abempty; path_absolute; path_rootless; path_empty] >>> matched r.
(* uri.cpp:683-695 *)
Definition URI : amatcher := fun r =>
  ret r >>> concat_a scheme SetScheme >>> concat colon >>> concat hier_part
       >>> optional question_query >>> optional hash_fragment >>> matched r.
(* uri.cpp:698-703 *)
Definition URI_reference : amatcher := fun r =>
  ret r >>> alternative [URI; relative_ref] >>> matched r.

(* --- struct parts with places (uri.hpp:72-112); None is a string_view without data (data () == nullptr) ---- *)
Definition place := option span.
Record pauth := mkpauth { pl_userinfo : option place; pl_host : place; pl_port : option place }.
Record pparts := mkpparts {
  pl_scheme : option place; pl_authority : option pauth; pl_absolute : bool; pl_segments : list place;
  pl_query : option place; pl_fragment : option place }.
Definition no_parts : pparts := mkpparts None None false [] None None.
Definition ensure_auth (p : pparts) : pauth :=
  match pl_authority p with Some a => a | None => mkpauth None None None end.
Definition put_auth (p : pparts) (a : pauth) : pparts :=
  mkpparts (pl_scheme p) (Some a) (pl_absolute p) (pl_segments p) (pl_query p) (pl_fragment p).
Definition put_path (p : pparts) (abs : bool) (l : list place) : pparts :=
  mkpparts (pl_scheme p) (pl_authority p) abs l (pl_query p) (pl_fragment p).
(* the acceptors, see [action] in ModelUri.v for their lines.  AppendDir: emplace_back () makes a null view *)
Definition run_place (a : action) (s : span) (p : pparts) : outcome pparts :=
  let v := Some s in
  match a with
  | SetScheme => Ok (mkpparts (Some v) (pl_authority p) (pl_absolute p) (pl_segments p) (pl_query p) (pl_fragment p))
  | SetUserinfo => let a := ensure_auth p in Ok (put_auth p (mkpauth (Some v) (pl_host a) (pl_port a)))
  | SetHost => let a := ensure_auth p in Ok (put_auth p (mkpauth (pl_userinfo a) v (pl_port a)))
  | SetPort => let a := ensure_auth p in Ok (put_auth p (mkpauth (pl_userinfo a) (pl_host a) (Some v)))
  | SetQuery => Ok (mkpparts (pl_scheme p) (pl_authority p) (pl_absolute p) (pl_segments p) (Some v) (pl_fragment p))
  | SetFragment => Ok (mkpparts (pl_scheme p) (pl_authority p) (pl_absolute p) (pl_segments p) (pl_query p) (Some v))
  | AppendDir isabs => Ok (put_path p (if isabs then true else pl_absolute p) (pl_segments p ++ [None]))
  | AppendSegment =>
      match pl_segments p with
      | [] => Fault assert_failed
      | l => Ok (put_path p (pl_absolute p) (removelast l ++ [v]))
      end
  | RecordInitialSegment => Ok (put_path p (pl_absolute p) (pl_segments p ++ [v]))
  end.

(* uri.cpp:896-907 *)
Definition parse_done (f : amatcher) : M (option pparts) :=
  dom r <- concat f (rule_of (0, length buf));
  dom b <- done action run_place r no_parts;
  ret (if fst b then Some (snd b) else None).
Definition split_places : M (option pparts) := parse_done URI.
Definition split_reference_places : M (option pparts) := parse_done URI_reference.
(* rule{s}.concat (f).done () in valid (), uri.cpp:828-875 *)
Definition matches (f : amatcher) : M bool :=
  dom r <- concat f (rule_of (0, length buf));
  dom b <- done action run_place r no_parts;
  ret (fst b).
End Grammar.
End Views.
Arguments mkrule {A}. Arguments tail {A}. Arguments accs {A}. Arguments rule_of {A}. Arguments rule_fail {A}. Arguments copy {A}.
Arguments join {A}. Arguments join_rule_m {A}. Arguments join_rule_r {A}. Arguments call {A}. Arguments concat_impl {A}.
Arguments concat {A}. Arguments concat_a {A}. Arguments optional_impl {A}. Arguments optional {A}. Arguments star_loop {A}. Arguments star {A}.
Arguments alternative {A}. Arguments matched {A}. Arguments single_char_p buf {A}. Arguments single_char buf {A}. Arguments char_range buf {A}.
Arguments alpha buf {A}. Arguments digit buf {A}. Arguments hexdig buf {A}. Arguments run_accs {A St}. Arguments done {A St}.

(* --- valid () with steps (uri.cpp:828-875): each component is matched on its own, with && and early return -- *)
Section Valid.
Variable sg : bool.
Variable fuel : nat.
Definition andalso (x y : M bool) : M bool := dom b <- x; if b then y else ret false.
Definition check (f : str -> matcher action) (s : str) : M bool := matches s (f s).
Definition check_opt (f : str -> matcher action) (s : option str) : M bool :=
  match s with None => ret true | Some s => check f s end.
Fixpoint check_segments (l : list str) : M bool :=
  match l with
  | [] => ret true
  | seg :: l' => andalso (check (fun b => segment b sg fuel) seg) (check_segments l')
  end.
Definition check_authority (a : authority) : M bool :=
  andalso (check_opt (fun b => userinfo_r b sg fuel) (ModelUri.userinfo a))
  (andalso (check (fun b => host_r b sg fuel) (ModelUri.host a))
           (check_opt (fun b => port_r b sg fuel) (ModelUri.port a))).
Definition check_parts (p : parts) : M bool :=
  andalso (match p_scheme p with None => ret false | Some s => check (fun b => scheme b sg fuel) s end)
  (andalso (match p_authority p with None => ret true | Some a => check_authority a end)
  (andalso (check_segments (segments (p_path p)))
  (andalso (check_opt (fun b => query b sg fuel) (p_query p))
           (check_opt (fun b => fragment b sg fuel) (p_fragment p))))).
End Valid.
