(* Model of lib/uri/uri.cpp and include/uri/uri.hpp: the parts structure, the grammar, split,
   compose, valid, operator==, remove_dot_segments, merge, join. *)
From Verif Require Import Base ModelRule.

(* ------------------------------------------------------------------------- *)
(* uri.hpp:72-112  struct parts                                               *)
(* ------------------------------------------------------------------------- *)
Record path := mkpath { absolute : bool; segments : list str }.
Record authority := mkauth { userinfo : option str; host : str; port : option str }.
Record parts := mkparts {
  p_scheme : option str; p_authority : option authority; p_path : path;
  p_query : option str; p_fragment : option str }.

(* default member initialisers, uri.hpp:74-101 *)
Definition empty_path := mkpath false [].
Definition empty_authority := mkauth None [] None.
Definition empty_parts := mkparts None None empty_path None None.

(* ------------------------------------------------------------------------- *)
(* Acceptor functions                                                         *)
(* ------------------------------------------------------------------------- *)
Inductive action :=
| SetScheme      (* uri.cpp:688 *)
| SetUserinfo    (* uri.cpp:417-419 *)
| SetHost        (* uri.cpp:405-407 *)
| SetPort        (* uri.cpp:436-438 *)
| SetQuery       (* uri.cpp:620-621 *)
| SetFragment    (* uri.cpp:637-639, 655-657 *)
| AppendDir (isabs : bool)   (* uri.cpp:477-492 *)
| AppendSegment              (* uri.cpp:494-505 *)
| RecordInitialSegment.      (* uri.cpp:507-517 *)

(* uri.hpp:107-109  ensure_authority *)
Definition ensure_authority (p : parts) : authority :=
  match p_authority p with Some a => a | None => empty_authority end.
Definition set_authority (p : parts) (a : authority) : parts :=
  mkparts (p_scheme p) (Some a) (p_path p) (p_query p) (p_fragment p).
Definition set_path (p : parts) (pa : path) : parts :=
  mkparts (p_scheme p) (p_authority p) pa (p_query p) (p_fragment p).

(* segments.back () = seg, with the assert of uri.cpp:499 *)
Definition set_back (l : list str) (seg : str) : outcome (list str) :=
  match l with
  | [] => Fault assert_failed
  | _ => Ok (removelast l ++ [seg])
  end.

Definition run_action (a : action) (s : str) (p : parts) : outcome parts :=
  match a with
  | SetScheme => Ok (mkparts (Some s) (p_authority p) (p_path p) (p_query p) (p_fragment p))
  | SetUserinfo => let a := ensure_authority p in
                   Ok (set_authority p (mkauth (Some s) (host a) (port a)))
  | SetHost => let a := ensure_authority p in
               Ok (set_authority p (mkauth (userinfo a) s (port a)))
  | SetPort => let a := ensure_authority p in
               Ok (set_authority p (mkauth (userinfo a) (host a) (Some s)))
  | SetQuery => Ok (mkparts (p_scheme p) (p_authority p) (p_path p) (Some s) (p_fragment p))
  | SetFragment => Ok (mkparts (p_scheme p) (p_authority p) (p_path p) (p_query p) (Some s))
  | AppendDir isabs =>
      Ok (set_path p (mkpath (if isabs then true else absolute (p_path p))
                             (segments (p_path p) ++ [[]])))
  | AppendSegment =>
      do l <- set_back (segments (p_path p)) s;
      Ok (set_path p (mkpath (absolute (p_path p)) l))
  | RecordInitialSegment =>
      Ok (set_path p (mkpath (absolute (p_path p)) (segments (p_path p) ++ [s])))
  end.

(* ------------------------------------------------------------------------- *)
(* The grammar                                                                *)
(* ------------------------------------------------------------------------- *)
Section Grammar.
Variable sg : bool.      (* is char signed? *)
Variable fuel : nat.     (* bound on the iterations of each star() loop *)

Local Notation matcher := (matcher action).

(* uri.cpp:25-92; the code_point values are those of uri.hpp:25-70.  The asserts of
   single_code_point / code_point_range compare constants below 128 with CHAR_MAX. *)
Definition single_code_point (cp : N) : matcher := single_char sg (chr cp).
Definition code_point_range (a b : N) : matcher := char_range sg (chr a) (chr b).
Definition commercial_at := single_code_point 0x40.
Definition colon := single_code_point 0x3A.
Definition hash := single_code_point 0x23.
Definition plus := single_code_point 0x2B.
Definition minus := single_code_point 0x2D.
Definition solidus := single_code_point 0x2F.
Definition question_mark := single_code_point 0x3F.
Definition full_stop := single_code_point 0x2E.
Definition left_square_bracket := single_code_point 0x5B.
Definition right_square_bracket := single_code_point 0x5D.
Definition percent_sign := single_code_point 0x25.
Definition digit_one := single_code_point 0x31.
Definition digit_two := single_code_point 0x32.
Definition digit_five := single_code_point 0x35.
Definition latin_small_letter_v := single_code_point 0x76.

(* uri.cpp:94-106; the lambda looks at the next char without any <cctype> call *)
Definition not_colon : matcher := fun r1 =>
  match tail r1 with
  | Some [] => Ok (Some ([], []))
  | Some (c :: _) => if Ascii.eqb c ":" then Ok None else Ok (Some ([], []))
  | None => Ok None
  end.
Definition single_colon : matcher := fun r =>
  Ok r >>= concat colon >>= concat not_colon >>= matched r.

(* uri.cpp:110-120.  static_cast<code_point> (c) of a negative char is a huge unsigned, equal
   to none of the constants, and so is never 0x21.. - the same as comparing bytes. *)
Definition is_sub_delim (c : ascii) : bool :=
  existsb (fun n => (code c =? n)%N)
    [0x21; 0x24; 0x26; 0x27; 0x28; 0x29; 0x2A; 0x2B; 0x2C; 0x3B; 0x3D]%N.
Definition sub_delims : matcher := single_char_p (fun c => Ok (is_sub_delim c)).

(* uri.cpp:123-130 *)
Definition unreserved : matcher := single_char_p (fun c =>
  do b <- ctype c_isalnum (as_int sg c);
  Ok (b || existsb (fun n => (code c =? n)%N) [0x2D; 0x2E; 0x5F; 0x7E]%N)).

(* uri.cpp:133-138 *)
Definition pct_encoded : matcher := fun r =>
  Ok r >>= concat percent_sign >>= concat (hexdig sg) >>= concat (hexdig sg) >>= matched r.

(* uri.cpp:141-145 *)
Definition pchar : matcher := fun r =>
  Ok r >>= alternative [unreserved; pct_encoded; sub_delims; colon; commercial_at]
       >>= matched r.

(* uri.cpp:148-155 *)
Definition userinfo_r : matcher := fun r =>
  Ok r >>= star fuel (fun r2 =>
             Ok r2 >>= alternative [unreserved; pct_encoded; sub_delims; colon] >>= matched r2)
           0 uint_max
       >>= matched r.

(* uri.cpp:159-166 *)
Definition scheme : matcher := fun r =>
  Ok r >>= concat (alpha sg)
       >>= star fuel (fun r2 =>
             Ok r2 >>= alternative [alpha sg; digit sg; plus; minus; full_stop] >>= matched r2)
           0 uint_max
       >>= matched r.

(* uri.cpp:170-177 *)
Definition reg_name : matcher := fun r =>
  Ok r >>= star fuel (fun r1 =>
             Ok r1 >>= alternative [unreserved; pct_encoded; sub_delims] >>= matched r1)
           0 uint_max
       >>= matched r.

(* uri.cpp:184-219 *)
Definition dec_octet : matcher := fun r =>
  Ok r >>= alternative
    [ (fun r4 => Ok r4 >>= concat digit_two >>= concat digit_five
                       >>= concat (code_point_range 0x30 0x35) >>= matched r4);
      (fun r3 => Ok r3 >>= concat digit_two >>= concat (code_point_range 0x30 0x34)
                       >>= concat (digit sg) >>= matched r3);
      (fun r2 => Ok r2 >>= concat digit_one >>= concat (digit sg) >>= concat (digit sg)
                       >>= matched r2);
      (fun r1 => Ok r1 >>= concat (code_point_range 0x31 0x39) >>= concat (digit sg)
                       >>= matched r1);
      digit sg ]
    >>= matched r.

(* uri.cpp:222-232 *)
Definition ipv4address : matcher := fun r =>
  Ok r >>= concat dec_octet >>= concat full_stop >>= concat dec_octet >>= concat full_stop
       >>= concat dec_octet >>= concat full_stop >>= concat dec_octet >>= matched r.

(* uri.cpp:235-245 *)
Definition h16 : matcher := fun r => Ok r >>= star fuel (hexdig sg) 1 4 >>= matched r.
Definition h16_colon : matcher := fun r => Ok r >>= concat h16 >>= concat single_colon >>= matched r.
Definition colon_colon : matcher := fun r => Ok r >>= concat colon >>= concat colon >>= matched r.

(* uri.cpp:248-257 *)
Definition ls32 : matcher := fun r =>
  Ok r >>= alternative
    [ (fun r1 => Ok r1 >>= concat h16 >>= concat colon >>= concat h16 >>= matched r1);
      ipv4address ]
    >>= matched r.

(* uri.cpp:295-299, 308-312, 321-325, 334-338, 346-350, 358-362: the lambda
   *k( h16 ":" ) h16, textually repeated in the source for k = 1..6 *)
Definition upto_h16 (k : N) : matcher := fun ra =>
  Ok ra >>= star fuel h16_colon 0 k >>= concat h16 >>= matched ra.

(* uri.cpp:268-367 *)
Definition ipv6address : matcher := fun r =>
  Ok r >>= alternative
    [ (fun r1 => Ok r1 >>= star fuel h16_colon 6 6 >>= concat ls32 >>= matched r1);
      (fun r2 => Ok r2 >>= concat colon_colon >>= star fuel h16_colon 5 5 >>= concat ls32
                       >>= matched r2);
      (fun r3 => Ok r3 >>= optional h16 >>= concat colon_colon >>= star fuel h16_colon 4 4
                       >>= concat ls32 >>= matched r3);
      (fun r4 => Ok r4 >>= optional (upto_h16 1) >>= concat colon_colon
                       >>= star fuel h16_colon 3 3 >>= concat ls32 >>= matched r4);
      (fun r5 => Ok r5 >>= optional (upto_h16 2) >>= concat colon_colon
                       >>= star fuel h16_colon 2 2 >>= concat ls32 >>= matched r5);
      (fun r6 => Ok r6 >>= optional (upto_h16 3) >>= concat colon_colon
                       >>= concat h16_colon >>= concat ls32 >>= matched r6);
      (fun r7 => Ok r7 >>= optional (upto_h16 4) >>= concat colon_colon
                       >>= concat ls32 >>= matched r7);
      (fun r8 => Ok r8 >>= optional (upto_h16 5) >>= concat colon_colon
                       >>= concat h16 >>= matched r8);
      (fun r9 => Ok r9 >>= optional (upto_h16 6) >>= concat colon_colon >>= matched r9) ]
    >>= matched r.

(* uri.cpp:370-381 *)
Definition ipvfuture : matcher := fun r =>
  Ok r >>= concat latin_small_letter_v >>= star fuel (hexdig sg) 1 uint_max
       >>= concat full_stop
       >>= star fuel (fun r1 =>
             Ok r1 >>= alternative [unreserved; sub_delims; colon] >>= matched r1)
           1 uint_max
       >>= matched r.

(* uri.cpp:384-392 *)
Definition ip_literal : matcher := fun r =>
  Ok r >>= concat left_square_bracket
       >>= concat (fun r1 => Ok r1 >>= alternative [ipv6address; ipvfuture] >>= matched r1)
       >>= concat right_square_bracket >>= matched r.

(* uri.cpp:395-398 *)
Definition host_r : matcher := fun r =>
  Ok r >>= alternative [ip_literal; ipv4address; reg_name] >>= matched r.

(* uri.cpp:401-410 *)
Definition host_rule : matcher := fun r => Ok r >>= concat_a host_r SetHost >>= matched r.
(* uri.cpp:412-423 *)
Definition userinfo_at : matcher := fun r =>
  Ok r >>= concat_a userinfo_r SetUserinfo >>= concat commercial_at >>= matched r.
(* uri.cpp:426-428 *)
Definition port_r : matcher := fun r => Ok r >>= star fuel (digit sg) 0 uint_max >>= matched r.
(* uri.cpp:431-441 *)
Definition colon_port : matcher := fun r =>
  Ok r >>= concat colon >>= concat_a port_r SetPort >>= matched r.
(* uri.cpp:443-451 *)
Definition authority_r : matcher := fun r =>
  Ok r >>= optional userinfo_at >>= concat host_rule >>= optional colon_port >>= matched r.

(* uri.cpp:454-475 *)
Definition segment : matcher := fun r => Ok r >>= star fuel pchar 0 uint_max >>= matched r.
Definition segment_nz : matcher := fun r => Ok r >>= star fuel pchar 1 uint_max >>= matched r.
Definition segment_nz_nc : matcher := fun r =>
  Ok r >>= star fuel (fun r2 =>
             Ok r2 >>= alternative [unreserved; pct_encoded; sub_delims; commercial_at]
                   >>= matched r2)
           1 uint_max
       >>= matched r.

(* uri.cpp:519-530 *)
Definition path_abempty : matcher := fun r =>
  Ok r >>= star fuel (fun r2 =>
             Ok r2 >>= concat_a solidus (AppendDir true) >>= concat_a segment AppendSegment
                   >>= matched r2)
           0 uint_max
       >>= matched r.

(* the lambda "/" segment of uri.cpp:538-542, 553-557, 571-575 *)
Definition slash_segment : matcher := fun r2 =>
  Ok r2 >>= concat_a solidus (AppendDir false) >>= concat_a segment AppendSegment
        >>= matched r2.

(* uri.cpp:532-547 *)
Definition path_absolute : matcher := fun r =>
  Ok r >>= concat_a solidus (AppendDir true)
       >>= optional (fun r1 =>
             Ok r1 >>= concat_a segment_nz AppendSegment
                   >>= star fuel slash_segment 0 uint_max
                   >>= matched r1)
       >>= matched r.
(* uri.cpp:550-560 *)
Definition path_noscheme : matcher := fun r =>
  Ok r >>= concat_a segment_nz_nc RecordInitialSegment
       >>= star fuel slash_segment 0 uint_max >>= matched r.
(* uri.cpp:563-565 *)
Definition path_empty : matcher := fun r => Ok r >>= star fuel pchar 0 0 >>= matched r.
(* uri.cpp:568-578 *)
Definition path_rootless : matcher := fun r =>
  Ok r >>= concat_a segment_nz RecordInitialSegment
       >>= star fuel slash_segment 0 uint_max >>= matched r.
(* uri.cpp:581-589 *)
Definition auth_abempty : matcher := fun r =>
  Ok r >>= concat solidus >>= concat solidus >>= concat authority_r >>= concat path_abempty
       >>= matched r.
(* uri.cpp:595-602 *)
Definition relative_part : matcher := fun r =>
  Ok r >>= alternative [auth_abempty; path_absolute; path_noscheme; path_empty] >>= matched r.
(* uri.cpp:605-612, 627-629 *)
Definition query : matcher := fun r =>
  Ok r >>= star fuel (fun r2 =>
             Ok r2 >>= alternative [pchar; solidus; question_mark] >>= matched r2)
           0 uint_max
       >>= matched r.
Definition fragment : matcher := fun r => query r.
(* uri.cpp:616-624 *)
Definition question_query : matcher := fun r =>
  Ok r >>= concat question_mark >>= concat_a query SetQuery >>= matched r.
(* uri.cpp:633-642 *)
Definition hash_fragment : matcher := fun rf =>
  Ok rf >>= concat hash >>= concat_a fragment SetFragment >>= matched rf.
(* uri.cpp:645-662; its last lambda is the same as hash_fragment *)
Definition relative_ref : matcher := fun r =>
  Ok r >>= concat relative_part >>= optional question_query
       >>= optional (fun rf =>
             Ok rf >>= concat hash >>= concat_a fragment SetFragment >>= matched rf)
       >>= matched r.
(* uri.cpp:673-680 *)
Definition hier_part : matcher := fun r =>
  Ok r >>= alternative [auth_abempty; path_absolute; path_rootless; path_empty] >>= matched r.
(* uri.cpp:683-695 *)
Definition URI : matcher := fun r =>
  Ok r >>= concat_a scheme SetScheme >>= concat colon >>= concat hier_part
       >>= optional question_query >>= optional hash_fragment >>= matched r.
(* uri.cpp:698-703 *)
Definition URI_reference : matcher := fun r =>
  Ok r >>= alternative [URI; relative_ref] >>= matched r.

(* rule{in}.concat (f).done () with a parts object being filled in *)
Definition parse_done (f : matcher) (inp : str) : outcome (option parts) :=
  do r <- concat f (rule_of inp);
  do b <- done run_action r empty_parts;
  Ok (if fst b then Some (snd b) else None).

(* uri.cpp:896-907 *)
Definition split : str -> outcome (option parts) := parse_done URI.
Definition split_reference : str -> outcome (option parts) := parse_done URI_reference.

(* rule{s}.concat (f).done () where f registers no acceptor that matters *)
Definition matches (f : matcher) (s : str) : outcome bool :=
  do r <- concat f (rule_of s);
  do b <- done run_action r empty_parts;
  Ok (fst b).

(* if (x.has_value () && !match (x.value ())) return false; *)
Definition opt_matches (f : matcher) (s : option str) : outcome bool :=
  match s with None => Ok true | Some s => matches f s end.

(* x && y, evaluated left to right with short circuit *)
Definition andalso (x : outcome bool) (y : outcome bool) : outcome bool :=
  do b <- x; if b then y else Ok false.

(* uri.cpp:828-835 *)
Fixpoint segs_valid (l : list str) : outcome bool :=
  match l with
  | [] => Ok true
  | seg :: l' => andalso (matches segment seg) (segs_valid l')
  end.
Definition path_valid (p : path) : outcome bool := segs_valid (segments p).
(* uri.cpp:841-853 *)
Definition authority_valid (a : authority) : outcome bool :=
  andalso (opt_matches userinfo_r (userinfo a))
  (andalso (matches host_r (host a))
           (opt_matches port_r (port a))).
(* uri.cpp:855-875 *)
Definition parts_valid (p : parts) : outcome bool :=
  andalso (match p_scheme p with None => Ok false | Some s => matches scheme s end)
  (andalso (match p_authority p with None => Ok true | Some a => authority_valid a end)
  (andalso (path_valid (p_path p))
  (andalso (opt_matches query (p_query p))
           (opt_matches fragment (p_fragment p))))).
End Grammar.

(* ------------------------------------------------------------------------- *)
(* Comparison                                                                 *)
(* ------------------------------------------------------------------------- *)
Definition segs_eqb (a b : list str) : bool :=
  if list_eq_dec (list_eq_dec ascii_dec) a b then true else false.
(* uri.cpp:759-761 *)
Definition path_eqb (a b : path) : bool :=
  Bool.eqb (absolute a) (absolute b) && segs_eqb (segments a) (segments b).
(* uri.cpp:837-839 *)
Definition authority_eqb (a b : authority) : bool :=
  opt_eqb str_eqb (userinfo a) (userinfo b) && str_eqb (host a) (host b)
  && opt_eqb str_eqb (port a) (port b).
(* uri.cpp:877-894 *)
Definition parts_eqb (a b : parts) : bool :=
  if negb (opt_eqb str_eqb (p_scheme a) (p_scheme b))
     || negb (opt_eqb authority_eqb (p_authority a) (p_authority b))
     || negb (opt_eqb str_eqb (p_query a) (p_query b))
     || negb (opt_eqb str_eqb (p_fragment a) (p_fragment b))
  then false
  else match p_authority a, p_authority b with
       | Some _, Some _ => segs_eqb (segments (p_path a)) (segments (p_path b))
       | _, _ => path_eqb (p_path a) (p_path b)
       end.

(* ------------------------------------------------------------------------- *)
(* Composition                                                                *)
(* ------------------------------------------------------------------------- *)
(* uri.cpp:806-815  path::operator std::string; the loop over segments with its [separator] *)
Fixpoint path_string_loop (sep : str) (segs : list str) (p : str) : str :=
  match segs with
  | [] => p
  | seg :: rest => path_string_loop (ss "/") rest (p ++ sep ++ seg)
  end.
Definition path_string (p : path) : str :=
  path_string_loop (if absolute p then ss "/" else []) (segments p) [].

(* uri.cpp:909-924 *)
Definition authority_string (a : authority) : str :=
  (match userinfo a with Some u => u ++ ss "@" | None => [] end)
  ++ (match host a with [] => [] | h => h end)
  ++ (match port a with Some p => ss ":" ++ (match p with [] => [] | p => p end) | None => [] end).

(* uri.hpp:79 *)
Definition path_is_empty (p : path) : bool := match segments p with [] => true | _ => false end.

(* uri.cpp:998-1026 *)
Definition compose (p : parts) : str :=
  (match p_scheme p with Some s => s ++ ss ":" | None => [] end)
  ++ (match p_authority p with
      | Some a => ss "//" ++ authority_string a
                  ++ (if negb (path_is_empty (p_path p)) && negb (absolute (p_path p))
                      then ss "/" else [])
      | None => []
      end)
  ++ path_string (p_path p)
  ++ (match p_query p with Some q => ss "?" ++ q | None => [] end)
  ++ (match p_fragment p with Some f => ss "#" ++ f | None => [] end).

(* ------------------------------------------------------------------------- *)
(* Dot segments and joining                                                   *)
(* ------------------------------------------------------------------------- *)
(* uri.cpp:769-804.  [segs] is the vector as mutated so far, [it] and [outit] are indices
   into it; [n] counts the remaining iterations (end - it). *)
Definition is_dot (s : str) : bool := str_eqb s (ss ".").
Definition is_dotdot (s : str) : bool := str_eqb s (ss "..").
Definition is_empty (s : str) : bool := match s with [] => true | _ => false end.

Fixpoint upd {T} (i : nat) (v : T) (l : list T) : list T :=
  match l, i with
  | [], _ => []
  | _ :: l', O => v :: l'
  | x :: l', S i' => x :: upd i' v l'
  end.

Fixpoint rds_loop (n : nat) (it outit : nat) (last_dir : bool) (segs : list str)
    : nat * bool * list str :=
  match n with
  | O => (outit, last_dir, segs)
  | S n' =>
    let cur := nth it segs [] in
    if is_dot cur then rds_loop n' (S it) outit true segs
    else if is_dotdot cur then rds_loop n' (S it) (pred outit) true segs
    else rds_loop n' (S it) (S outit) (is_empty cur)
           (if Nat.eqb outit it then segs else upd outit cur segs)
  end.

Definition rds_segments (segs : list str) : list str :=
  let '(outit, last_dir, s) := rds_loop (length segs) 0 0 false segs in
  let kept := firstn outit s in                      (* erase (outit, end) *)
  if last_dir then
    match kept with
    | [] => [[]]
    | _ => if is_empty (last kept []) then kept else kept ++ [[]]
    end
  else kept.
Definition remove_dot_segments (p : path) : path := mkpath (absolute p) (rds_segments (segments p)).

(* uri.cpp:730-753 *)
Definition merge (base ref : parts) : path :=
  match p_authority base, path_is_empty (p_path base) with
  | Some _, true => mkpath true (segments (p_path ref))
  | _, _ =>
    let bs := segments (p_path base) in
    mkpath (absolute (p_path base))
           ((if Nat.ltb 1 (length bs) then firstn (length bs - 1) bs else bs)
            ++ segments (p_path ref))
  end.

(* uri.cpp:940-983 *)
Definition join_parts (base reference : parts) (strict : bool) : parts :=
  let ref_scheme :=
    if negb strict && opt_eqb str_eqb (p_scheme reference) (p_scheme base)
    then None else p_scheme reference in
  match ref_scheme with
  | Some s =>
    mkparts (Some s) (p_authority reference) (remove_dot_segments (p_path reference))
            (p_query reference) (p_fragment reference)
  | None =>
    match p_authority reference with
    | Some a =>
      mkparts (p_scheme base) (Some a) (remove_dot_segments (p_path reference))
              (p_query reference) (p_fragment reference)
    | None =>
      if path_is_empty (p_path reference) then
        mkparts (p_scheme base) (p_authority base) (p_path base)
                (match p_query reference with Some q => Some q | None => p_query base end)
                (p_fragment reference)
      else if absolute (p_path reference) then
        mkparts (p_scheme base) (p_authority base) (remove_dot_segments (p_path reference))
                (p_query reference) (p_fragment reference)
      else
        mkparts (p_scheme base) (p_authority base) (remove_dot_segments (merge base reference))
                (p_query reference) (p_fragment reference)
    end
  end.

(* uri.cpp:985-996 *)
Definition join (sg : bool) (fuel : nat) (base reference : str) (strict : bool)
    : outcome (option parts) :=
  do b <- split sg fuel base;
  match b with
  | None => Ok None
  | Some bp =>
    do r <- split_reference sg fuel reference;
    match r with
    | None => Ok None
    | Some rp => Ok (Some (join_parts bp rp strict))
    end
  end.
