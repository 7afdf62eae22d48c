(* Model of the parser of uri.cpp and rule.hpp under any locale: the text of the grammar in ModelUri.v with the calls of
   std::isalpha, std::isalnum and std::tolower (uri.cpp:39-42, 126, rule.hpp:163-166, 328-341) depending on the locale
   that setlocale has installed.  std::isdigit and std::isxdigit do not depend on it (C17 7.4.1.5, 7.4.1.12).
   The matchers without such a call (sub_delims, not_colon, digit, hexdig) and the combinators are those of
   ModelUri.v and ModelRule.v.  The locale is taken not to change during a call.
   In the "C" locale this is the model of ModelUri.v: PropLocale.v, C54_c_locale. *)
From Verif Require Import Base ModelRule ModelUri.
Local Open Scope Z_scope.

(* what a locale has to say in <cctype>, for the values of unsigned char *)
Record locale := mklocale { l_isupper : Z -> bool; l_islower : Z -> bool; l_isalpha : Z -> bool; l_tolower : Z -> Z }.
(* C17 7.4.1.1: isalnum is isalpha or isdigit *)
Definition l_isalnum (L : locale) (i : Z) : bool := l_isalpha L i || c_isdigit i.
(* the "C" locale *)
Definition c_locale : locale := mklocale c_isupper c_islower c_isalpha (fun i => if c_isupper i then i + 32 else i).
Definition tolower_in (L : locale) (i : Z) : outcome Z := if ctype_dom i then Ok (l_tolower L i) else Fault ctype_domain.

Section Chars.
Variable A : Type.
Variable L : locale.
Variable sg : bool.
(* rule.hpp:163-167, 325-327 *)
Definition single_char_in (c : ascii) : matcher A := fun r =>
  do c2 <- tolower_in L (as_int sg c);
  single_char_p (fun d => do d2 <- tolower_in L (as_int sg d); Ok (c2 =? d2)) r.
(* rule.hpp:328-336, uri.cpp:32-46 *)
Definition char_range_in (first last : ascii) : matcher A := fun r =>
  do f <- tolower_in L (as_int sg first);
  do l <- tolower_in L (as_int sg last);
  single_char_p (fun c => do cl <- tolower_in L (as_int sg c); Ok ((f <=? cl) && (cl <=? l))) r.
(* rule.hpp:338-341 *)
Definition alpha_in : matcher A := single_char_p (fun c => ctype (l_isalpha L) (as_int sg c)).
End Chars.
Arguments single_char_in {A}. Arguments char_range_in {A}. Arguments alpha_in {A}.

Local Close Scope Z_scope.
Section Grammar.
Variable L : locale.
Variable sg : bool.      (* is char signed? *)
Variable fuel : nat.     (* bound on the iterations of each star() loop *)

Local Notation matcher := (matcher action).

(* uri.cpp:25-92; the code_point values are those of uri.hpp:25-70.  The asserts of
   single_code_point / code_point_range compare constants below 128 with CHAR_MAX. *)
Definition single_code_point_in (cp : N) : matcher := single_char_in L sg (chr cp).
Definition code_point_range_in (a b : N) : matcher := char_range_in L sg (chr a) (chr b).
Definition commercial_at_in := single_code_point_in 0x40.
Definition colon_in := single_code_point_in 0x3A.
Definition hash_in := single_code_point_in 0x23.
Definition plus_in := single_code_point_in 0x2B.
Definition minus_in := single_code_point_in 0x2D.
Definition solidus_in := single_code_point_in 0x2F.
Definition question_mark_in := single_code_point_in 0x3F.
Definition full_stop_in := single_code_point_in 0x2E.
Definition left_square_bracket_in := single_code_point_in 0x5B.
Definition right_square_bracket_in := single_code_point_in 0x5D.
Definition percent_sign_in := single_code_point_in 0x25.
Definition digit_one_in := single_code_point_in 0x31.
Definition digit_two_in := single_code_point_in 0x32.
Definition digit_five_in := single_code_point_in 0x35.
Definition latin_small_letter_v_in := single_code_point_in 0x76.

(* uri.cpp:94-106; not_colon makes no <cctype> call *)
Definition single_colon_in : matcher := fun r =>
  Ok r >>= concat colon_in >>= concat not_colon >>= matched r.

(* uri.cpp:123-130 *)
Definition unreserved_in : matcher := single_char_p (fun c =>
  do b <- ctype (l_isalnum L) (as_int sg c);
  Ok (b || existsb (fun n => (code c =? n)%N) [0x2D; 0x2E; 0x5F; 0x7E]%N)).

(* uri.cpp:133-138 *)
Definition pct_encoded_in : matcher := fun r =>
  Ok r >>= concat percent_sign_in >>= concat (hexdig sg) >>= concat (hexdig sg) >>= matched r.

(* uri.cpp:141-145 *)
Definition pchar_in : matcher := fun r =>
  Ok r >>= alternative [unreserved_in; pct_encoded_in; sub_delims; colon_in; commercial_at_in]
       >>= matched r.

(* uri.cpp:148-155 *)
Definition userinfo_r_in : matcher := fun r =>
  Ok r >>= star fuel (fun r2 =>
             Ok r2 >>= alternative [unreserved_in; pct_encoded_in; sub_delims; colon_in] >>= matched r2)
           0 uint_max
       >>= matched r.

(* uri.cpp:159-166 *)
Definition scheme_in : matcher := fun r =>
  Ok r >>= concat (alpha_in L sg)
       >>= star fuel (fun r2 =>
             Ok r2 >>= alternative [alpha_in L sg; digit sg; plus_in; minus_in; full_stop_in] >>= matched r2)
           0 uint_max
       >>= matched r.

(* uri.cpp:170-177 *)
Definition reg_name_in : matcher := fun r =>
  Ok r >>= star fuel (fun r1 =>
             Ok r1 >>= alternative [unreserved_in; pct_encoded_in; sub_delims] >>= matched r1)
           0 uint_max
       >>= matched r.

(* uri.cpp:184-219 *)
Definition dec_octet_in : matcher := fun r =>
  Ok r >>= alternative
    [ (fun r4 => Ok r4 >>= concat digit_two_in >>= concat digit_five_in
                       >>= concat (code_point_range_in 0x30 0x35) >>= matched r4);
      (fun r3 => Ok r3 >>= concat digit_two_in >>= concat (code_point_range_in 0x30 0x34)
                       >>= concat (digit sg) >>= matched r3);
      (fun r2 => Ok r2 >>= concat digit_one_in >>= concat (digit sg) >>= concat (digit sg)
                       >>= matched r2);
      (fun r1 => Ok r1 >>= concat (code_point_range_in 0x31 0x39) >>= concat (digit sg)
                       >>= matched r1);
      digit sg ]
    >>= matched r.

(* uri.cpp:222-232 *)
Definition ipv4address_in : matcher := fun r =>
  Ok r >>= concat dec_octet_in >>= concat full_stop_in >>= concat dec_octet_in >>= concat full_stop_in
       >>= concat dec_octet_in >>= concat full_stop_in >>= concat dec_octet_in >>= matched r.

(* uri.cpp:235-245 *)
Definition h16_in : matcher := fun r => Ok r >>= star fuel (hexdig sg) 1 4 >>= matched r.
Definition h16_colon_in : matcher := fun r => Ok r >>= concat h16_in >>= concat single_colon_in >>= matched r.
Definition colon_colon_in : matcher := fun r => Ok r >>= concat colon_in >>= concat colon_in >>= matched r.

(* uri.cpp:248-257 *)
Definition ls32_in : matcher := fun r =>
  Ok r >>= alternative
    [ (fun r1 => Ok r1 >>= concat h16_in >>= concat colon_in >>= concat h16_in >>= matched r1);
      ipv4address_in ]
    >>= matched r.

(* uri.cpp:295-299, 308-312, 321-325, 334-338, 346-350, 358-362: the lambda
   *k( h16 ":" ) h16, textually repeated in the source for k = 1..6 *)
Definition upto_h16_in (k : N) : matcher := fun ra =>
  Ok ra >>= star fuel h16_colon_in 0 k >>= concat h16_in >>= matched ra.

(* uri.cpp:268-367 *)
Definition ipv6address_in : matcher := fun r =>
  Ok r >>= alternative
    [ (fun r1 => Ok r1 >>= star fuel h16_colon_in 6 6 >>= concat ls32_in >>= matched r1);
      (fun r2 => Ok r2 >>= concat colon_colon_in >>= star fuel h16_colon_in 5 5 >>= concat ls32_in
                       >>= matched r2);
      (fun r3 => Ok r3 >>= optional h16_in >>= concat colon_colon_in >>= star fuel h16_colon_in 4 4
                       >>= concat ls32_in >>= matched r3);
      (fun r4 => Ok r4 >>= optional (upto_h16_in 1) >>= concat colon_colon_in
                       >>= star fuel h16_colon_in 3 3 >>= concat ls32_in >>= matched r4);
      (fun r5 => Ok r5 >>= optional (upto_h16_in 2) >>= concat colon_colon_in
                       >>= star fuel h16_colon_in 2 2 >>= concat ls32_in >>= matched r5);
      (fun r6 => Ok r6 >>= optional (upto_h16_in 3) >>= concat colon_colon_in
                       >>= concat h16_colon_in >>= concat ls32_in >>= matched r6);
      (fun r7 => Ok r7 >>= optional (upto_h16_in 4) >>= concat colon_colon_in
                       >>= concat ls32_in >>= matched r7);
      (fun r8 => Ok r8 >>= optional (upto_h16_in 5) >>= concat colon_colon_in
                       >>= concat h16_in >>= matched r8);
      (fun r9 => Ok r9 >>= optional (upto_h16_in 6) >>= concat colon_colon_in >>= matched r9) ]
    >>= matched r.

(* uri.cpp:370-381 *)
Definition ipvfuture_in : matcher := fun r =>
  Ok r >>= concat latin_small_letter_v_in >>= star fuel (hexdig sg) 1 uint_max
       >>= concat full_stop_in
       >>= star fuel (fun r1 =>
             Ok r1 >>= alternative [unreserved_in; sub_delims; colon_in] >>= matched r1)
           1 uint_max
       >>= matched r.

(* uri.cpp:384-392 *)
Definition ip_literal_in : matcher := fun r =>
  Ok r >>= concat left_square_bracket_in
       >>= concat (fun r1 => Ok r1 >>= alternative [ipv6address_in; ipvfuture_in] >>= matched r1)
       >>= concat right_square_bracket_in >>= matched r.

(* uri.cpp:395-398 *)
Definition host_r_in : matcher := fun r =>
  Ok r >>= alternative [ip_literal_in; ipv4address_in; reg_name_in] >>= matched r.

(* uri.cpp:401-410 *)
Definition host_rule_in : matcher := fun r => Ok r >>= concat_a host_r_in SetHost >>= matched r.
(* uri.cpp:412-423 *)
Definition userinfo_at_in : matcher := fun r =>
  Ok r >>= concat_a userinfo_r_in SetUserinfo >>= concat commercial_at_in >>= matched r.
(* uri.cpp:426-428 *)
Definition port_r_in : matcher := fun r => Ok r >>= star fuel (digit sg) 0 uint_max >>= matched r.
(* uri.cpp:431-441 *)
Definition colon_port_in : matcher := fun r =>
  Ok r >>= concat colon_in >>= concat_a port_r_in SetPort >>= matched r.
(* uri.cpp:443-451 *)
Definition authority_r_in : matcher := fun r =>
  Ok r >>= optional userinfo_at_in >>= concat host_rule_in >>= optional colon_port_in >>= matched r.

(* uri.cpp:454-475 *)
Definition segment_in : matcher := fun r => Ok r >>= star fuel pchar_in 0 uint_max >>= matched r.
Definition segment_nz_in : matcher := fun r => Ok r >>= star fuel pchar_in 1 uint_max >>= matched r.
Definition segment_nz_nc_in : matcher := fun r =>
  Ok r >>= star fuel (fun r2 =>
             Ok r2 >>= alternative [unreserved_in; pct_encoded_in; sub_delims; commercial_at_in]
                   >>= matched r2)
           1 uint_max
       >>= matched r.

(* uri.cpp:519-530 *)
Definition path_abempty_in : matcher := fun r =>
  Ok r >>= star fuel (fun r2 =>
             Ok r2 >>= concat_a solidus_in (AppendDir true) >>= concat_a segment_in AppendSegment
                   >>= matched r2)
           0 uint_max
       >>= matched r.

(* the lambda "/" segment of uri.cpp:538-542, 553-557, 571-575 *)
Definition slash_segment_in : matcher := fun r2 =>
  Ok r2 >>= concat_a solidus_in (AppendDir false) >>= concat_a segment_in AppendSegment
        >>= matched r2.

(* uri.cpp:532-547 *)
Definition path_absolute_in : matcher := fun r =>
  Ok r >>= concat_a solidus_in (AppendDir true)
       >>= optional (fun r1 =>
             Ok r1 >>= concat_a segment_nz_in AppendSegment
                   >>= star fuel slash_segment_in 0 uint_max
                   >>= matched r1)
       >>= matched r.
(* uri.cpp:550-560 *)
Definition path_noscheme_in : matcher := fun r =>
  Ok r >>= concat_a segment_nz_nc_in RecordInitialSegment
       >>= star fuel slash_segment_in 0 uint_max >>= matched r.
(* uri.cpp:563-565 *)
Definition path_empty_in : matcher := fun r => Ok r >>= star fuel pchar_in 0 0 >>= matched r.
(* uri.cpp:568-578 *)
Definition path_rootless_in : matcher := fun r =>
  Ok r >>= concat_a segment_nz_in RecordInitialSegment
       >>= star fuel slash_segment_in 0 uint_max >>= matched r.
(* uri.cpp:581-589 *)
Definition auth_abempty_in : matcher := fun r =>
  Ok r >>= concat solidus_in >>= concat solidus_in >>= concat authority_r_in >>= concat path_abempty_in
       >>= matched r.
(* uri.cpp:595-602 *)
Definition relative_part_in : matcher := fun r =>
  Ok r >>= alternative [auth_abempty_in; path_absolute_in; path_noscheme_in; path_empty_in] >>= matched r.
(* uri.cpp:605-612, 627-629 *)
Definition query_in : matcher := fun r =>
  Ok r >>= star fuel (fun r2 =>
             Ok r2 >>= alternative [pchar_in; solidus_in; question_mark_in] >>= matched r2)
           0 uint_max
       >>= matched r.
Definition fragment_in : matcher := fun r => query_in r.
(* uri.cpp:616-624 *)
Definition question_query_in : matcher := fun r =>
  Ok r >>= concat question_mark_in >>= concat_a query_in SetQuery >>= matched r.
(* uri.cpp:633-642 *)
Definition hash_fragment_in : matcher := fun rf =>
  Ok rf >>= concat hash_in >>= concat_a fragment_in SetFragment >>= matched rf.
(* uri.cpp:645-662; its last lambda is the same as hash_fragment *)
Definition relative_ref_in : matcher := fun r =>
  Ok r >>= concat relative_part_in >>= optional question_query_in
       >>= optional (fun rf =>
             Ok rf >>= concat hash_in >>= concat_a fragment_in SetFragment >>= matched rf)
       >>= matched r.
(* uri.cpp:673-680 *)
Definition hier_part_in : matcher := fun r =>
  Ok r >>= alternative [auth_abempty_in; path_absolute_in; path_rootless_in; path_empty_in] >>= matched r.
(* uri.cpp:683-695 *)
Definition URI_in : matcher := fun r =>
  Ok r >>= concat_a scheme_in SetScheme >>= concat colon_in >>= concat hier_part_in
       >>= optional question_query_in >>= optional hash_fragment_in >>= matched r.
(* uri.cpp:698-703 *)
Definition URI_reference_in : matcher := fun r =>
  Ok r >>= alternative [URI_in; relative_ref_in] >>= matched r.


(* uri.cpp:896-907 *)
Definition split_in : str -> outcome (option parts) := parse_done URI_in.
Definition split_reference_in : str -> outcome (option parts) := parse_done URI_reference_in.



(* uri.cpp:828-835 *)
Fixpoint segs_valid_in (l : list str) : outcome bool :=
  match l with
  | [] => Ok true
  | seg :: l' => andalso (matches segment_in seg) (segs_valid_in l')
  end.
Definition path_valid_in (p : path) : outcome bool := segs_valid_in (segments p).
(* uri.cpp:841-853 *)
Definition authority_valid_in (a : authority) : outcome bool :=
  andalso (opt_matches userinfo_r_in (userinfo a))
  (andalso (matches host_r_in (host a))
           (opt_matches port_r_in (port a))).
(* uri.cpp:855-875 *)
Definition parts_valid_in (p : parts) : outcome bool :=
  andalso (match p_scheme p with None => Ok false | Some s => matches scheme_in s end)
  (andalso (match p_authority p with None => Ok true | Some a => authority_valid_in a end)
  (andalso (path_valid_in (p_path p))
  (andalso (opt_matches query_in (p_query p))
           (opt_matches fragment_in (p_fragment p))))).
End Grammar.

(* uri.cpp:985-996 *)
Definition join_in (L : locale) (sg : bool) (fuel : nat) (base reference : str) (strict : bool)
    : outcome (option parts) :=
  do b <- split_in L sg fuel base;
  match b with
  | None => Ok None
  | Some bp =>
    do r <- split_reference_in L sg fuel reference;
    match r with
    | None => Ok None
    | Some rp => Ok (Some (join_parts bp rp strict))
    end
  end.
