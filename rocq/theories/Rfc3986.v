(* SPECIFICATION, written from RFC 5234 and RFC 3986 (not from the code).
   1. ABNF syntax and its denotation as a set of strings.
   2. RFC 3986 Appendix A, transcribed rule by rule.
   3. What it means for a string to decompose into URI components (sections 3, 4.1). *)
From Verif Require Import Base.

(* ---------------------------------------------------------------------- *)
(* 1. ABNF (RFC 5234)                                                       *)
(* ---------------------------------------------------------------------- *)
Inductive abnf :=
| Rng (lo hi : N)                                   (* %xlo-hi *)
| Lit (s : string)                                  (* "abc", case-insensitive (RFC 5234 2.3) *)
| Cat (a b : abnf)
| Alt (a b : abnf)
| Rep (min : nat) (max : option nat) (a : abnf).    (* <min>*<max>element *)

Definition lower (c : ascii) : ascii :=
  if (65 <=? code c)%N && (code c <=? 90)%N then chr (code c + 32) else c.

(* [L g s]: the string s is in the language of g *)
Fixpoint L (g : abnf) (s : str) : Prop :=
  match g with
  | Rng lo hi => exists c, s = [c] /\ (lo <= code c <= hi)%N
  | Lit l => map lower s = map lower (ss l)
  | Cat a b => exists s1 s2, s = s1 ++ s2 /\ L a s1 /\ L b s2
  | Alt a b => L a s \/ L b s
  | Rep min max a =>
      exists l, s = List.concat l /\ Forall (L a) l /\ min <= length l
                /\ match max with None => True | Some m => length l <= m end
  end.

Declare Scope abnf_scope.
Delimit Scope abnf_scope with abnf.
Bind Scope abnf_scope with abnf.
Arguments Lit s%string_scope.
Arguments L g%abnf_scope s.
Coercion Lit : string >-> abnf.
Notation "a ;; b" := (Cat a b) (at level 39, right associativity) : abnf_scope.
Notation "a / b" := (Alt a b) : abnf_scope.
Notation many := (Rep 0 None) (only parsing).                    (* *a   *)
Notation many1 := (Rep 1 None) (only parsing).                   (* 1*a  *)
Notation maybe := (Rep 0 (Some 1)) (only parsing).               (* [ a ] *)
Notation times n := (Rep n%nat (Some n%nat)) (only parsing).             (* n a *)
Notation upto n := (Rep 0 (Some n%nat)) (only parsing).              (* *n a *)

(* ---------------------------------------------------------------------- *)
(* 2. RFC 3986 Appendix A                                                   *)
(* ---------------------------------------------------------------------- *)
Local Open Scope abnf_scope.
Local Open Scope string_scope.
(* RFC 5234 B.1 *)
Definition ALPHA := Rng 0x41 0x5A / Rng 0x61 0x7A.
Definition DIGIT := Rng 0x30 0x39.
Definition HEXDIG := DIGIT / "A" / "B" / "C" / "D" / "E" / "F".

Definition pct_encoded := "%" ;; HEXDIG ;; HEXDIG.
Definition sub_delims := "!" / "$" / "&" / "'" / "(" / ")"
                         / "*" / "+" / "," / ";" / "=".
Definition unreserved := ALPHA / DIGIT / "-" / "." / "_" / "~".

Definition pchar := unreserved / pct_encoded / sub_delims / ":" / "@".
Definition fragment := many (pchar / "/" / "?").
Definition query := many (pchar / "/" / "?").

Definition segment := many pchar.
Definition segment_nz := many1 pchar.
Definition segment_nz_nc := many1 (unreserved / pct_encoded / sub_delims / "@").

Definition path_abempty := many ("/" ;; segment).
Definition path_absolute := "/" ;; maybe (segment_nz ;; many ("/" ;; segment)).
Definition path_noscheme := segment_nz_nc ;; many ("/" ;; segment).
Definition path_rootless := segment_nz ;; many ("/" ;; segment).
Definition path_empty := times 0 pchar.

Definition reg_name := many (unreserved / pct_encoded / sub_delims).
Definition dec_octet := DIGIT
                        / (Rng 0x31 0x39 ;; DIGIT)
                        / ("1" ;; times 2 DIGIT)
                        / ("2" ;; Rng 0x30 0x34 ;; DIGIT)
                        / ("25" ;; Rng 0x30 0x35).
Definition IPv4address :=
  dec_octet ;; "." ;; dec_octet ;; "." ;; dec_octet ;; "." ;; dec_octet.
Definition h16 := Rep 1 (Some 4) HEXDIG.
Definition ls32 := (h16 ;; ":" ;; h16) / IPv4address.
Definition IPv6address :=
                                                    (times 6 (h16 ;; ":") ;; ls32)
  /                                   ("::" ;; times 5 (h16 ;; ":") ;; ls32)
  / (maybe                        h16 ;; "::" ;; times 4 (h16 ;; ":") ;; ls32)
  / (maybe (upto 1 (h16 ;; ":") ;; h16) ;; "::" ;; times 3 (h16 ;; ":") ;; ls32)
  / (maybe (upto 2 (h16 ;; ":") ;; h16) ;; "::" ;; times 2 (h16 ;; ":") ;; ls32)
  / (maybe (upto 3 (h16 ;; ":") ;; h16) ;; "::" ;; (h16 ;; ":") ;; ls32)
  / (maybe (upto 4 (h16 ;; ":") ;; h16) ;; "::" ;; ls32)
  / (maybe (upto 5 (h16 ;; ":") ;; h16) ;; "::" ;; h16)
  / (maybe (upto 6 (h16 ;; ":") ;; h16) ;; "::").
Definition IPvFuture := "v" ;; many1 HEXDIG ;; "." ;; many1 (unreserved / sub_delims / ":").
Definition IP_literal := "[" ;; (IPv6address / IPvFuture) ;; "]".

Definition port := many DIGIT.
Definition host := IP_literal / IPv4address / reg_name.
Definition userinfo := many (unreserved / pct_encoded / sub_delims / ":").
Definition authority := maybe (userinfo ;; "@") ;; host ;; maybe (":" ;; port).
Definition scheme := ALPHA ;; many (ALPHA / DIGIT / "+" / "-" / ".").

Definition relative_part :=
  ("//" ;; authority ;; path_abempty) / path_absolute / path_noscheme / path_empty.
Definition relative_ref := relative_part ;; maybe ("?" ;; query) ;; maybe ("#" ;; fragment).
Definition hier_part :=
  ("//" ;; authority ;; path_abempty) / path_absolute / path_rootless / path_empty.
Definition URI :=
  scheme ;; ":" ;; hier_part ;; maybe ("?" ;; query) ;; maybe ("#" ;; fragment).
Definition URI_reference := URI / relative_ref.
Close Scope string_scope.

(* ---------------------------------------------------------------------- *)
(* 3. Components (RFC 3986 section 3)                                       *)
(* ---------------------------------------------------------------------- *)
(* The components of a URI reference.  A path is its list of segments (the strings between the
   slashes) together with whether it starts with "/". *)
Record components := mkcomponents {
  c_scheme : option str;
  c_authority : option (option str * str * option str);     (* userinfo, host, port *)
  c_absolute : bool;
  c_segments : list str;
  c_query : option str;
  c_fragment : option str }.

(* prefix ++ s when the component is present, nothing when it is not *)
Definition opt_pre (pre : str) (s : option str) : str :=
  match s with Some x => pre ++ x | None => [] end.
Definition opt_post (s : option str) (post : str) : str :=
  match s with Some x => x ++ post | None => [] end.
Definition in_opt (g : abnf) (s : option str) : Prop :=
  match s with Some x => L g x | None => True end.

(* "/" seg1 "/" seg2 ... *)
Definition slashed (segs : list str) : str := List.concat (map (fun x => ss "/" ++ x) segs).

(* authority = [ userinfo "@" ] host [ ":" port ] *)
Definition authority_decomp (s : str) (a : option str * str * option str) : Prop :=
  let '(u, h, p) := a in
  s = opt_post u (ss "@") ++ h ++ opt_pre (ss ":") p
  /\ in_opt userinfo u /\ L host h /\ in_opt port p.

(* The four path forms with their segments *)
Definition abempty_decomp (s : str) (abs : bool) (segs : list str) : Prop :=
  s = slashed segs /\ Forall (L segment) segs
  /\ abs = (match segs with [] => false | _ => true end).
Definition absolute_decomp (s : str) (abs : bool) (segs : list str) : Prop :=
  abs = true /\ s = slashed segs /\
  (segs = [[]] \/ exists x rest, segs = x :: rest /\ L segment_nz x /\ Forall (L segment) rest).
Definition rootless_decomp (first : abnf) (s : str) (abs : bool) (segs : list str) : Prop :=
  abs = false /\
  exists x rest, segs = x :: rest /\ s = x ++ slashed rest /\ L first x /\ Forall (L segment) rest.
Definition empty_decomp (s : str) (abs : bool) (segs : list str) : Prop :=
  s = [] /\ abs = false /\ segs = [].

(* hier-part (first := segment-nz) and relative-part (first := segment-nz-nc) *)
Definition hier_decomp (first : abnf) (s : str) (c : components) : Prop :=
  (exists a sa sp, c_authority c = Some a /\ s = ss "//" ++ sa ++ sp
      /\ authority_decomp sa a /\ abempty_decomp sp (c_absolute c) (c_segments c))
  \/ (c_authority c = None /\
      (absolute_decomp s (c_absolute c) (c_segments c)
       \/ rootless_decomp first s (c_absolute c) (c_segments c)
       \/ empty_decomp s (c_absolute c) (c_segments c))).

Definition tail_decomp (s : str) (c : components) : Prop :=
  s = opt_pre (ss "?") (c_query c) ++ opt_pre (ss "#") (c_fragment c)
  /\ in_opt query (c_query c) /\ in_opt fragment (c_fragment c).

(* URI = scheme ":" hier-part [ "?" query ] [ "#" fragment ] *)
Definition URI_decomp (s : str) (c : components) : Prop :=
  exists sch sh st, c_scheme c = Some sch /\ L scheme sch
    /\ s = sch ++ ss ":" ++ sh ++ st
    /\ hier_decomp segment_nz sh c /\ tail_decomp st c.

(* relative-ref = relative-part [ "?" query ] [ "#" fragment ] *)
Definition relative_decomp (s : str) (c : components) : Prop :=
  exists sh st, c_scheme c = None /\ s = sh ++ st
    /\ hier_decomp segment_nz_nc sh c /\ tail_decomp st c.

Definition reference_decomp (s : str) (c : components) : Prop :=
  URI_decomp s c \/ relative_decomp s c.
