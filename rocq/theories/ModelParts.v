(* Model of include/uri/parts.hpp and lib/uri/parts.cpp: uri::encode and uri::decode of whole parts.
   Here a std::string_view is not just its contents: it also says where the characters are. *)
From Verif Require Import Base ModelUri ModelAlgo.
From Verif Require ModelPct ModelPuny ModelIcu.
Local Open Scope list_scope.

(* --- the store -------------------------------------------------------------------------------------------
   VectorContainer (parts.hpp:238-240): std::vector<char>, std::string, or anything like them.  [vc_alloc]
   counts the allocations made so far: a pointer into an earlier one dangles. *)
Record vec := Vec { vc_alloc : nat; vc_cap : nat; vc_data : str }.
(* The capacity obtained when n elements are asked for is n + grow n, grow being any function. *)
Definition reserve (grow : nat -> nat) (v : vec) (n : nat) : vec :=
  if Nat.leb n (vc_cap v) then v else Vec (S (vc_alloc v)) (n + grow n) (vc_data v).
Definition push_back (grow : nat -> nat) (v : vec) (c : ascii) : vec :=
  let v := reserve grow v (S (length (vc_data v))) in Vec (vc_alloc v) (vc_cap v) (vc_data v ++ [c]).
(* std::back_inserter: what is written to it, one character after the other *)
Definition push_all (grow : nat -> nat) (v : vec) (s : str) : vec := fold_left (push_back grow) s v.
Definition vclear (v : vec) : vec := Vec (vc_alloc v) (vc_cap v) [].

(* A string_view: data() == nullptr; or characters owned by the caller, which encode and decode do not
   change; or characters of the store (an allocation, offset and length). *)
Inductive view := Null | Caller (s : str) | InStore (alloc off len : nat).
(* the characters of a view, as long as they are there *)
Definition read (st : vec) (v : view) : outcome str :=
  match v with
  | Null => Ok []
  | Caller s => Ok s
  | InStore a off len =>
      if Nat.eqb a (vc_alloc st) && Nat.leb (off + len) (length (vc_data st))
      then Ok (firstn len (skipn off (vc_data st))) else Fault dangling_view
  end.

(* uri.hpp:43-129: struct parts with the places of its views *)
Record vauth := mkvauth { v_userinfo : option view; v_host : view; v_port : option view }.
Record vparts := mkvparts {
  v_scheme : option view; v_authority : option vauth; v_absolute : bool; v_segments : list view;
  v_query : option view; v_fragment : option view }.

(* parts.hpp:26-35 *)
Definition f_scheme : N := 0.
Definition f_userinfo : N := 1.
Definition f_host : N := 2.
Definition f_port : N := 3.
Definition f_query : N := 4.
Definition f_fragment : N := 5.
Definition f_path : N := 6.
Definition f_last : N := 32.

(* parts.hpp:37-51 *)
Definition pctencode_set_from_parts_field (field : N) : N :=
  if (field =? f_userinfo)%N then ModelPct.es_userinfo
  else if (field =? f_path)%N then ModelPct.es_path
  else if (field =? f_query)%N then ModelPct.es_query
  else if (field =? f_fragment)%N then ModelPct.es_fragment
  else ModelPct.es_none.

(* parts.hpp:53 *)
Definition idna_prefix : str := ss "xn--".

(* parts.cpp:24-34; the sink only counts.  Sizes are unbounded here: they are sizes of strings in memory. *)
Definition pct_encoded_size (s : str) (es : N) : outcome nat :=
  do needs <- ModelPct.needs_pctencode s es;
  if negb needs then Ok 0 else do e <- ModelPct.pctencode s es; Ok (length e).
(* parts.cpp:36-41 *)
Definition pct_decoded_size (s : str) : outcome nat :=
  if negb (ModelPct.needs_pctdecode s) then Ok 0 else do d <- ModelPct.pctdecode s; Ok (length d).

(* parts.hpp:74-106  parts_strings: [f] is applied to every view that is not null, in this order; what
   it captures by reference is threaded as its state.  [count] is a 32-bit unsigned. *)
Section Strings.
Context {S : Type}.
Variable f : S -> view -> N -> N -> outcome (S * view).
Definition on_view (s : S) (v : view) (field : N) : outcome (S * view) :=
  match v with Null => Ok (s, Null) | _ => f s v 0%N field end.
Definition on_opt (s : S) (v : option view) (field : N) : outcome (S * option view) :=
  match v with None => Ok (s, None) | Some v => do (s, v) <- on_view s v field; Ok (s, Some v) end.
(* parts.hpp:82-87 *)
Fixpoint on_segments (s : S) (l : list view) (count : N) : outcome (S * list view) :=
  match l with
  | [] => Ok (s, [])
  | Null :: l' => do (s, l') <- on_segments s l' count; Ok (s, Null :: l')
  | v :: l' =>
      do (s, v) <- f s v count f_path;
      do (s, l') <- on_segments s l' ((count + 1) mod 2 ^ 32)%N;
      Ok (s, v :: l')
  end.
(* parts.hpp:88-99 *)
Definition on_auth (s : S) (a : option vauth) : outcome (S * option vauth) :=
  match a with
  | None => Ok (s, None)
  | Some a =>
      do (s, u) <- on_opt s (v_userinfo a) f_userinfo;
      do (s, h) <- on_view s (v_host a) f_host;
      do (s, p) <- on_opt s (v_port a) f_port;
      Ok (s, Some (mkvauth u h p))
  end.
Definition parts_strings (s : S) (p : vparts) : outcome (S * vparts) :=
  do (s, sc) <- on_opt s (v_scheme p) f_scheme;
  do (s, sg) <- on_segments s (v_segments p) 0%N;
  do (s, au) <- on_auth s (v_authority p);
  do (s, q) <- on_opt s (v_query p) f_query;
  do (s, fr) <- on_opt s (v_fragment p) f_fragment;
  Ok (s, mkvparts sc au (v_absolute p) sg q fr).
End Strings.

(* parts.hpp:114-116; std::views::take_while (is_not_dot) and the position where it ends *)
Definition is_not_dot (c : N) : bool := negb (c =? 46)%N.
Fixpoint take_while {A} (p : A -> bool) (l : list A) : list A * list A :=
  match l with
  | [] => ([], [])
  | x :: l' => if p x then let (a, b) := take_while p l' in (x :: a, b) else ([], l)
  end.

(* parts.hpp:118-149: what is written to out, and any_needed.  [fuel] bounds the number of labels. *)
Fixpoint puny_encoded_loop (fuel : nat) (range : list N) (out : str) (any_needed : bool) : outcome (str * bool) :=
  match fuel with
  | O => Diverge
  | S fuel =>
      let (label, inp) := take_while is_not_dot range in
      do (segment, any_non_ascii) <- ModelPuny.encode label true;
      let out := if any_non_ascii then out ++ idna_prefix else out in
      let any_needed := if any_non_ascii then true else any_needed in
      let out := out ++ segment in
      match inp with
      | [] => Ok (out, any_needed)                                   (* in == end *)
      | _ :: next => puny_encoded_loop fuel next (out ++ ["."%char]) any_needed
      end
  end.
Definition puny_encoded (range : list N) : outcome (str * bool) := puny_encoded_loop (S (length range)) range [] false.
(* parts.hpp:151-160 *)
Definition puny_encoded_size (range : list N) : outcome nat :=
  do (out, any) <- puny_encoded range; Ok (if any then length out else 0).

(* parts.hpp:172-218: what is written to out, and the result: any_encoded, or the error.  The labels
   are decoded to UTF-32 and written as UTF-8 through the transcode view of icubaby.  The third
   alternative of the code (std::errc::invalid_argument) would need a valueless variant. *)
Definition to_utf8 (u : list N) : outcome str :=
  do (bytes, _) <- ModelIcu.view_iterate ModelIcu.t32_8 ModelIcu.max_output_8 u (S (4 * length u));
  Ok (map chr bytes).
Fixpoint puny_decoded_loop (fuel : nat) (first : str) (out : str) (any_encoded : bool)
  : outcome (str * ModelPuny.dresult bool) :=
  match fuel with
  | O => Diverge
  | S fuel =>
      let (label, rest) := take_while (fun c => is_not_dot (code c)) first in
      let continue out any :=
        match rest with
        | [] => Ok (out, inl any)                                    (* first == last *)
        | _ :: next => puny_decoded_loop fuel next (out ++ ["."%char]) any
        end in
      if starts_with Ascii.eqb label idna_prefix then
        do r <- ModelPuny.decode (skipn (length idna_prefix) label);
        match r with
        | inl u => do t <- to_utf8 u; continue (out ++ t) true
        | inr erc => Ok (out, inr erc)
        end
      else continue (out ++ label) any_encoded
  end.
Definition puny_decoded (s : str) : outcome (str * ModelPuny.dresult bool) := puny_decoded_loop (S (length s)) s [] false.
(* parts.hpp:220-235 *)
Definition puny_decoded_size (s : str) : outcome (ModelPuny.dresult nat) :=
  do (out, r) <- puny_decoded s;
  match r with
  | inl any => Ok (inl (if any then length out else 0))
  | inr erc => Ok (inr erc)
  end.

(* parts.hpp:246-249 convert_to_utf32; the transcode view of icubaby over the bytes *)
Definition convert_to_utf32 (s : str) : outcome (list N) :=
  do (u, _) <- ModelIcu.view_iterate ModelIcu.t8_32 ModelIcu.max_output_32 (map code s) (S (length s)); Ok u.
(* std::bitset<32> and field + index, a 32-bit unsigned (the uint_least8_t is promoted) *)
Definition bitset := N -> bool.
Definition bit_set (b : bitset) (pos : N) (x : bool) : bitset := fun i => if (i =? pos)%N then x else b i.
Definition pos_of (field index : N) : N := ((field + index) mod 2 ^ 32)%N.
Definition assert (b : bool) : outcome unit := if b then Ok tt else Fault assert_failed.
Definition not_null (v : view) : bool := match v with Null => false | _ => true end.
Definition index_ok (index field : N) : bool := ((index =? 0) || (field =? f_path))%N.

(* --- encode, parts.hpp:238-301 -------------------------------------------------------------------------- *)
Section Encode.
Variable grow : nat -> nat.
(* parts.hpp:252-265, the first lambda; the state is needs_encoding and required_size *)
Definition encode_size (st : vec) (s : bitset * nat) (v : view) (index field : N) : outcome ((bitset * nat) * view) :=
  let (needs, required) := s in
  do _ <- assert (not_null v);
  do _ <- assert (index_ok index field);
  do str <- read st v;
  do extra <- (if (field =? f_host)%N then do u <- convert_to_utf32 str; puny_encoded_size u
               else pct_encoded_size str (pctencode_set_from_parts_field field));
  let pos := pos_of field index in
  let needs := if (pos <? f_last)%N then bit_set needs pos (needs pos || negb (Nat.eqb extra 0)) else needs in
  Ok (needs, required + extra, v).
(* parts.hpp:268-298, the second lambda; the state is the store *)
Definition encode_one (needs : bitset) (st : vec) (v : view) (index field : N) : outcome (vec * view) :=
  do _ <- assert (not_null v);
  do _ <- assert (index_ok index field);
  let pos := pos_of field index in
  if (pos <? f_last)%N && negb (needs pos) then Ok (st, v)
  else
    do str <- read st v;
    let original_size := length (vc_data st) in
    let result (st : vec) := (st, InStore (vc_alloc st) original_size (length (vc_data st) - original_size)) in
    if (field =? f_host)%N then
      do u <- convert_to_utf32 str;
      do size <- puny_encoded_size u;
      do _ <- assert (negb (Nat.eqb size 0));
      do _ <- assert (Nat.leb (original_size + size) (vc_cap st));
      do (text, _) <- puny_encoded u;
      let st := push_all grow st text in
      do _ <- assert (Nat.eqb (original_size + size) (length (vc_data st)));
      Ok (result st)
    else
      let es := pctencode_set_from_parts_field field in
      do needs_it <- ModelPct.needs_pctencode str es;
      do _ <- assert ((field =? f_path)%N || needs_it);
      if (f_last <=? pos)%N && negb needs_it then Ok (st, v)
      else
        do size <- pct_encoded_size str es;
        do _ <- assert (Nat.leb (original_size + size) (vc_cap st));
        do text <- ModelPct.pctencode str es;
        let st := push_all grow st text in
        do _ <- assert (Nat.eqb (original_size + size) (length (vc_data st)));
        Ok (result st).
(* the store afterwards, and the result *)
Definition parts_encode (store : vec) (p : vparts) : outcome (vec * vparts) :=
  let store := vclear store in
  do (needs, required, p) <- parts_strings (encode_size store) (fun _ => false, 0) p;
  let store := reserve grow store required in
  do (store, p) <- parts_strings (encode_one needs) store p;
  do _ <- assert (Nat.eqb required (length (vc_data store)));
  Ok (store, p).
End Encode.

(* --- decode, parts.hpp:303-375 -------------------------------------------------------------------------- *)
Section Decode.
Variable grow : nat -> nat.
(* parts.hpp:315-343; the state is needs_encoding, required_size and error *)
Definition decode_size (st : vec) (s : bitset * nat * option ModelPuny.derr) (v : view) (index field : N)
  : outcome ((bitset * nat * option ModelPuny.derr) * view) :=
  let '(needs, required, error) := s in
  do _ <- assert (not_null v);
  do _ <- assert (index_ok index field);
  match error with
  | Some _ => Ok (s, v)
  | None =>
      do str <- read st v;
      do (extra, error) <-
        (if (field =? f_host)%N then
           do r <- puny_decoded_size str;
           match r with inl size => Ok (size, None) | inr erc => Ok (0, Some erc) end
         else do size <- pct_decoded_size str; Ok (size, None));
      let pos := pos_of field index in
      let needs := if (pos <? f_last)%N then bit_set needs pos (needs pos || negb (Nat.eqb extra 0)) else needs in
      Ok (needs, required + extra, error, v)
  end.
(* parts.hpp:349-372 *)
Definition decode_one (needs : bitset) (st : vec) (v : view) (index field : N) : outcome (vec * view) :=
  do _ <- assert (not_null v);
  do _ <- assert (index_ok index field);
  do _ <- assert (field <? f_last)%N;
  let pos := pos_of field index in
  if (pos <? f_last)%N && negb (needs pos) then Ok (st, v)
  else
    do str <- read st v;
    let original_size := length (vc_data st) in
    let result (st : vec) := (st, InStore (vc_alloc st) original_size (length (vc_data st) - original_size)) in
    if (field =? f_host)%N then
      do (text, _) <- puny_decoded str;                               (* the result is not looked at *)
      Ok (result (push_all grow st text))
    else
      do size <- pct_decoded_size str;
      if (f_last <=? pos)%N && Nat.eqb size 0 then Ok (st, v)
      else
        do _ <- assert (Nat.ltb 0 size);
        do text <- ModelPct.pctdecode str;
        Ok (result (push_all grow st text)).
(* the store afterwards, and the result: the decoded parts or the error code *)
Definition parts_decode (store : vec) (p : vparts) : outcome (vec * (vparts + ModelPuny.derr)) :=
  let store := vclear store in
  do (needs, required, error, p) <- parts_strings (decode_size store) (fun _ => false, 0, None) p;
  let store := reserve grow store required in
  match error with
  | Some erc => Ok (store, inr erc)
  | None =>
      do (store, p) <- parts_strings (decode_one needs) store p;
      do _ <- assert (Nat.eqb required (length (vc_data store)));
      Ok (store, inl p)
  end.
End Decode.
