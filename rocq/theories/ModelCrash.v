(* Model of uri::encode and uri::decode (parts.hpp) when memory can run out: the text of ModelParts.v, with an exception
   possible wherever memory is allocated.  [k] allocations succeed; the one after them throws.  Sites: the copy of the parts;
   the strings and vectors of one label's punycode::encode or decode, taken together, since the store is not touched
   between them; store.reserve and store.push_back when they have to grow (both leave the container as it was when they
   throw).  How many allocations the copy and a label take is left open ([allocs]: any numbers at all, also none).
   Asserts are on, as in ModelParts.v: with NDEBUG the allocations made inside of them drop out. *)
From Verif Require Import Base ModelUri ModelAlgo ModelParts.
From Verif Require ModelPct ModelPuny ModelIcu.
Local Open Scope list_scope.

(* a value, and how many more allocations will succeed; or an exception, and the store as the caller finds it *)
Inductive ex (A : Type) := Ret (a : A) (k : nat) | Exc (st : vec).
Arguments Ret {A} a k. Arguments Exc {A} st.
Definition M (A : Type) : Type := nat -> outcome (ex A).
Definition ret {A} (a : A) : M A := fun k => Ok (Ret a k).
Definition then_ {A B} (m : M A) (f : A -> M B) : M B :=
  fun k => do r <- m k; match r with Ret a k' => f a k' | Exc st => Ok (Exc st) end.
(* what allocates nothing *)
Definition pure {A} (o : outcome A) : M A := fun k => do a <- o; Ok (Ret a k).
Notation "'mdo' x <- m ; f" := (then_ m (fun x => f)) (at level 200, x pattern, m at level 100, f at level 200).
Definition allocate (store : vec) : M unit := fun k => match k with O => Ok (Exc store) | S k' => Ok (Ret tt k') end.

Fixpoint allocates (n : nat) (store : vec) : M unit := match n with O => ret tt | S n => mdo _ <- allocate store; allocates n store end.
(* allocations made by: the copy of some parts; punycode::encode of a label; punycode::decode of a label *)
Record allocs := mkallocs { a_copy : vparts -> nat; a_encode : list N -> nat; a_decode : str -> nat }.

Definition reserve_x (grow : nat -> nat) (v : vec) (n : nat) : M vec :=
  if Nat.leb n (vc_cap v) then ret v else mdo _ <- allocate v; ret (reserve grow v n).
Definition push_back_x (grow : nat -> nat) (v : vec) (c : ascii) : M vec :=
  if Nat.leb (S (length (vc_data v))) (vc_cap v) then ret (push_back grow v c) else mdo _ <- allocate v; ret (push_back grow v c).

(* parts.hpp:74-106 *)
Section Strings.
Context {S : Type}.
Variable f : S -> view -> N -> N -> M (S * view).
Definition on_view_x (s : S) (v : view) (field : N) : M (S * view) :=
  match v with Null => ret (s, Null) | _ => f s v 0%N field end.
Definition on_opt_x (s : S) (v : option view) (field : N) : M (S * option view) :=
  match v with None => ret (s, None) | Some v => mdo (s, v) <- on_view_x s v field; ret (s, Some v) end.
Fixpoint on_segments_x (s : S) (l : list view) (count : N) : M (S * list view) :=
  match l with
  | [] => ret (s, [])
  | Null :: l' => mdo (s, l') <- on_segments_x s l' count; ret (s, Null :: l')
  | v :: l' =>
      mdo (s, v) <- f s v count f_path;
      mdo (s, l') <- on_segments_x s l' ((count + 1) mod 2 ^ 32)%N;
      ret (s, v :: l')
  end.
Definition on_auth_x (s : S) (a : option vauth) : M (S * option vauth) :=
  match a with
  | None => ret (s, None)
  | Some a =>
      mdo (s, u) <- on_opt_x s (v_userinfo a) f_userinfo;
      mdo (s, h) <- on_view_x s (v_host a) f_host;
      mdo (s, p) <- on_opt_x s (v_port a) f_port;
      ret (s, Some (mkvauth u h p))
  end.
Definition parts_strings_x (s : S) (p : vparts) : M (S * vparts) :=
  mdo (s, sc) <- on_opt_x s (v_scheme p) f_scheme;
  mdo (s, sg) <- on_segments_x s (v_segments p) 0%N;
  mdo (s, au) <- on_auth_x s (v_authority p);
  mdo (s, q) <- on_opt_x s (v_query p) f_query;
  mdo (s, fr) <- on_opt_x s (v_fragment p) f_fragment;
  ret (s, mkvparts sc au (v_absolute p) sg q fr).
End Strings.

(* An output: std::back_inserter of the store, or of a ro_sink_container (parts.hpp:55-71), which only counts.  [now] is the
   store as it is at the moment. *)
Section Sink.
Variable al : allocs.
Context {K : Type}.
Variable push : K -> ascii -> M K.
Variable now : K -> vec.
Fixpoint pushes (k : K) (s : str) : M K :=
  match s with [] => ret k | c :: s' => mdo k <- push k c; pushes k s' end.
(* parts.hpp:118-149 *)
Fixpoint puny_encoded_loop_x (fuel : nat) (range : list N) (out : K) (any_needed : bool) : M (K * bool) :=
  match fuel with
  | O => fun _ => Diverge
  | S fuel =>
      let (label, inp) := take_while is_not_dot range in
      mdo _ <- allocates (a_encode al label) (now out);
      mdo (segment, any_non_ascii) <- pure (ModelPuny.encode label true);
      mdo out <- (if any_non_ascii then pushes out idna_prefix else ret out);
      let any_needed := if any_non_ascii then true else any_needed in
      mdo out <- pushes out segment;
      match inp with
      | [] => ret (out, any_needed)
      | _ :: next => mdo out <- push out "."%char; puny_encoded_loop_x fuel next out any_needed
      end
  end.
(* parts.hpp:172-218 *)
Fixpoint puny_decoded_loop_x (fuel : nat) (first : str) (out : K) (any_encoded : bool) : M (K * ModelPuny.dresult bool) :=
  match fuel with
  | O => fun _ => Diverge
  | S fuel =>
      let (label, rest) := take_while (fun c => is_not_dot (code c)) first in
      let continue out any :=
        match rest with
        | [] => ret (out, inl any)
        | _ :: next => mdo out <- push out "."%char; puny_decoded_loop_x fuel next out any
        end in
      if starts_with Ascii.eqb label idna_prefix then
        mdo _ <- allocates (a_decode al (skipn (length idna_prefix) label)) (now out);
        mdo r <- pure (ModelPuny.decode (skipn (length idna_prefix) label));
        match r with
        | inl u => mdo t <- pure (to_utf8 u); mdo out <- pushes out t; continue out true
        | inr erc => ret (out, inr erc)
        end
      else mdo out <- pushes out label; continue out any_encoded
  end.
End Sink.
Definition count_push (n : nat) (_ : ascii) : M nat := ret (S n).
(* parts.hpp:151-160 *)
Definition puny_encoded_size_x (al : allocs) (store : vec) (range : list N) : M nat :=
  mdo (n, any) <- puny_encoded_loop_x al count_push (fun _ => store) (S (length range)) range 0 false; ret (if any then n else 0).
(* parts.hpp:220-235 *)
Definition puny_decoded_size_x (al : allocs) (store : vec) (s : str) : M (ModelPuny.dresult nat) :=
  mdo (n, r) <- puny_decoded_loop_x al count_push (fun _ => store) (S (length s)) s 0 false;
  ret (match r with inl any => inl (if any then n else 0) | inr erc => inr erc end).

(* --- encode, parts.hpp:238-301 -------------------------------------------------------------------------- *)
Section Encode.
Variable al : allocs.
Variable grow : nat -> nat.
Definition encode_size_x (st : vec) (s : bitset * nat) (v : view) (index field : N) : M ((bitset * nat) * view) :=
  let (needs, required) := s in
  mdo _ <- pure (assert (not_null v));
  mdo _ <- pure (assert (index_ok index field));
  mdo str <- pure (read st v);
  mdo extra <- (if (field =? f_host)%N then mdo u <- pure (convert_to_utf32 str); puny_encoded_size_x al st u
               else pure (pct_encoded_size str (pctencode_set_from_parts_field field)));
  let pos := pos_of field index in
  let needs := if (pos <? f_last)%N then bit_set needs pos (needs pos || negb (Nat.eqb extra 0)) else needs in
  ret (needs, required + extra, v).
Definition encode_one_x (needs : bitset) (st : vec) (v : view) (index field : N) : M (vec * view) :=
  mdo _ <- pure (assert (not_null v));
  mdo _ <- pure (assert (index_ok index field));
  let pos := pos_of field index in
  if (pos <? f_last)%N && negb (needs pos) then ret (st, v)
  else
    mdo str <- pure (read st v);
    let original_size := length (vc_data st) in
    let result (st : vec) := (st, InStore (vc_alloc st) original_size (length (vc_data st) - original_size)) in
    if (field =? f_host)%N then
      mdo u <- pure (convert_to_utf32 str);
      mdo size <- puny_encoded_size_x al st u;
      mdo _ <- pure (assert (negb (Nat.eqb size 0)));
      mdo size <- puny_encoded_size_x al st u;
      mdo _ <- pure (assert (Nat.leb (original_size + size) (vc_cap st)));
      mdo (st, _) <- puny_encoded_loop_x al (push_back_x grow) (fun st => st) (S (length u)) u st false;
      mdo size <- puny_encoded_size_x al st u;
      mdo _ <- pure (assert (Nat.eqb (original_size + size) (length (vc_data st))));
      ret (result st)
    else
      let es := pctencode_set_from_parts_field field in
      mdo needs_it <- pure (ModelPct.needs_pctencode str es);
      mdo _ <- pure (assert ((field =? f_path)%N || needs_it));
      if (f_last <=? pos)%N && negb needs_it then ret (st, v)
      else
        mdo size <- pure (pct_encoded_size str es);
        mdo _ <- pure (assert (Nat.leb (original_size + size) (vc_cap st)));
        mdo text <- pure (ModelPct.pctencode str es);
        mdo st <- pushes (push_back_x grow) st text;
        mdo _ <- pure (assert (Nat.eqb (original_size + size) (length (vc_data st))));
        ret (result st).
(* 245: parts result = p; 246: store.clear () *)
Definition parts_encode_x (store : vec) (p : vparts) : M (vec * vparts) :=
  mdo _ <- allocates (a_copy al p) store;
  let store := vclear store in
  mdo (needs, required, p) <- parts_strings_x (encode_size_x store) (fun _ => false, 0) p;
  mdo store <- reserve_x grow store required;
  mdo (store, p) <- parts_strings_x (encode_one_x needs) store p;
  mdo _ <- pure (assert (Nat.eqb required (length (vc_data store))));
  ret (store, p).
End Encode.

(* --- decode, parts.hpp:303-375 -------------------------------------------------------------------------- *)
Section Decode.
Variable al : allocs.
Variable grow : nat -> nat.
Definition decode_size_x (st : vec) (s : bitset * nat * option ModelPuny.derr) (v : view) (index field : N)
  : M ((bitset * nat * option ModelPuny.derr) * view) :=
  let '(needs, required, error) := s in
  mdo _ <- pure (assert (not_null v));
  mdo _ <- pure (assert (index_ok index field));
  match error with
  | Some _ => ret (s, v)
  | None =>
      mdo str <- pure (read st v);
      mdo (extra, error) <-
        (if (field =? f_host)%N then
           mdo r <- puny_decoded_size_x al st str;
           match r with inl size => ret (size, None) | inr erc => ret (0, Some erc) end
         else mdo size <- pure (pct_decoded_size str); ret (size, None));
      let pos := pos_of field index in
      let needs := if (pos <? f_last)%N then bit_set needs pos (needs pos || negb (Nat.eqb extra 0)) else needs in
      ret (needs, required + extra, error, v)
  end.
Definition decode_one_x (needs : bitset) (st : vec) (v : view) (index field : N) : M (vec * view) :=
  mdo _ <- pure (assert (not_null v));
  mdo _ <- pure (assert (index_ok index field));
  mdo _ <- pure (assert (field <? f_last)%N);
  let pos := pos_of field index in
  if (pos <? f_last)%N && negb (needs pos) then ret (st, v)
  else
    mdo str <- pure (read st v);
    let original_size := length (vc_data st) in
    let result (st : vec) := (st, InStore (vc_alloc st) original_size (length (vc_data st) - original_size)) in
    if (field =? f_host)%N then
      mdo (st, _) <- puny_decoded_loop_x al (push_back_x grow) (fun st => st) (S (length str)) str st false;
      ret (result st)
    else
      mdo size <- pure (pct_decoded_size str);
      if (f_last <=? pos)%N && Nat.eqb size 0 then ret (st, v)
      else
        mdo _ <- pure (assert (Nat.ltb 0 size));
        mdo text <- pure (ModelPct.pctdecode str);
        mdo st <- pushes (push_back_x grow) st text;
        ret (result st).
(* 309: parts result = p; 310: store.clear () *)
Definition parts_decode_x (store : vec) (p : vparts) : M (vec * (vparts + ModelPuny.derr)) :=
  mdo _ <- allocates (a_copy al p) store;
  let store := vclear store in
  mdo (needs, required, error, p) <- parts_strings_x (decode_size_x store) (fun _ => false, 0, None) p;
  mdo store <- reserve_x grow store required;
  match error with
  | Some erc => ret (store, inr erc)
  | None =>
      mdo (store, p) <- parts_strings_x (decode_one_x needs) store p;
      mdo _ <- pure (assert (Nat.eqb required (length (vc_data store))));
      ret (store, inl p)
  end.
End Decode.
