(* Model of compose and the stream insertion operators (uri.cpp:909-928, 998-1032) on streams that may throw:
   any stream buffer (one that takes part of the text, or throws in the middle of it), any exceptions () mask, any
   state of the stream, and memory that may run out.  ModelStream.v is the case where nothing throws. *)
From Verif Require Import Base ModelUri ModelStream.
Local Open Scope list_scope.

(* What rdbuf ()->sputn answers: it took everything; it took less and said so; it threw ([streambuf.virt.put]). *)
Inductive taken := All | Short | Threw.
(* What reaches the caller of operator<<. *)
Inductive exn :=
| failure               (* std::ios_base::failure, thrown by setstate *)
| from_buffer           (* the stream buffer's own exception, rethrown *)
| bad_alloc.            (* no memory for the std::string of uri.cpp:927 *)

(* eofbit, failbit, badbit of rdstate () or exceptions () ([ios.types]) *)
Record bits := mkbits { eofbit : bool; failbit : bool; badbit : bool }.
Definition no_bits := mkbits false false false.
Definition bits_or (a b : bits) : bits :=
  mkbits (eofbit a || eofbit b) (failbit a || failbit b) (badbit a || badbit b).
Definition bits_meet (a b : bits) : bool :=
  (eofbit a && eofbit b) || (failbit a && failbit b) || (badbit a && badbit b).

Section Stream.
(* the stream buffer: its states, and sputn, which says how many characters it took and how the call ended *)
Variable B : Type.
Variable sputn : B -> str -> B * nat * taken.

Record xstream := mkx {
  xout : str;             (* the characters the buffer has taken *)
  xbuf : B;
  state : bits;           (* rdstate () *)
  mask : bits;            (* exceptions () *)
  xwidth : nat; xfill : ascii; xleft : bool }.
(* What the library may choose: the bits set when the buffer took less than it was given (libstdc++: badbit; libc++:
   badbit and failbit), and whether the sentry of a stream that is not good sets failbit ([ostream.sentry]: "may"). *)
Record library := mklib { on_short : bits; sentry_fails : bool }.
Variable lib : library.

Definition X := xstream -> xstream * option exn.
Definition xskip : X := fun os => (os, None).
(* a; b: b is not run when a throws *)
Definition xthen (a b : X) : X := fun os => match a os with (os, None) => b os | (os, Some e) => (os, Some e) end.
Definition isgood (os : xstream) : bool := negb (eofbit (state os) || failbit (state os) || badbit (state os)).
Definition with_state (st : bits) (os : xstream) : xstream :=
  mkx (xout os) (xbuf os) st (mask os) (xwidth os) (xfill os) (xleft os).
(* basic_ios::setstate: throws when a bit of the state is in the mask ([iostate.flags]) *)
Definition setstate (b : bits) : X := fun os =>
  let os := with_state (bits_or (state os) b) os in
  (os, if bits_meet (state os) (mask os) then Some failure else None).
(* os << s for char, const char*, string_view and string ([ostream.formatted.reqmts]).  An exception from the buffer
   sets badbit without throwing failure, and is rethrown when badbit is in the mask.  Simplified: width (0) also when
   the write fails (libraries differ); flushing a tied stream and unitbuf are left out. *)
Definition xinsert (s : str) : X := fun os =>
  if isgood os then
    let t := padded (xwidth os) (xfill os) (xleft os) s in
    let '(b, n, r) := sputn (xbuf os) t in
    let os := mkx (xout os ++ firstn n t) b (state os) (mask os) 0 (xfill os) (xleft os) in
    match r with
    | All => (os, None)
    | Short => setstate (on_short lib) os
    | Threw => (with_state (bits_or (state os) (mkbits false false true)) os,
                if badbit (mask os) then Some from_buffer else None)
    end
  else if sentry_fails lib then setstate (mkbits false true false) os else (os, None).

(* uri.cpp:909-924 *)
Definition xauthority (a : authority) : X :=
  xthen (match userinfo a with Some u => xthen (xinsert u) (xinsert (ss "@")) | None => xskip end)
  (xthen (match host a with [] => xskip | h => xinsert h end)
  (match port a with
   | Some p => xthen (xinsert (ss ":")) (match p with [] => xskip | p => xinsert p end)
   | None => xskip
   end)).
(* uri.cpp:926-928, 806-815: the path is put together in a std::string first; memory says whether there is room for it
   (a parameter: libraries need none for short strings) *)
Definition xpath (memory : bool) (p : path) : X := fun os =>
  if memory then xinsert (path_string p) os else (os, Some bad_alloc).
(* uri.cpp:998-1018, 1030-1032 *)
Definition xparts (memory : bool) (p : parts) : X :=
  xthen (match p_scheme p with Some s => xthen (xinsert s) (xinsert (ss ":")) | None => xskip end)
  (xthen (match p_authority p with
          | Some a =>
              xthen (xthen (xinsert (ss "//")) (xauthority a))
              (if negb (path_is_empty (p_path p)) && negb (absolute (p_path p)) then xinsert (ss "/") else xskip)
          | None => xskip
          end)
  (xthen (xpath memory (p_path p))
  (xthen (match p_query p with Some q => xthen (xinsert (ss "?")) (xinsert q) | None => xskip end)
  (match p_fragment p with Some f => xthen (xinsert (ss "#")) (xinsert f) | None => xskip end)))).
End Stream.
Arguments mkx {B}. Arguments xout {B}. Arguments xbuf {B}. Arguments state {B}. Arguments mask {B}.
Arguments xwidth {B}. Arguments xfill {B}. Arguments xleft {B}.
Arguments isgood {B}. Arguments with_state {B}. Arguments setstate {B}. Arguments xskip {B}. Arguments xthen {B}.
Arguments xinsert {B}. Arguments xauthority {B}. Arguments xpath {B}. Arguments xparts {B}.

(* std::stringbuf ([stringbuf.virtuals]): it has capacity characters, of which used are in use; when it is full the
   next character makes overflow ask for more memory.  refused k says whether the k-th such request is refused
   (std::bad_alloc); grow is the library's growth policy; beyond limit characters overflow fails without throwing. *)
Record memory := mkmem { used : nat; capacity : nat; requests : nat }.
Section Stringbuf.
Variable refused : nat -> bool.
Variable grow : nat -> nat.
Variable limit : option nat.
Definition within (n : nat) : bool := match limit with None => true | Some m => Nat.ltb n m end.
Fixpoint sb_put (s : str) (b : memory) (done : nat) : memory * nat * taken :=
  match s with
  | [] => (b, done, All)
  | _ :: rest =>
      if Nat.ltb (used b) (capacity b) then sb_put rest (mkmem (S (used b)) (capacity b) (requests b)) (S done)
      else if negb (within (used b)) then (b, done, Short)
      else if refused (requests b) then (mkmem (used b) (capacity b) (S (requests b)), done, Threw)
      else sb_put rest (mkmem (S (used b)) (Nat.max (grow (capacity b)) (S (used b))) (S (requests b))) (S done)
  end.
Definition sb_sputn (b : memory) (s : str) : memory * nat * taken := sb_put s b 0.
End Stringbuf.

(* uri.cpp:1020-1024: compose (parts), with the stream's exceptions () set to m (the code leaves it at no bits).
   start is the capacity of a new stringbuf (libstdc++: 15, inside the object); path_memory and result_memory say
   whether there is memory for the string of the path and for the string returned by str ().  None: an exception. *)
Definition compose_with (m : bits) (lib : library) (refused : nat -> bool) (grow : nat -> nat) (limit : option nat)
    (start : nat) (path_memory result_memory : bool) (p : parts) : option str :=
  match xparts (sb_sputn refused grow limit) lib path_memory p
          (mkx [] (mkmem 0 start 0) no_bits m 0 " " false) with
  | (os, None) => if result_memory then Some (xout os) else None
  | (_, Some _) => None
  end.
Definition compose_mem := compose_with no_bits.
