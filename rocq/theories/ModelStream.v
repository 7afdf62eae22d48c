(* Model of the stream insertion operators and compose of uri.cpp:909-928, 998-1032, on a model of std::ostream:
   the formatted output functions for char, const char* and string_view ([ostream.formatted.reqmts],
   [ostream.inserters.character], [string.view.io]) with width, fill and adjustment, and a stream buffer that may
   stop accepting characters.  Exceptions (exceptions ()) are in ModelXStream.v; locales are not modelled. *)
From Verif Require Import Base ModelUri.
Local Open Scope list_scope.

Record stream := mkstream {
  out : str;              (* what the stream buffer has accepted *)
  room : option nat;      (* how many more characters it will accept; None: any number *)
  width : nat; fill : ascii; left : bool;
  good : bool }.
Definition padded (w : nat) (f : ascii) (left : bool) (s : str) : str :=
  let pad := repeat f (w - length s) in if left then s ++ pad else pad ++ s.
Definition accepted (r : option nat) (s : str) : str := match r with None => s | Some n => firstn n s end.
(* os << s: nothing when the stream is not good; width (0) afterwards; badbit when not everything was accepted *)
Definition insert (s : str) (os : stream) : stream :=
  if good os then
    let t := padded (width os) (fill os) (left os) s in
    mkstream (out os ++ accepted (room os) t) (option_map (fun n => n - length t) (room os)) 0 (fill os) (left os)
      (match room os with None => true | Some n => Nat.leb (length t) n end)
  else os.

(* uri.cpp:909-924 *)
Definition insert_authority (a : authority) (os : stream) : stream :=
  let os := match userinfo a with Some u => insert (ss "@") (insert u os) | None => os end in
  let os := match host a with [] => os | h => insert h os end in
  match port a with
  | Some p => let os := insert (ss ":") os in match p with [] => os | p => insert p os end
  | None => os
  end.
(* uri.cpp:926-928 *)
Definition insert_path (p : path) (os : stream) : stream := insert (path_string p) os.
(* uri.cpp:998-1018, 1030-1032 *)
Definition insert_parts (p : parts) (os : stream) : stream :=
  let os := match p_scheme p with Some s => insert (ss ":") (insert s os) | None => os end in
  let os := match p_authority p with
            | Some a =>
                let os := insert_authority a (insert (ss "//") os) in
                if negb (path_is_empty (p_path p)) && negb (absolute (p_path p)) then insert (ss "/") os else os
            | None => os
            end in
  let os := insert_path (p_path p) os in
  let os := match p_query p with Some q => insert q (insert (ss "?") os) | None => os end in
  match p_fragment p with Some f => insert f (insert (ss "#") os) | None => os end.
(* uri.cpp:1020-1024: a std::stringstream *)
Definition fresh : stream := mkstream [] None 0 " " false true.
Definition compose_stream (p : parts) : str := out (insert_parts p fresh).
