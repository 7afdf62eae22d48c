(* Model of path::operator std::filesystem::path (lib/uri/uri.cpp).  std::filesystem::path is modelled for
   POSIX from the C++ standard: a path is its native pathname; there are no root names; it is absolute, and
   has a root directory, iff it begins with "/". *)
From Verif Require Import Base ModelUri.
Local Open Scope list_scope.

(* [fs.path.query] is_absolute, has_filename *)
Definition fs_is_absolute (p : str) : bool := match p with c :: _ => Ascii.eqb c "/" | [] => false end.
Definition fs_has_filename (p : str) : bool := match rev p with c :: _ => negb (Ascii.eqb c "/") | [] => false end.
(* [fs.path.append] operator/=: an absolute argument replaces the path; otherwise a separator is appended
   if there is a filename, and then the argument *)
Definition fs_append (p arg : str) : str :=
  if fs_is_absolute arg then arg else (if fs_has_filename p then p ++ ss "/" else p) ++ arg.
(* uri.cpp:817-826 *)
Definition path_filesystem (p : path) : str :=
  fold_left fs_append (segments p) (if absolute p then fs_append [] (ss "/") else []).
