(* Model of path::operator std::filesystem::path (lib/uri/uri.cpp:817-826) on Windows.  std::filesystem::path is modelled
   from the C++ standard ([fs.path.generic], [fs.path.append]) with what it leaves to the system taken from Windows:
   a path is its native pathname; both "/" and "\" separate and "\" is preferred; a root name is a drive, a letter and ":",
   or a server, two separators and a name; a path is absolute if it has a drive and a root directory, or a server.
   Simplified: the characters of char and of wchar_t are the same (the conversion from the narrow encoding is the
   identity); the prefixes \\?\ and \\.\ are not told from servers. *)
From Verif Require Import Base ModelUri.
Local Open Scope list_scope.
Local Open Scope bool_scope.

Definition win_sep (c : ascii) : bool := Ascii.eqb c "/" || Ascii.eqb c "\".
Definition win_letter (c : ascii) : bool :=
  let n := code c in ((65 <=? n) && (n <=? 90) || (97 <=? n) && (n <=? 122))%N.
(* the characters up to the first separator *)
Fixpoint win_name (s : str) : str := match s with c :: s' => if win_sep c then [] else c :: win_name s' | [] => [] end.
(* [fs.path.decompose] root_name *)
Definition win_root_name (p : str) : str :=
  match p with
  | a :: b :: r =>
      if win_letter a && Ascii.eqb b ":" then [a; b]
      else if win_sep a && win_sep b then match win_name r with [] => [] | n => a :: b :: n end
      else []
  | _ => []
  end.
Definition win_after_root_name (p : str) : str := skipn (length (win_root_name p)) p.
(* [fs.path.query] *)
Definition win_has_root_name (p : str) : bool := match win_root_name p with [] => false | _ => true end.
Definition win_has_root_directory (p : str) : bool := match win_after_root_name p with c :: _ => win_sep c | [] => false end.
Definition win_is_server (p : str) : bool := match win_root_name p with a :: _ => win_sep a | [] => false end.
Definition win_is_absolute (p : str) : bool := win_has_root_name p && (win_is_server p || win_has_root_directory p).
(* the relative path is not empty and does not end in a separator *)
Definition win_has_filename (p : str) : bool := match rev (win_after_root_name p) with c :: _ => negb (win_sep c) | [] => false end.
(* [fs.path.append] operator/= *)
Definition win_append (p arg : str) : str :=
  if win_is_absolute arg || (win_has_root_name arg && negb (str_eqb (win_root_name arg) (win_root_name p))) then arg
  else
    (if win_has_root_directory arg then win_root_name p
     else if win_has_filename p || (negb (win_has_root_directory p) && win_is_absolute p) then p ++ ["\"%char] else p)
    ++ win_after_root_name arg.
(* uri.cpp:817-826 *)
Definition path_windows (p : path) : str :=
  fold_left win_append (segments p) (if absolute p then win_append [] (ss "/") else []).
