(* Model of the tool uri-split (tools/uri-split/uri-split.cpp): what it writes to std::cout and its exit status.
   std::cout takes everything; a file is what can be read from it. *)
From Verif Require Import Base ModelUri.
Local Open Scope list_scope.

Definition lf : ascii := chr 10.
Definition dq : ascii := chr 34.
Definition backslash : ascii := chr 92.
(* std::getline (is, line) on a stream with something left to read ([string.io]): the line, and the rest *)
Fixpoint getline (s : str) : str * str :=
  match s with
  | [] => ([], [])
  | c :: s' => if Ascii.eqb c lf then ([], s') else let '(l, r) := getline s' in (c :: l, r)
  end.
(* std::quoted ([quoted.manip]) with the default delimiter and escape *)
Definition quoted (s : str) : str :=
  [dq] ++ flat_map (fun c => if Ascii.eqb c dq || Ascii.eqb c backslash then [backslash; c] else [c]) s ++ [dq].
(* uri-split.cpp:32-34 value_or_none *)
Definition value_or_none (s : option str) : str := match s with Some s => [dq] ++ s ++ [dq] | None => ss "None" end.
(* uri-split.cpp:35-47 *)
Definition report (p : parts) : str :=
  ss " scheme: " ++ value_or_none (p_scheme p)
  ++ (match p_authority p with
      | Some a => [lf] ++ ss " userinfo: " ++ value_or_none (userinfo a) ++ [lf] ++ ss " host: " ++ value_or_none (Some (host a))
                  ++ [lf] ++ ss " port: " ++ value_or_none (port a)
      | None => [lf] ++ ss " userinfo: None" ++ [lf] ++ ss " host: None" ++ [lf] ++ ss " port: None"
      end)
  ++ [lf] ++ ss " path: " ++ quoted (path_string (p_path p)) ++ [lf] ++ ss " query: " ++ value_or_none (p_query p)
  ++ [lf] ++ ss " fragment: " ++ value_or_none (p_fragment p) ++ [lf].
(* uri-split.cpp:24-50 read_stream: the output and the result; [n] bounds the number of lines *)
Fixpoint read_stream (sg : bool) (fuel : nat) (n : nat) (s : str) : outcome (str * bool) :=
  match s, n with
  | [], _ => Ok ([], true)
  | _, O => Diverge
  | _, S n =>
      let '(line, rest) := getline s in
      let head := ss "URI: " ++ line ++ [lf] in
      do r <- split sg fuel line;
      match r with
      | None => Ok (head, false)
      | Some p => do (out, ok) <- read_stream sg fuel n rest; Ok (head ++ report p ++ out, ok)
      end
  end.
(* uri-split.cpp:60-70: the files in turn; None is one that cannot be opened *)
Fixpoint read_files (sg : bool) (fuel : nat) (files : list (option str)) : outcome (str * bool) :=
  match files with
  | [] => Ok ([], true)
  | None :: _ => Ok ([], false)
  | Some s :: files' =>
      do (out, ok) <- read_stream sg fuel (length s) s;
      if ok then do (out', ok') <- read_files sg fuel files'; Ok (out ++ out', ok') else Ok (out, false)
  end.
(* uri-split.cpp:54-80 main: true is EXIT_SUCCESS *)
Definition uri_split (sg : bool) (fuel : nat) (stdin : str) (args : list (option str)) : outcome (str * bool) :=
  match args with
  | [] => do (out, ok) <- read_stream sg fuel (length stdin) stdin; Ok (out, ok)
  | _ => read_files sg fuel args
  end.
