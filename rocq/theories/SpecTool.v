(* SPECIFICATION of uri-split: what a file's lines are, and what is to be written about one. *)
From Verif Require Import Base Rfc3986 SpecHost.
Local Open Scope list_scope.

Definition newline : ascii := chr 10.
Definition doublequote : ascii := chr 34.
(* lines end at a newline; characters after the last newline are a line as well *)
Inductive has_lines : str -> list str -> Prop :=
| no_lines : has_lines [] []
| last_line l : l <> [] -> ~ In newline l -> has_lines l [l]
| one_line l s ls : ~ In newline l -> has_lines s ls -> has_lines (l ++ newline :: s) (l :: ls).

(* a URI that split can be relied on to take (C02) *)
Definition takes (l : str) (c : components) : Prop := URI_decomp l c /\ unambiguous c.

Definition show (s : option str) : str := match s with Some x => doublequote :: x ++ [doublequote] | None => ss "None" end.
Definition path_text (c : components) : str :=
  if c_absolute c then slashed (c_segments c) else match c_segments c with [] => [] | x :: r => x ++ slashed r end.
Definition entries (c : components) : list (string * option str) :=
  [("scheme"%string, c_scheme c);
   ("userinfo"%string, match c_authority c with Some (u, _, _) => u | None => None end);
   ("host"%string, match c_authority c with Some (_, h, _) => Some h | None => None end);
   ("port"%string, match c_authority c with Some (_, _, p) => p | None => None end);
   ("path"%string, Some (path_text c)); ("query"%string, c_query c); ("fragment"%string, c_fragment c)].
(* one line for each of the seven *)
Definition description (c : components) : str := flat_map (fun e => ss " " ++ ss (fst e) ++ ss ": " ++ show (snd e) ++ [newline]) (entries c).
Definition heading (l : str) : str := ss "URI: " ++ l ++ [newline].
(* what is written about lines ls: [ok] tells whether all were taken; otherwise the last is the first not taken *)
Inductive written_about : list str -> str -> bool -> Prop :=
| about_nothing : written_about [] [] true
| about_good l ls c out ok : takes l c -> written_about ls out ok -> written_about (l :: ls) (heading l ++ description c ++ out) ok
| about_bad l ls : ~ (exists c, takes l c) -> written_about (l :: ls) (heading l) false.
(* what is written about several files, None being one that cannot be opened: the files in turn, up to the first that
   cannot be opened or has a line that is not taken *)
Inductive written_about_files : list (option str) -> str -> bool -> Prop :=
| files_done : written_about_files [] [] true
| files_closed fs : written_about_files (None :: fs) [] false
| files_good s ls fs out out' ok : has_lines s ls -> written_about ls out true -> written_about_files fs out' ok ->
    written_about_files (Some s :: fs) (out ++ out') ok
| files_bad s ls fs out : has_lines s ls -> written_about ls out false -> written_about_files (Some s :: fs) out false.
