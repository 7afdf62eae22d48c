(* SPECIFICATION for C41: which strings the views of a joined reference refer to. *)
From Verif Require Import Base ModelUri ModelJoin.
From Verif Require ModelSpan.
Local Open Scope list_scope.
Section S.
Context {V : Type}.
Definition opt_list (o : option V) : list V := match o with None => [] | Some x => [x] end.
Definition auth_views (a : option (vauth V)) : list V :=
  match a with None => [] | Some a => opt_list (v_userinfo a) ++ [v_host a] ++ opt_list (v_port a) end.
(* all the views in the parts *)
Definition all_views (p : vparts V) : list V :=
  opt_list (v_scheme p) ++ auth_views (v_authority p) ++ v_segments p ++ opt_list (v_query p) ++ opt_list (v_fragment p).
(* the parts with the characters that the views show *)
Definition contents (c : V -> str) (p : vparts V) : parts :=
  mkparts (option_map c (v_scheme p))
    (option_map (fun a => mkauth (option_map c (v_userinfo a)) (c (v_host a)) (option_map c (v_port a))) (v_authority p))
    (mkpath (v_absolute p) (map c (v_segments p))) (option_map c (v_query p)) (option_map c (v_fragment p)).
End S.
(* a view of the characters of one of the two strings, or of nothing *)
Definition borrowed (base reference : str) (v : sview) : Prop :=
  match v with
  | None => True
  | Some (Base, (o, k)) => o + k <= length base
  | Some (Reference, (o, k)) => o + k <= length reference
  end.
