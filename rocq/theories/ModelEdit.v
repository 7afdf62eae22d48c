(* Model of a program that changes a parts object, whose members are public (uri.hpp:73-113), through assignments to
   its members and calls of ensure_authority (uri.hpp:107-109). *)
From Verif Require Import Base ModelUri ModelHist.
Local Open Scope list_scope.

Inductive edit :=
| EScheme (x : option str)             (* p.scheme = x *)
| EUserinfo (x : option str)           (* p.ensure_authority ().userinfo = x *)
| EHost (x : str)                      (* p.ensure_authority ().host = x *)
| EPort (x : option str)               (* p.ensure_authority ().port = x *)
| EAuthority (x : option authority)    (* p.authority = x *)
| EAbsolute (b : bool)                 (* p.path.absolute = b *)
| ESegment (i : nat) (x : str)         (* p.path.segments[i] = x *)
| EPush (x : str)                      (* p.path.segments.push_back (x) *)
| EPop                                 (* p.path.segments.pop_back () *)
| EDots                                (* p.path.remove_dot_segments () *)
| EQuery (x : option str)              (* p.query = x *)
| EFragment (x : option str).          (* p.fragment = x *)

(* std::vector::operator[] outside the vector and pop_back of an empty one are undefined *)
Definition apply_edit (e : edit) (p : parts) : outcome parts :=
  let pa := p_path p in
  match e with
  | EScheme x => Ok (mkparts x (p_authority p) pa (p_query p) (p_fragment p))
  | EUserinfo x => let a := ensure_authority p in Ok (set_authority p (mkauth x (host a) (port a)))
  | EHost x => let a := ensure_authority p in Ok (set_authority p (mkauth (userinfo a) x (port a)))
  | EPort x => let a := ensure_authority p in Ok (set_authority p (mkauth (userinfo a) (host a) x))
  | EAuthority x => Ok (mkparts (p_scheme p) x pa (p_query p) (p_fragment p))
  | EAbsolute b => Ok (set_path p (mkpath b (segments pa)))
  | ESegment i x => if Nat.ltb i (length (segments pa)) then Ok (set_path p (mkpath (absolute pa) (put (segments pa) i x))) else Fault out_of_range
  | EPush x => Ok (set_path p (mkpath (absolute pa) (segments pa ++ [x])))
  | EPop => match segments pa with [] => Fault out_of_range | l => Ok (set_path p (mkpath (absolute pa) (removelast l))) end
  | EDots => Ok (set_path p (remove_dot_segments pa))
  | EQuery x => Ok (mkparts (p_scheme p) (p_authority p) pa x (p_fragment p))
  | EFragment x => Ok (mkparts (p_scheme p) (p_authority p) pa (p_query p) x)
  end.
Fixpoint apply_edits (es : list edit) (p : parts) : outcome parts :=
  match es with [] => Ok p | e :: es' => do p' <- apply_edit e p; apply_edits es' p' end.
