(* SPECIFICATION, written from RFC 3986 Appendix B and section 3.2 (not from the code): how programs that do not know the
   grammar take a URI apart. *)
From Verif Require Import Base Rfc3986.

(* 1. Regular expressions with numbered groups, as far as Appendix B uses them.  [run r s] lists the ways r matches at the
   beginning of s, those tried first by a backtracking matcher (greedy: as much as possible, as often as possible) first;
   each is what is left of s and the groups. *)
Inductive regex :=
| Ch (c : ascii)                      (* the character c *)
| Many (f : ascii -> bool)            (* [...]*  *)
| Many1 (f : ascii -> bool)           (* [...]+  *)
| Seq (a b : regex)
| Opt (a : regex)                     (* (...)?  *)
| Grp (n : nat) (a : regex).          (* group n *)
Definition groups := list (nat * str).
(* what f* can leave *)
Fixpoint many (f : ascii -> bool) (s : str) : list str :=
  match s with [] => [[]] | c :: t => (if f c then many f t else []) ++ [s] end.
Fixpoint run (r : regex) (s : str) : list (str * groups) :=
  match r with
  | Ch c => match s with d :: t => if Ascii.eqb c d then [(t, [])] else [] | [] => [] end
  | Many f => map (fun t => (t, [])) (many f s)
  | Many1 f => match s with c :: t => if f c then map (fun t => (t, [])) (many f t) else [] | [] => [] end
  | Seq a b => flat_map (fun x => map (fun y => (fst y, snd x ++ snd y)) (run b (fst x))) (run a s)
  | Opt a => run a s ++ [(s, [])]
  | Grp n a => map (fun x => (fst x, (n, firstn (length s - length (fst x)) s) :: snd x)) (run a s)
  end.
(* the match that is found *)
Definition found (r : regex) (s : str) : option (str * groups) := hd_error (run r s).
Definition group (n : nat) (g : groups) : option str := option_map snd (find (fun x => Nat.eqb n (fst x)) g).

(* 2. Appendix B (without the blank after each star):
     ^(([^:/?#]+):)?(//([^/?#]* ))?([^?#]* )(\?([^#]* ))?(#(.* ))?
      12             3  4           5        6  7         8 9      *)
Definition none_of (l : string) (c : ascii) : bool := negb (existsb (Ascii.eqb c) (ss l)).
Definition newline : ascii := chr 10.
Definition appendix_B : regex :=
  Seq (Opt (Grp 1 (Seq (Grp 2 (Many1 (none_of ":/?#"))) (Ch ":"))))
 (Seq (Opt (Grp 3 (Seq (Ch "/") (Seq (Ch "/") (Grp 4 (Many (none_of "/?#")))))))
 (Seq (Grp 5 (Many (none_of "?#")))
 (Seq (Opt (Grp 6 (Seq (Ch "?") (Grp 7 (Many (none_of "#"))))))
      (Opt (Grp 8 (Seq (Ch "#") (Grp 9 (Many (fun c => negb (Ascii.eqb c newline)))))))))).
(* "scheme = $2  authority = $4  path = $5  query = $7  fragment = $9" *)
Record pieces := mkpieces { r_scheme : option str; r_authority : option str; r_path : option str; r_query : option str; r_fragment : option str }.
Definition by_regex (s : str) : option pieces :=
  option_map (fun x => let g := snd x in mkpieces (group 2 g) (group 4 g) (group 5 g) (group 7 g) (group 9 g)) (found appendix_B s).
(* the RFC's example *)
Example appendix_B_ex : by_regex (ss "http://www.ics.uci.edu/pub/ietf/uri/#Related") =
  Some (mkpieces (Some (ss "http")) (Some (ss "www.ics.uci.edu")) (Some (ss "/pub/ietf/uri/")) None (Some (ss "Related"))).
Proof. vm_compute. reflexivity. Qed.

(* 3. The texts of an authority and of a path *)
Definition authority_text (a : option str * str * option str) : str :=
  let '(u, h, p) := a in opt_post u (ss "@") ++ h ++ opt_pre (ss ":") p.
Definition path_text (abs : bool) (segs : list str) : str :=
  if abs then slashed segs else match segs with [] => [] | x :: rest => x ++ slashed rest end.

(* 4. Ways to take an authority apart.  What any of them does at least: the pieces make up the text; '@' separates the
   userinfo, so that the host and the port have none; a host is in brackets or has no ':'; a port has no ':' and no ']'. *)
Definition bracketed (h : str) : Prop := exists x, h = ss "[" ++ x ++ ss "]".
Definition sensible (s : str) (a : option str * str * option str) : Prop :=
  let '(u, h, p) := a in
  s = authority_text a /\ ~ In "@"%char h /\ (bracketed h \/ ~ In ":"%char h)
  /\ match p with Some p => ~ In "@"%char p /\ ~ In ":"%char p /\ ~ In "]"%char p | None => True end.
(* before and after the first c, before and after the last c *)
Fixpoint cut_first (c : ascii) (s : str) : option (str * str) :=
  match s with [] => None | d :: t => if Ascii.eqb c d then Some ([], t) else option_map (fun x => (d :: fst x, snd x)) (cut_first c t) end.
Definition cut_last (c : ascii) (s : str) : option (str * str) :=
  option_map (fun x => (rev (snd x), rev (fst x))) (cut_first c (rev s)).
(* two programs: one reads from the left, one from the right *)
Definition host_port_left (s : str) : str * option str :=
  match s with
  | "["%char :: _ => match cut_first "]" s with
                     | Some (h, rest) => (h ++ ss "]", match rest with ":"%char :: p => Some p | _ => None end)
                     | None => (s, None)
                     end
  | _ => match cut_first ":" s with Some (h, p) => (h, Some p) | None => (s, None) end
  end.
Definition from_left (s : str) : option str * str * option str :=
  match cut_first "@" s with
  | Some (u, rest) => let '(h, p) := host_port_left rest in (Some u, h, p)
  | None => let '(h, p) := host_port_left s in (None, h, p)
  end.
Definition host_port_right (s : str) : str * option str :=
  match cut_last ":" s with
  | Some (h, p) => if existsb (Ascii.eqb "]") p then (s, None) else (h, Some p)
  | None => (s, None)
  end.
Definition from_right (s : str) : option str * str * option str :=
  match cut_last "@" s with
  | Some (u, rest) => let '(h, p) := host_port_right rest in (Some u, h, p)
  | None => let '(h, p) := host_port_right s in (None, h, p)
  end.
Example from_ex : from_left (ss "u:x@[::1]:80") = (Some (ss "u:x"), ss "[::1]", Some (ss "80")) /\ from_right (ss "u:x@[::1]:80") = (Some (ss "u:x"), ss "[::1]", Some (ss "80"))
  /\ from_left (ss "a@b@c") <> from_right (ss "a@b@c").
Proof. split; [reflexivity|]. split; [reflexivity|]. vm_compute. discriminate. Qed.

(* 5. Putting the pieces together again (RFC 3986, 5.3), and what the grammar says of each of them *)
Definition recompose (r : pieces) : str :=
  opt_post (r_scheme r) (ss ":") ++ opt_pre (ss "//") (r_authority r) ++ opt_pre [] (r_path r) ++ opt_pre (ss "?") (r_query r) ++ opt_pre (ss "#") (r_fragment r).
Definition URI_pieces (r : pieces) : Prop :=
  (exists x, r_scheme r = Some x /\ L scheme x)
  /\ (exists x, r_path r = Some x /\ match r_authority r with
      | Some a => L authority a /\ L path_abempty x
      | None => L path_absolute x \/ L path_rootless x \/ L path_empty x end)
  /\ in_opt query (r_query r) /\ in_opt fragment (r_fragment r).
Definition relative_pieces (r : pieces) : Prop :=
  r_scheme r = None
  /\ (exists x, r_path r = Some x /\ match r_authority r with
      | Some a => L authority a /\ L path_abempty x
      | None => L path_absolute x \/ L path_noscheme x \/ L path_empty x end)
  /\ in_opt query (r_query r) /\ in_opt fragment (r_fragment r).
