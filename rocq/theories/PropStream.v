(* PROPERTY THEOREMS: operator<< and compose on streams (C42). *)
From Verif Require Import Base ModelUri ModelStream StreamFacts.

(* --- C42 -------------------------------------------------------------------------------------------------- *)
(* compose (parts), through a std::stringstream, gives the string of C03/C05 *)
Theorem C42_compose p : compose_stream p = compose p.
Proof. exact (compose_streams p). Qed.
Print Assumptions C42_compose.
(* os << p writes that string; if the stream buffer stops accepting characters, exactly the part that fitted is
   written and the stream is no longer good; a stream that is not good is left alone *)
Theorem C42_insert p os : good os = true -> width os = 0 ->
  out (insert_parts p os) = out os ++ match room os with None => compose p | Some n => firstn n (compose p) end
  /\ (good (insert_parts p os) = true <-> match room os with None => True | Some n => length (compose p) <= n end)
  /\ width (insert_parts p os) = 0.
Proof.
  intros G W. destruct (insert_parts_plain p os G W) as (E1 & E2 & E3). repeat split; auto.
  - rewrite E2. unfold enough. destruct (room os); auto. apply Nat.leb_le.
  - rewrite E2. unfold enough. destruct (room os); auto. apply Nat.leb_le.
Qed.
Print Assumptions C42_insert.
Theorem C42_bad_stream p os : good os = false -> insert_parts p os = os.
Proof. exact (bad_parts p os). Qed.
Print Assumptions C42_bad_stream.
(* a field width set by the caller is used up; it pads only the first thing written: the scheme, else "//", else the path *)
Theorem C42_width p os : good os = true -> room os = None ->
  exists first rest, compose p = first ++ rest
    /\ first = match p_scheme p, p_authority p with
               | Some s, _ => s | None, Some _ => ss "//" | None, None => path_string (p_path p) end
    /\ out (insert_parts p os) = out os ++ (if left os then first ++ repeat (fill os) (width os - length first)
                                            else repeat (fill os) (width os - length first) ++ first) ++ rest
    /\ width (insert_parts p os) = 0.
Proof.
  intros G R. destruct (insert_parts_width p os G) as (rest & E & E1 & _ & E3). exists (first_piece p), rest.
  rewrite R in E1. repeat split; auto.
Qed.
Print Assumptions C42_width.
(* so setw does not pad the URI as a whole *)
Theorem C42_width_refuted : exists p os, good os = true /\ room os = None /\ width os = 6 /\ length (compose p) = 4
  /\ out (insert_parts p os) = out os ++ ss "     a:/b" .
Proof.
  exists (mkparts (Some (ss "a")) None (mkpath true [ss "b"]) None None), (mkstream (ss "x") None 6 " " false true).
  vm_compute. repeat split.
Qed.
Print Assumptions C42_width_refuted.
Theorem C42_authority a os : good os = true -> width os = 0 ->
  out (insert_authority a os) = out os ++ match room os with None => authority_string a | Some n => firstn n (authority_string a) end.
Proof. intros G W. exact (proj1 (insert_authority_plain a os G W)). Qed.
Print Assumptions C42_authority.
Example C42_ex : let p := mkparts (Some (ss "a")) (Some (mkauth None (ss "h") (Some []))) (mkpath false [ss "b"]) None None in
  compose_stream p = ss "a://h:/b"
  /\ out (insert_parts p (mkstream (ss "<") (Some 3) 0 " " false true)) = ss "<a:/"
  /\ good (insert_parts p (mkstream (ss "<") (Some 3) 0 " " false true)) = false.
Proof. vm_compute. repeat split. Qed.
