(* SPECIFICATION vocabulary for C54: locales, and what a text looks like in one. *)
From Verif Require Import Base ModelUri ModelLocale.
Local Open Scope Z_scope.

Definition is_letter (i : Z) : bool := ((65 <=? i) && (i <=? 90)) || ((97 <=? i) && (i <=? 122)).
(* What is asked of a locale: in ASCII it has the letters A-Z and a-z; tolower changes only what isupper holds of, into
   something islower holds of, and both are letters (C17 7.4.1.2, 7.4.1.7, 7.4.1.11, 7.4.2.1); v and V, and nothing
   else, become v.  So a Turkish locale, in which I becomes a dotless i, is one. *)
Record usable (L : locale) : Prop := {
  us_alpha : forall i, 0 <= i < 128 -> l_isalpha L i = is_letter i;
  us_upper : forall i, l_isupper L i = true -> l_isalpha L i = true;
  us_lower : forall i, l_islower L i = true -> l_isalpha L i = true;
  us_tolower : forall i, 0 <= i <= 255 -> l_tolower L i = i \/ (l_isupper L i = true /\ l_islower L (l_tolower L i) = true);
  us_v : forall i, 0 <= i <= 255 -> (l_tolower L i = 0x76 <-> i = 0x76 \/ i = 0x56) }.

(* the letters beyond ASCII are taken for a "g" (any letter that is neither v nor a hexadecimal digit would do) *)
Definition seen_as (L : locale) (c : ascii) : ascii :=
  if (128 <=? code c)%N && l_isalpha L (Z.of_N (code c)) then "g"%char else c.

(* the same change in every component *)
Definition authority_map (f : ascii -> ascii) (a : authority) : authority :=
  mkauth (option_map (map f) (userinfo a)) (map f (host a)) (option_map (map f) (port a)).
Definition parts_map (f : ascii -> ascii) (p : parts) : parts :=
  mkparts (option_map (map f) (p_scheme p)) (option_map (authority_map f) (p_authority p))
    (mkpath (absolute (p_path p)) (map (map f) (segments (p_path p))))
    (option_map (map f) (p_query p)) (option_map (map f) (p_fragment p)).
(* what is returned, if anything is *)
Definition result_map {A B} (f : A -> B) (x : outcome A) : outcome B :=
  match x with Ok a => Ok (f a) | Fault e => Fault e | Diverge => Diverge end.

(* arguments of <cctype> functions are in their domain: char is unsigned, or the text is ASCII (C08) *)
Definition in_domain (sg : bool) (s : str) : Prop := sg = false \/ Forall (fun c => (code c < 128)%N) s.
