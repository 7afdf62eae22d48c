(* What C93 speaks of: the characters written, the elements read and the sizes asked for in a history of Punycode's calls *)
From Verif Require Import Base ModelPunyIo.
Definition writes {X} (h : list (event X)) : str := flat_map (fun e => match e with Write c => [c] | _ => [] end) h.
Definition reads {X} (h : list (event X)) : list X := flat_map (fun e => match e with Read x => [x] | _ => [] end) h.
Definition grows {X} (h : list (event X)) : list nat := flat_map (fun e => match e with Grow n => [n] | _ => [] end) h.
(* room for at most this many code points: what asks for more throws *)
Definition memory {X} (room : nat) : list (event X) -> event X -> bool := fun _ e => match e with Grow n => Nat.ltb room n | _ => false end.
(* a destination that takes this many characters and throws at the next *)
Definition takes {X} (k : nat) : list (event X) -> event X -> bool :=
  fun h e => match e with Write _ => Nat.leb k (length (writes h)) | _ => false end.
(* a source that throws at the reading after this many *)
Definition gives {X} (k : nat) : list (event X) -> event X -> bool :=
  fun h e => match e with Read _ => Nat.leb k (length (reads h)) | _ => false end.
