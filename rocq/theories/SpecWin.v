(* SPECIFICATION: the words for pathnames on Windows. *)
From Verif Require Import Base SpecStore.
Local Open Scope list_scope.

Definition backslash : ascii := "\"%char.
(* a drive: a letter and a colon *)
Definition drive (d : str) : Prop := exists c, d = [c; ":"%char] /\ (65 <= code c <= 90 \/ 97 <= code c <= 122)%N.
(* the text begins with a drive *)
Definition begins_with_drive (s : str) : Prop := exists d r, drive d /\ s = d ++ r.
(* no separator in any of the texts *)
Definition no_separators (l : list str) : Prop := Forall (fun s => ~ In "/"%char s /\ ~ In backslash s) l.
(* the texts with "\" between them *)
Definition backslashed (l : list str) : str := match l with [] => [] | s :: l' => joined backslash s l' end.
(* a segment on drive d: what it names there, d itself left out *)
Definition on_drive (d : str) (s r : str) : Prop := s = d ++ r \/ (s = r /\ ~ begins_with_drive s).
(* the segments a do not leave one on drive d: each of them that begins with d has one behind it that begins with another drive *)
Definition not_on (a : list str) (d : str) : Prop :=
  forall x r y, a = x ++ (d ++ r) :: y -> exists e s, drive e /\ e <> d /\ In s y /\ exists r', s = e ++ r'.
(* a server: two separators and a name *)
Definition separator (c : ascii) : Prop := c = "/"%char \/ c = backslash.
Definition server (u : str) : Prop := exists a b n, u = a :: b :: n /\ separator a /\ separator b /\ n <> [] /\ no_separators [n].
(* nothing, or a text that begins with a separator *)
Definition separated (s : str) : Prop := s = [] \/ exists c r, s = c :: r /\ separator c.
(* a text that begins with one separator, not with two *)
Definition from_root (s : str) : Prop := exists c r, s = c :: r /\ separator c /\ (r = [] \/ exists e r', r = e :: r' /\ ~ separator e).
