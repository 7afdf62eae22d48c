(* SPECIFICATION vocabulary for C53: one transcoder, several texts. *)
From Verif Require Import Base ModelIcu.
Local Open Scope N_scope.
Local Open Scope list_scope.

(* what fresh transcoders say of the texts, with the verdicts accumulated: false stays false *)
Fixpoint accumulated (ok : bool) (fresh : list (list N * bool)) : list (list N * bool) :=
  match fresh with [] => [] | (out, k) :: r => (out, ok && k) :: accumulated (ok && k) r end.

(* does partial() hold once a fresh transcoder has been fed l? *)
Definition partial_after (T : tcdr) (l : list N) : bool :=
  match feed T (tc_init T) l with Ok (s, _) => tc_partial T s | _ => false end.

(* The texts a used UTF-8 transcoder sees in place of those it is given: as long as no text has ended within a code
   point (stuck = false) they are the same; after such a text the first byte of the next is as good as FF, which
   occurs in no UTF-8 form; if that text is empty a FF is seen nevertheless, and the transcoder remains stuck. *)
Fixpoint seen (T : tcdr) (stuck : bool) (texts : list (list N)) : list (list N) :=
  match texts with
  | [] => []
  | l :: rest =>
      if stuck then
        match l with
        | [] => [0xFF] :: seen T true rest
        | _ :: l' => (0xFF :: l') :: seen T (partial_after T (0xFF :: l')) rest
        end
      else l :: seen T (partial_after T l) rest
  end.
