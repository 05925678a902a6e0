(** Model of the comparison of two running-config diffs. *)
From Coq Require Import String Ascii List Bool Arith.
From Verif Require Import Base RunningM.
Import ListNotations.
Open Scope string_scope.
Open Scope list_scope.

Definition nl : ascii := ascii_of_nat 10.
(** The text of lines, each with a newline at its end, runningconfig.py:515, 518 *)
Fixpoint unlines (ls : list string) : string :=
  match ls with [] => "" | l :: r => (l ++ String nl (unlines r))%string end.
(** [str(self)] as one text, runningconfig.py:364-365 *)
Definition running_text (t1 t2 : list string) : res string := let! ls := running_str t1 t2 in Ok (unlines ls).
(** [__eq__], runningconfig.py:367-371; the other one is a diff, too *)
Definition running_eq (a b : list string * list string) : res bool :=
  let! s := running_text (fst a) (snd a) in
  let! s' := running_text (fst b) (snd b) in
  Ok (String.eqb s s').
