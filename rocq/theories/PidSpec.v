(** Specification of C90: the text of an instance-identifier as words and delimiters. *)
From Coq Require Import String Ascii List Bool Arith.
From Verif Require Import Base.
Import ListNotations.
Open Scope list_scope.

Definition Delim (c : ascii) : Prop := In c ["/"; "."; "["; "]"; "="; "*"]%char.
Definition Plain (w : list ascii) : Prop := forall c, In c w -> ~ Delim c.

(** A text: words, each followed by one delimiter, and the word after the last one. Words may
    be empty. *)
Definition words : Type := list (list ascii * ascii) * list ascii.
Definition Words (x : words) : Prop :=
  (forall w c, In (w, c) (fst x) -> Plain w /\ Delim c) /\ Plain (snd x).
Definition spelled (x : words) : list ascii := flat_map (fun '(w, c) => w ++ [c]) (fst x) ++ snd x.

(** Word by word rewriting of a text by [conv], which leaves the empty word alone. *)
Definition word (conv : list ascii -> res (list ascii)) (w : list ascii) : res (list ascii) :=
  match w with [] => Ok [] | _ => conv w end.
(** What the result should be. *)
Fixpoint rewritten (conv : list ascii -> res (list ascii)) (l : list (list ascii * ascii)) (last : list ascii) : res (list ascii) :=
  match l with
  | [] => word conv last
  | (w, c) :: r => let! w' := word conv w in let! r' := rewritten conv r last in Ok (w' ++ [c] ++ r')
  end.
(** The same with every delimiter before the word that it follows. *)
Fixpoint swapped (conv : list ascii -> res (list ascii)) (l : list (list ascii * ascii)) (last : list ascii) : res (list ascii) :=
  match l with
  | [] => word conv last
  | (w, c) :: r => let! w' := word conv w in let! r' := swapped conv r last in Ok ([c] ++ w' ++ r')
  end.
