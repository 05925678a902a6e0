(** When two running-config diffs are the same. *)
From Coq Require Import String Ascii List Bool Arith.
From Verif Require Import Base RunningM.
Import ListNotations.
Open Scope string_scope.
Open Scope list_scope.

(** A line of a text *)
Fixpoint one_line_text (s : string) : Prop :=
  match s with EmptyString => True | String c r => c <> ascii_of_nat 10 /\ one_line_text r end.
Definition lines_below (v : option (list item)) : list item := match v with None => [] | Some l => l end.
(** The same lines with the same signs in the same order, at every level; to have an
    empty list of lines below is to have none. *)
Inductive Alike : list item -> list item -> Prop :=
| alike_nil : Alike [] []
| alike_cons : forall k v v' i l l', Alike (lines_below v) (lines_below v') -> Alike l l' -> Alike (It k v i :: l) (It k v' i :: l').
(** No line has an empty list of lines below. *)
Inductive Filled : list item -> Prop :=
| filled_nil : Filled []
| filled_leaf : forall k i l, Filled l -> Filled (It k None i :: l)
| filled_section : forall k v i l, v <> [] -> Filled v -> Filled l -> Filled (It k (Some v) i :: l).
