(** Specification: reorderings of a delta that leave user-ordered sequences alone. *)
From Coq Require Import String Ascii List Bool Arith ZArith Lia Permutation.
From Verif Require Import Base XmlM CalcM ConfigM DataSpec AlikeSpec.
Import ListNotations.
Open Scope string_scope.
Open Scope list_scope.

(** No node [d] levels below [s] has children ordered by the user. *)
Fixpoint NoSequence (d : nat) (s : snode) : Prop :=
  match d with
  | 0 => forall n, ~ UserTag s n
  | S d' => forall n cs, Defines s n cs -> NoSequence d' cs
  end.

(** The nodes at depth [d] of the two trees have the same user-ordered sequences of children;
    the nodes above are paired by position. *)
Inductive KeepsOrder : nat -> snode -> xml -> xml -> Prop :=
| ko_here : forall s x y, (forall n, UserTag s n -> kids_tagged n (xkids x) = kids_tagged n (xkids y)) -> KeepsOrder 0 s x y
| ko_down : forall d s x y,
    Forall2 (fun c c' => forall cs, Defines s (xtag c) cs -> KeepsOrder d cs c c') (xkids x) (xkids y) -> KeepsOrder (S d) s x y.
