(** Specification: trees whose nodes have the same names; the width of a parent. *)
From Coq Require Import String List Arith.
From Verif Require Import Base XmlM.
Import ListNotations.

(** [nm] is the text shown for a node, flags and marks included. Nodes at the same place have
    children with the same texts in the same order. *)
Inductive SameNames (nm : xml -> res string) : xml -> xml -> Prop :=
| same_names : forall x y, map nm (xkids x) = map nm (xkids y) ->
    (forall i a b, nth_error (xkids x) i = Some a -> nth_error (xkids y) i = Some b -> SameNames nm a b) ->
    SameNames nm x y.

(** All names of children fit into the width, with three blanks. *)
Definition Fits (nm : xml -> res string) (x : xml) (w : nat) : Prop :=
  forall y, In y (xkids x) -> exists s, nm y = Ok s /\ String.length s + 3 <= w.
(** The least multiple of three, from three on, into which they fit *)
Definition IsWidth (nm : xml -> res string) (x : xml) (w : nat) : Prop :=
  (exists k, w = 3 * k) /\ 3 <= w /\ Fits nm x w /\ (forall k, 1 <= k -> Fits nm x (3 * k) -> w <= 3 * k).
(** Some child has no name. *)
Definition Raises (nm : xml -> res string) (x : xml) : Prop := exists y e, In y (xkids x) /\ nm y = Err e.
