(** Specification: trees that differ only in an order of siblings that has no meaning. *)
From Coq Require Import String Ascii List Bool Arith ZArith Lia Permutation.
From Verif Require Import Base XmlM CalcM ConfigM DataSpec ConfigSpec.
Import ListNotations.
Open Scope string_scope.
Open Scope list_scope.

(** The children named [n] are in the order of the user. *)
Definition UserTag (s : snode) (n : string) : Prop := exists cs, Defines s n cs /\ s_user (si cs) = true.

(** [l1] and [l2] have the same elements up to [R], and in the same order if [ordered]. *)
Definition Matched {A B} (ordered : Prop) (R : A -> B -> Prop) (l1 : list A) (l2 : list B) : Prop :=
  (ordered -> Forall2 R l1 l2) /\ exists m, Permutation m l2 /\ Forall2 R l1 m.

(** The two trees are equal but for the order of siblings that are not entries of one
    user-ordered sequence. Text, attributes and nodes unknown to the schema are equal. *)
Inductive Alike : snode -> xml -> xml -> Prop :=
| alike : forall s t tx a k1 k2,
    (forall n, Matched (UserTag s n) (fun c c' => c = c' \/ exists cs, Defines s n cs /\ Alike cs c c')
                       (kids_tagged n k1) (kids_tagged n k2)) ->
    Alike s (Elem t tx a k1) (Elem t tx a k2).

(** Two operations have the same outcome up to [R]: both fail, or the results are related. *)
Definition Alikewise {A B} (R : A -> B -> Prop) (r1 : res A) (r2 : res B) : Prop :=
  match r1, r2 with
  | Ok x, Ok y => R x y
  | Err _, Err _ => True
  | _, _ => False
  end.

(** [x + (c1 - prev) + (c2 - c1) + ...] for the configs [c1], [c2], ... of a list *)
Fixpoint replay_all (s : snode) (x prev : xml) (l : list xml) : res xml :=
  match l with
  | [] => Ok x
  | c :: r => let! y := config_add_delta s x (config_sub c prev) in replay_all s y c r
  end.

(** Each config of the list is comparable with the one before it. *)
Fixpoint Linked (s : snode) (prev : xml) (l : list xml) : Prop :=
  match l with [] => True | c :: r => IsConfig s c /\ Comparable s prev c /\ Linked s c r end.
