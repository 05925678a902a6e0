(** Nodes reached by a list of tags. *)
From Coq Require Import String Ascii List Bool Arith.
From Verif Require Import Base XmlM PruneSpec.
Import ListNotations.
Open Scope string_scope.
Open Scope list_scope.

(** The tags on the way to a node, without that of the root. *)
Inductive Way : xml -> list nat -> list string -> Prop :=
| way_here : forall x, Way x [] []
| way_down : forall x i c p w, nth_error (xkids x) i = Some c -> Way c p w -> Way x (i :: p) (xtag c :: w).

(** A node is reached by tags if they occur on the way to it in this order, the last one at the
    node itself. *)
Inductive Occurs : list string -> list string -> Prop :=
| oc_end : Occurs [] []
| oc_take : forall t l w, Occurs l w -> Occurs (t :: l) (t :: w)
| oc_skip : forall t l a w, Occurs (t :: l) w -> Occurs (t :: l) (a :: w).

(** In how many ways they occur. *)
Fixpoint ways (l w : list string) : nat :=
  match w, l with
  | [], [] => 1
  | [], _ => 0
  | _, [] => 0
  | a :: w', t :: l' => (if String.eqb t a then ways l' w' else 0) + ways l w'
  end.

(** The order of the document. *)
Inductive Before : list nat -> list nat -> Prop :=
| be_up : forall i p, Before [] (i :: p)
| be_side : forall i j p q, i < j -> Before (i :: p) (j :: q)
| be_down : forall i p q, Before p q -> Before (i :: p) (i :: q).

(** No node with the tag is inside another one. *)
Definition Unnested (x : xml) (t : string) : Prop :=
  forall p q u v, NodeAt x p u -> q <> [] -> NodeAt u q v -> xtag u = t -> xtag v <> t.
