(** Specification for C45 and C46: equality of schema trees, and which nodes were added,
    deleted or modified, stated on the two trees. *)
From Coq Require Import String List Bool Permutation.
From Verif Require Import Base XmlM MDiffM.
Import ListNotations.
Open Scope string_scope.
Open Scope list_scope.

(** Equal up to the order of siblings and of attributes. *)
Inductive Same : xml -> xml -> Prop :=
| same_node : forall x y l,
    xtag x = xtag y -> xtext x = xtext y ->
    (forall a, get_attr a x = get_attr a y) ->
    Permutation (xkids y) l -> Forall2 Same (xkids x) l -> Same x y.

(** Two trees have the same nodes below their roots. *)
Definition SameNodes (x y : xml) : Prop := exists l, Permutation (xkids y) l /\ Forall2 Same (xkids x) l.

(** [y] is the node at a path of tags below [x]. *)
Inductive At : xml -> list string -> xml -> Prop :=
| at_kid : forall x c, In c (xkids x) -> At x [xtag c] c
| at_down : forall x c p y, In c (xkids x) -> At c p y -> At x (xtag c :: p) y.

Definition Exists (x : xml) (p : list string) : Prop := exists y, At x p y.
Definition Added (t1 t2 : xml) (p : list string) : Prop := Exists t2 p /\ ~ Exists t1 p.
Definition Deleted (t1 t2 : xml) (p : list string) : Prop := Exists t1 p /\ ~ Exists t2 p.
Definition LeafType (x : xml) : Prop := get_attr "type" x = Some "leaf" \/ get_attr "type" x = Some "leaf-list".
Definition Modified (t1 t2 : xml) (p : list string) : Prop :=
  exists x y, At t1 p x /\ At t2 p y /\ LeafType y /\ ~ Same x y.

(** The diff has a node marked [m] at [p]. *)
Definition Marked (d : xml) (p : list string) (m : string) : Prop :=
  exists y, At d p y /\ get_attr "diff" y = Some m.

Definition InnerType (x : xml) : Prop :=
  get_attr "type" x = Some "container" \/ get_attr "type" x = Some "list" \/
  get_attr "type" x = Some "choice" \/ get_attr "type" x = Some "case".

(** Leaves have no children; YANG distinguishes siblings by name; all nodes have a
    type. *)
Definition LeavesEnd (t : xml) : Prop := forall p x, At t p x -> LeafType x -> xkids x = [].
Definition DistinctTags (t : xml) : Prop :=
  NoDup (map xtag (xkids t)) /\ forall p x, At t p x -> NoDup (map xtag (xkids x)).
Definition Typed (t : xml) : Prop := forall p x, At t p x -> get_attr "type" x <> None.

(** Data definitions only (no rpc, notification, anyxml, ...), with no empty container,
    list, choice or case. *)
Definition DataOnly (t : xml) : Prop :=
  forall p x, At t p x -> (LeafType x /\ xkids x = []) \/ (InnerType x /\ xkids x <> []).

(** No node became a leaf. *)
Definition KeepsKind (t1 t2 : xml) : Prop :=
  forall p x y, At t1 p x -> At t2 p y -> LeafType y -> xkids x = [].

(** The printed tree has a node at [p]. *)
Definition Shown (o : option xml) (p : list string) : Prop := exists d, o = Some d /\ Exists d p.
