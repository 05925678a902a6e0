(** Specification: defaults in use and nodes that are created.

    Positions are lists of child indices, first index last. *)
From Coq Require Import String List Bool Arith Sorted.
From Verif Require Import Base XmlM NetconfM DataSpec DeltaSpec.
Import ListNotations.
Open Scope string_scope.
Open Scope list_scope.

(** The default case of the [n]-th child of [b], a choice, is its [m]-th child [k]. *)
Definition DefaultCase (b : snode) (n m : nat) (k : snode) : Prop :=
  exists ch t, nth_error (skids b) n = Some ch /\ sty ch = TChoice /\ s_default (si ch) = Some t /\
    nth_error (skids ch) m = Some k /\ stag k = t /\
    forall j k', j < m -> nth_error (skids ch) j = Some k' -> stag k' <> t.

(** A container that exists without being configured *)
Definition NonPresence (c : snode) : Prop := sty c = TContainer /\ s_presence (si c) = false.

(** [b], at [p] below [s], needs no configuration besides an instance of [s]: on the
    way there are only non-presence containers and default cases of choices. *)
Inductive Implied (s : snode) : list nat -> snode -> Prop :=
| im_here : Implied s [] s
| im_container : forall p b n c, Implied s p b -> nth_error (skids b) n = Some c -> NonPresence c -> Implied s (n :: p) c
| im_case : forall p b n m k, Implied s p b -> DefaultCase b n m k -> Implied s (m :: n :: p) k.

(** The leaf or leaf-list [c] at [p] has a default which is in use (RFC 7950, 7.6.1 and
    7.7.2) when there is an instance of [s] with nothing in it. *)
Definition InUse (s : snode) (p : list nat) (c : snode) : Prop :=
  exists b n q, p = n :: q /\ Implied s q b /\ nth_error (skids b) n = Some c /\
    (sty c = TLeaf \/ sty c = TLeafList) /\ s_default (si c) <> None.

(** [k] at [p] is the default case of a choice in such an instance. *)
Definition CaseInUse (s : snode) (p : list nat) (k : snode) : Prop :=
  exists b n m q, p = m :: n :: q /\ Implied s q b /\ DefaultCase b n m k.

(** Order of the document: a node before what is in it *)
Inductive Earlier : list nat -> list nat -> Prop :=
| ea_in : forall i q, Earlier [] (i :: q)
| ea_less : forall i j p q, i < j -> Earlier (i :: p) (j :: q)
| ea_same : forall i p q, Earlier p q -> Earlier (i :: p) (i :: q).

(** The node at a position in a data tree, first index first *)
Inductive Node : xml -> list nat -> xml -> Prop :=
| nd_here : forall x, Node x [] x
| nd_kid : forall x i c q n, nth_error (xkids x) i = Some c -> Node c q n -> Node x (i :: q) n.

(** The node at [q] in a tree [x] of [s] is to be created: only non-presence
    containers are above it, it is none itself, and no default of its own is in use in
    the container it is in. *)
Inductive ToCreate : snode -> xml -> list nat -> Prop :=
| tc_here : forall s x, ~ NonPresence s -> ToCreate s x []
| tc_kid : forall s x i c p cs q, NonPresence s -> nth_error (xkids x) i = Some c ->
    Locus s p cs -> Defines s (xtag c) cs -> ~ InUse s p cs -> ~ CaseInUse s p cs ->
    ToCreate cs c q -> ToCreate s x (i :: q).

(** [y] is [x] but for the attributes. *)
Definition AttrsOnly (x y : xml) : Prop :=
  (forall q n, Node x q n -> exists m, Node y q m /\ xtag m = xtag n /\ xtext m = xtext n) /\
  (forall q m, Node y q m -> exists n, Node x q n).
