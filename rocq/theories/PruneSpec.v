(** Specification: trees from which nodes have been taken out. *)
From Coq Require Import String Ascii List Bool Arith ZArith Lia.
From Verif Require Import Base XmlM CalcM NetconfM DataSpec DeltaSpec.
Import ListNotations.
Open Scope string_scope.
Open Scope list_scope.

(** All nodes of a tree in document order, each with its position: the indices of the
    children to follow from the root. *)
Fixpoint places (p : list nat) (x : xml) : list (list nat * xml) :=
  let '(Elem t tx a ks) := x in
  (p, x) :: (fix go (i : nat) (l : list xml) : list (list nat * xml) :=
               match l with
               | [] => []
               | c :: r => places (p ++ [i]) c ++ go (S i) r
               end) 0 ks.

(** What is seen of a node in an outline: depth, tag, text, attributes. *)
Definition outline_entry (e : list nat * xml) : nat * string * option string * list (string * string) :=
  (length (fst e), xtag (snd e), xtext (snd e), xattrs (snd e)).

(** [l'] are the members of [l] with property [P], in the same order. *)
Inductive Filtered {A} (P : A -> Prop) : list A -> list A -> Prop :=
| fi_nil : Filtered P [] []
| fi_in : forall x l l', P x -> Filtered P l l' -> Filtered P (x :: l) (x :: l')
| fi_out : forall x l l', ~ P x -> Filtered P l l' -> Filtered P (x :: l) l'.

(** The outline of [y] is the outline of [x] without the nodes whose position is not
    to be kept: nothing else is missing, nothing is changed, moved or added. *)
Definition Pruned (keep : list nat -> Prop) (x y : xml) : Prop :=
  exists l, Filtered (fun e => keep (fst e)) (places [] x) l /\
            map outline_entry l = map outline_entry (places [] y).

(** The schema node of the node at a position. *)
Inductive SchemaAt : snode -> xml -> list nat -> snode -> Prop :=
| sa_here : forall s x, SchemaAt s x [] s
| sa_down : forall s x i c cs p s', nth_error (xkids x) i = Some c -> Defines s (xtag c) cs ->
    SchemaAt cs c p s' -> SchemaAt s x (i :: p) s'.

(** The node at a position. *)
Inductive NodeAt : xml -> list nat -> xml -> Prop :=
| na_here : forall x, NodeAt x [] x
| na_down : forall x i c p n, nth_error (xkids x) i = Some c -> NodeAt c p n -> NodeAt x (i :: p) n.

Definition Prefix (p q : list nat) : Prop := exists r, q = p ++ r.
Definition StrictPrefix (p q : list nat) : Prop := exists i r, q = p ++ i :: r.

(** ** filter *)
(** Selected, below or above a selected node, or a key (with whatever it contains) of
    a list entry above a selected node. *)
Definition FilterKeeps (s : snode) (x : xml) (sel : list (list nat)) (p : list nat) : Prop :=
  (exists q, In q sel /\ (Prefix q p \/ Prefix p q)) \/
  (exists q r i sl sk, In q sel /\ StrictPrefix r q /\ Prefix (r ++ [i]) p /\
     SchemaAt s x r sl /\ sty sl = TList /\ SchemaAt s x (r ++ [i]) sk /\ s_is_key (si sk) = true).

(** ** extract_config *)
(** The node or one above it is defined as read-only. *)
Definition ReadOnly (s : snode) (x : xml) (p : list nat) : Prop :=
  exists q i sq, Prefix (q ++ [i]) p /\ SchemaAt s x (q ++ [i]) sq /\ s_access (si sq) = "read-only".

(** ** Validation *)
(** The child [c], an instance of [cs], is removed by validation: its definition is
    obsolete (or deprecated, if asked for), or it is an empty non-presence container or
    list entry, or becomes one. *)
Inductive Void (rd : bool) : snode -> xml -> Prop :=
| vo_obsolete : forall cs c, s_status (si cs) = "obsolete" -> Void rd cs c
| vo_deprecated : forall cs c, rd = true -> s_status (si cs) = "deprecated" -> Void rd cs c
| vo_container : forall cs c, sty cs = TContainer -> s_presence (si cs) = false ->
    (forall k, In k (xkids c) -> exists ks, Defines cs (xtag k) ks /\ Void rd ks k) -> Void rd cs c
| vo_list : forall cs c, sty cs = TList ->
    (forall k, In k (xkids c) -> exists ks, Defines cs (xtag k) ks /\ Void rd ks k) -> Void rd cs c.

(** The node or one above it is removed by validation. *)
Definition Voided (rd : bool) (s : snode) (x : xml) (p : list nat) : Prop :=
  exists q i sq n, Prefix (q ++ [i]) p /\ SchemaAt s x (q ++ [i]) sq /\ NodeAt x (q ++ [i]) n /\ Void rd sq n.

(** An edit attribute with a value *)
Definition EditAttr (n : xml) : Prop :=
  exists t v, In t ["{urn:ietf:params:xml:ns:netconf:base:1.0}operation"; "{urn:ietf:params:xml:ns:yang:1}insert";
                    "{urn:ietf:params:xml:ns:yang:1}value"; "{urn:ietf:params:xml:ns:yang:1}key"] /\
    get_attr t n = Some v /\ v <> "".

Definition HasKid (k : string) (n : xml) : Prop := exists c, In c (xkids n) /\ xtag c = k.

(** [n], an instance of [sn], is a node of the tree [x] other than its root. *)
Definition Below (s : snode) (x : xml) (sn : snode) (n : xml) : Prop :=
  exists sm m, Within s x sm m /\ In n (xkids m) /\ Defines sm (xtag n) sn.

(** What validation asks of an inner node. *)
Definition Acceptable (sn : snode) (n : xml) : Prop :=
  (sty sn = TList -> forall k, In k (s_keys (si sn)) -> HasKid k n) /\ ~ EditAttr n.

(** The keys of a list are leaves which validation does not remove. *)
Definition KeysLive (rd : bool) (sn : snode) : Prop :=
  forall k sk, In k (s_keys (si sn)) -> Defines sn k sk ->
    sty sk = TLeaf /\ s_status (si sk) <> "obsolete" /\ (rd = true -> s_status (si sk) <> "deprecated").

(** Every node has a schema node, found without ambiguity. *)
Fixpoint known (s : snode) (x : xml) : Prop :=
  let '(Elem _ _ _ ks) := x in
  (fix go (l : list xml) : Prop :=
     match l with
     | [] => True
     | c :: r => (exists cs, schema_child s (xtag c) = Ok cs /\ known cs c) /\ go r
     end) ks.
