(** Specification: what a data tree means, independently of the calculators.

    A data tree is read as a set of instances, each at a path of identities, plus
    the order of user-ordered entries. *)
From Coq Require Import String Ascii List Bool Arith ZArith Lia.
From Verif Require Import Base XmlM CalcM.
Import ListNotations.
Open Scope string_scope.
Open Scope list_scope.

(** Data definition reached from a schema node by going down through choices and
    cases only. *)
Inductive Through : snode -> snode -> Prop :=
| th_here : forall s, sty s <> TChoice -> sty s <> TCase -> Through s s
| th_choice : forall s k c, sty s = TChoice -> In k (skids s) -> Through k c -> Through s c
| th_case : forall s k c, sty s = TCase -> In k (skids s) -> Through k c -> Through s c.

(** [cs] defines the children named [t] of instances of [s]. *)
Definition Defines (s : snode) (t : string) (cs : snode) : Prop :=
  stag cs = t /\ exists k, In k (skids s) /\ Through k cs.

(** The texts of the key leaves, each key occurring exactly once. *)
Inductive KeyTexts (x : xml) : list string -> list (option string) -> Prop :=
| kt_nil : KeyTexts x [] []
| kt_cons : forall k c ks ts,
    In c (xkids x) -> xtag c = k ->
    (forall c', In c' (xkids x) -> xtag c' = k -> c' = c) ->
    KeyTexts x ks ts -> KeyTexts x (k :: ks) (xtext c :: ts).

(** Identity of an instance among its siblings. *)
Inductive Ident (cs : snode) (x : xml) : uid -> Prop :=
| id_leaflist : sty cs = TLeafList -> Ident cs x (xtag x, KText (xtext x))
| id_list : forall ts, sty cs = TList -> KeyTexts x (s_keys (si cs)) ts ->
              Ident cs x (xtag x, KTup ts)
| id_other : sty cs <> TLeafList -> sty cs <> TList -> Ident cs x (xtag x, KNone).

(** The node found at a path. *)
Inductive At : snode -> xml -> list uid -> snode -> xml -> Prop :=
| at_here : forall s x, At s x [] s x
| at_down : forall s x c cs u p s' n,
    In c (xkids x) -> Defines s (xtag c) cs -> Ident cs c u ->
    At cs c p s' n -> At s x (u :: p) s' n.

(** The value carried by a node. *)
Definition value_of (s : snode) (x : xml) : option string :=
  match sty s with TLeaf | TLeafList => xtext x | _ => None end.

(** The instance at path [p] exists and has value [v]. *)
Definition Holds (s : snode) (x : xml) (p : list uid) (v : option string) : Prop :=
  exists s' n, At s x p s' n /\ value_of s' n = v.

(** Identities of the children named [t], in document order. *)
Inductive Order (s : snode) (t : string) : list xml -> list uid -> Prop :=
| or_nil : Order s t [] []
| or_in : forall c cs u l us, xtag c = t -> Defines s t cs -> Ident cs c u ->
            Order s t l us -> Order s t (c :: l) (u :: us)
| or_out : forall c l us, xtag c <> t -> Order s t l us -> Order s t (c :: l) us.

(** At path [p] the entries of the user-ordered node [t] are [us], in this order. *)
Definition UserOrder (s : snode) (x : xml) (p : list uid) (t : string) (us : list uid) : Prop :=
  exists s' n cs, At s x p s' n /\ Defines s' t cs /\ s_user (si cs) = true
    /\ (sty cs = TLeafList \/ sty cs = TList) /\ Order s' t (xkids n) us.

(** Subsequence *)
Inductive Subseq {A} : list A -> list A -> Prop :=
| ss_nil : Subseq [] []
| ss_skip : forall x l1 l2, Subseq l1 l2 -> Subseq l1 (x :: l2)
| ss_take : forall x l1 l2, Subseq l1 l2 -> Subseq (x :: l1) (x :: l2).

(** Containment and equality of configs *)
Definition Contained (s : snode) (x y : xml) : Prop :=
  (forall p v, Holds s x p v -> Holds s y p v) /\
  (forall p t us vs, UserOrder s x p t us -> UserOrder s y p t vs -> Subseq us vs).
Definition SameData (s : snode) (x y : xml) : Prop :=
  (forall p v, Holds s x p v <-> Holds s y p v) /\
  (forall p t us vs, UserOrder s x p t us -> UserOrder s y p t vs -> us = vs).

(** ** Well-formed trees *)

(** No attributes, no text outside of leaves, nothing below leaves, known schema
    nodes of the four data types, unambiguous siblings, no empty non-presence
    container. [s] is the schema node of [x]. *)
Fixpoint valid (s : snode) (x : xml) : bool :=
  let '(Elem t tx a ks) := x in
  (match a with [] => true | _ => false end) &&
  (match sty s with
   | TLeaf | TLeafList => match ks with [] => true | _ => false end
   | TContainer => match tx with None => true | _ => false end &&
                   (s_presence (si s) || match ks with [] => false | _ => true end)
   | TList | TRoot => match tx with None => true | _ => false end
   | _ => false
   end) &&
  is_ok (index_kids s ks) &&
  forallb (fun c => match schema_child s (xtag c) with Ok cs => valid cs c | Err _ => false end) ks.
