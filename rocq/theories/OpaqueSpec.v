(** Specification: opaque data nodes (anyxml, anydata and other types that are none of
    leaf, leaf-list, container and list), independently of the calculators. *)
From Coq Require Import String Ascii List Bool Arith ZArith.
From Verif Require Import Base XmlM CalcM DataSpec.
Import ListNotations.
Open Scope string_scope.
Open Scope list_scope.

(** The schema with its opaque nodes read as leaves: an opaque node is its text. *)
Definition leaf_info (i : sinfo) : sinfo :=
  match s_type i with
  | TOther => SInfo (s_tag i) TLeaf (s_presence i) (s_user i) None (s_is_key i) (s_keys i) (s_status i) (s_access i)
  | _ => i
  end.
Fixpoint as_leaves (s : snode) : snode :=
  let '(SNode i ks) := s in SNode (leaf_info i) (map as_leaves ks).

(** Children named [t] of instances of [s] are opaque. *)
Definition Opaque (s : snode) (t : string) : Prop := exists cs, Defines s t cs /\ sty cs = TOther.

(** Some opaque node is in both trees, side by side below instances that are in both and
    differ. *)
Inductive Meets : snode -> xml -> xml -> Prop :=
| me_here : forall s a b ca cb, In ca (xkids a) -> In cb (xkids b) -> xtag ca = xtag cb ->
    Opaque s (xtag ca) -> Meets s a b
| me_down : forall s a b ca cb cs u, In ca (xkids a) -> In cb (xkids b) -> xtag ca = xtag cb ->
    Defines s (xtag ca) cs -> (sty cs = TContainer \/ sty cs = TList) -> Ident cs ca u -> Ident cs cb u ->
    ~ SameData (as_leaves cs) ca cb -> Meets cs ca cb -> Meets s a b.
