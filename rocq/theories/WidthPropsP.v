(** Example data for PropsWidth.v. *)
From Coq Require Import String List.
From Verif Require Import Base XmlM WidthSpec.
Import ListNotations.
Open Scope string_scope.
Open Scope list_scope.

Definition w_leaf (n d : string) : xml := Elem ("{urn:m}" ++ n)%string None [("type", "leaf"); ("access", "read-write"); ("datatype", d)] [].
Definition w_tree (l : list xml) : xml := Elem "m" None [] [Elem "{urn:m}top" None [("type", "container"); ("access", "read-write")] l].
Definition w_one := w_tree [w_leaf "a" "string"].
(** Another datatype *)
Definition w_other := w_tree [w_leaf "a" "int32"].
(** One more leaf *)
Definition w_two := w_tree [w_leaf "a" "string"; w_leaf "much-longer" "string"].
