(** Specification: operations that can be carried out once only (RFC 6241, 7.2): a node
    that is there cannot be created, one that is not there cannot be deleted. *)
From Coq Require Import String List Bool.
From Verif Require Import Base XmlM VocabSpec.
Import ListNotations.
Open Scope string_scope.
Open Scope list_scope.

(** [n] is an element inside [x]. *)
Inductive Below : xml -> xml -> Prop :=
| bl_kid : forall x c, In c (xkids x) -> Below x c
| bl_down : forall x c n, In c (xkids x) -> Below c n -> Below x n.

Definition Once (n : xml) : Prop := get_attr nc_operation n = Some "delete" \/ get_attr nc_operation n = Some "create".
