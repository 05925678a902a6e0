(** Specification: what two configs do not agree on. *)
From Coq Require Import String List Bool.
From Verif Require Import Base XmlM CalcM NetconfM DataSpec DeltaSpec VocabSpec EditSpec SumSpec.
Import ListNotations.
Open Scope string_scope.
Open Scope list_scope.

(** The node at path [p], defined by [s'], is in one of the two configs only, or the two
    differ there or below, or it is a key, or its place among its siblings counts. *)
Definition OneOnly (s : snode) (a b : xml) (p : list uid) : Prop :=
  (Present s a p /\ ~ Present s b p) \/ (Present s b p /\ ~ Present s a p).
Definition InBoth (s : snode) (a b : xml) (p : list uid) (s' : snode) (Q : xml -> xml -> Prop) : Prop :=
  exists na nb, At s a p s' na /\ At s b p s' nb /\ Q na nb.
Definition Worth (s : snode) (a b : xml) (p : list uid) (s' : snode) : Prop :=
  OneOnly s a b p \/
  InBoth s a b p s' (fun na nb => ~ SameData s' na nb \/ s_is_key (si s') = true \/ UserOrdered s').

(** The operation of a node *)
Definition HasOp (n : xml) (v : string) : Prop := get_attr nc_operation n = Some v.

(** How a delta [d] sees to it that what [a] has at [p] and [b] has not is gone: it deletes
    the node or one above it, none of them in [b]; replaces one above it; mentions it as an
    empty container without presence, of which nothing is left; or says nothing since [b]
    has another case of the same choice. *)
Inductive Handled (s : snode) (a b d : xml) (p : list uid) : Prop :=
| h_delete : forall q r s' n, p = q ++ r -> q <> [] -> At s d q s' n -> ~ Present s b q -> HasOp n "delete" \/ HasOp n "remove" -> Handled s a b d p
| h_replace : forall q r s' n, p = q ++ r -> At s d q s' n -> Present s b q -> HasOp n "replace" -> Handled s a b d p
| h_emptied : forall s' n, At s d p s' n -> sty s' = TContainer -> s_presence (si s') = false -> Handled s a b d p
| h_case : forall q u r s' na nb cs ca cb, p = q ++ u :: r -> At s a q s' na -> At s b q s' nb -> Child s' na u cs ca -> In cb (xkids nb) ->
    OtherCase s' ca cb -> Handled s a b d p.
