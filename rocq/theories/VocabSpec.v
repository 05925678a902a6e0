(** Specification: the attributes a delta may carry (RFC 6241, 7.2; RFC 7950, 7.7.9 and
    7.8.6), spelled out. *)
From Coq Require Import String List Bool.
From Verif Require Import Base XmlM NetconfM DataSpec DeltaSpec.
Import ListNotations.
Open Scope string_scope.
Open Scope list_scope.

Definition nc_operation : string := "{urn:ietf:params:xml:ns:netconf:base:1.0}operation".
Definition yang_insert : string := "{urn:ietf:params:xml:ns:yang:1}insert".
Definition yang_value : string := "{urn:ietf:params:xml:ns:yang:1}value".
Definition yang_key : string := "{urn:ietf:params:xml:ns:yang:1}key".

(** The operations that options call for. Merge is never spelled out. *)
Definition Asked (o : opts) (v : string) : Prop :=
  (v = "create" /\ o_create o = PCCreate) \/
  (v = "replace" /\ (o_create o = PCReplace \/ o_replace o = PRReplace \/ o_type o = DReplace)) \/
  (v = "delete" /\ o_delete o = PDDelete) \/ (v = "remove" /\ o_delete o = PDRemove).

(** Entries of lists and leaf-lists that are ordered by the user *)
Definition UserOrdered (cs : snode) : Prop := s_user (si cs) = true /\ (sty cs = TList \/ sty cs = TLeafList).

(** The attributes of a node defined by [cs] *)
Record Marks (o : opts) (cs : snode) (a : list (string * string)) : Prop := {
  mk_once : NoDup (map fst a);
  mk_known : forall n v, In (n, v) a -> n = nc_operation \/ n = yang_insert \/ n = yang_value \/ n = yang_key;
  mk_op : forall v, In (nc_operation, v) a -> Asked o v;
  mk_insert : forall v, In (yang_insert, v) a -> UserOrdered cs /\ (v = "first" \/ v = "after");
  mk_gone : forall v w, In (yang_insert, v) a -> In (nc_operation, w) a -> w <> "delete" /\ w <> "remove";
  mk_after : In (yang_insert, "after") a -> exists v, In (match sty cs with TList => yang_key | _ => yang_value end, v) a;
  mk_value : forall v, In (yang_value, v) a -> sty cs = TLeafList /\ In (yang_insert, "after") a;
  mk_key : forall v, In (yang_key, v) a -> sty cs = TList /\ In (yang_insert, "after") a }.
