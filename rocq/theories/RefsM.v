(** identityref and instance-identifier values inside the trees of a calculator: joins
    CacheM.v and RefM.v. No proofs in this file. *)
From Coq Require Import String Ascii List Bool Arith.
From Verif Require Import Base XmlM CalcM CacheM TagM RefM.
Import ListNotations.
Open Scope string_scope.
Open Scope list_scope.

(** The element of a tree as ref.py sees it: its tag is the last of the tags that lead to
    it, and [ns] gives the namespaces in scope ([node.nsmap]) by tree and place. *)
Definition rnode_at (ns : bool -> list nat -> nsmap) (b : bool) (p : list nat) (ts : list string) (t : string) : rnode :=
  RNode (last ts "") (ns b p) (Some t).

(** The tests on [schema_node.get('datatype')] and the values of [IdentityRef.default] and
    [InstanceIdentifier.default], calculator.py:405-412 and ref.py:48-53,175-181. [dt] is
    the [datatype] attribute of the schema node that the tags lead to, see RefM.v. *)
Definition device_refs (T : table) (dt : list string -> datatype) (ns : bool -> list nat -> nsmap) : references :=
  References
    (fun ts => match dt ts with DIdentity | DInstance => true | _ => false end)
    (fun b p ts t => match dt ts with
                     | DIdentity => id_convert T (rnode_at ns b p ts t) None
                     | _ => iid_convert T (rnode_at ns b p ts t) None
                     end).
