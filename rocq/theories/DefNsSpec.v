(** Specification of C89: the namespaces that go with the default form of a reference. *)
From Coq Require Import String Ascii List Bool Arith.
From Verif Require Import Base TagM RefM.
Import ListNotations.
Open Scope string_scope.
Open Scope list_scope.

(** The dict [ns] has the namespace [own] of the node without a prefix, and every other
    module whose URL is in [us] under the name of the module, and nothing else. *)
Definition Declares (T : table) (own : string) (us : list string) (ns : nsmap) : Prop :=
  forall k v, In (k, v) ns <->
    (k = None /\ v = own) \/ (exists e, In e T /\ k = Some (e_name e) /\ v = e_url e /\ In v us /\ v <> own).
