(** Property theorems: comparing two running-config diffs. *)
From Coq Require Import String Ascii List Bool Arith.
From Verif Require Import Base RunningM RunSpec RunEqM RunEqSpec RunEqP RunEqPropsP.
Import ListNotations.
Open Scope string_scope.
Open Scope list_scope.

(** ** C86
    Two diffs compare equal exactly if they have the same lines with the same signs in
    the same order at every level, whatever configs they are the diffs of. *)
Theorem C86_equal : forall t1 t2 t3 t4 d d', Forall one_line_text (t1 ++ t2 ++ t3 ++ t4) -> get_diff false t1 t2 = Ok d -> get_diff false t3 t4 = Ok d' ->
  (running_eq (t1, t2) (t3, t4) = Ok true <-> Alike d d').
Proof. exact running_eq_alike. Qed.
Print Assumptions C86_equal.

(** The comparison never raises. *)
Theorem C86_never_raises : forall a b, exists r, running_eq a b = Ok r.
Proof. exact running_eq_total. Qed.
Print Assumptions C86_never_raises.

(** Without empty sections equal diffs are the same list, and have the same CLI. *)
Theorem C86_same_partial : forall t1 t2 t3 t4 d d', Forall one_line_text (t1 ++ t2 ++ t3 ++ t4) -> get_diff false t1 t2 = Ok d -> get_diff false t3 t4 = Ok d' ->
  Filled d -> Filled d' -> running_eq (t1, t2) (t3, t4) = Ok true -> d = d' /\ get_cli false t1 t2 = get_cli false t3 t4.
Proof. exact running_eq_same. Qed.
Print Assumptions C86_same_partial.

Example C86_case : Forall one_line_text (eq1 ++ eq2 ++ eq3 ++ eq4) /\ get_diff false eq1 eq2 = Ok eq_diff /\ get_diff false eq3 eq4 = Ok eq_diff /\ Filled eq_diff /\
  running_eq (eq1, eq2) (eq3, eq4) = Ok true /\ running_eq (eq1, eq2) (eq2, eq1) = Ok false.
Proof. exact ex_same. Qed.

(** A diff is equal to an empty one exactly if it is false. *)
Theorem C86_empty : forall t1 t2 t3 t4, Forall one_line_text (t1 ++ t2 ++ t3 ++ t4) -> running_bool t3 t4 = Ok false ->
  (running_eq (t1, t2) (t3, t4) = Ok true <-> running_bool t1 t2 = Ok false).
Proof. exact running_eq_bool. Qed.
Print Assumptions C86_empty.

Example C86_empty_case : running_bool eq1 eq1 = Ok false /\ running_eq (eq2, eq2) (eq1, eq1) = Ok true /\ running_eq (eq1, eq2) (eq1, eq1) = Ok false.
Proof. vm_compute. auto. Qed.

(** With an empty section they need not: the CLIs of equal diffs differ. *)
Theorem C86_section_refuted : exists t1 t2 t3 d d', running_eq (t1, t2) (t3, t2) = Ok true /\ get_diff false t1 t2 = Ok d /\ get_diff false t3 t2 = Ok d' /\ d <> d' /\
  get_cli false t1 t2 = Ok ["aaa new-model"] /\ get_cli false t3 t2 = Ok ["no aaa"; "!"; "aaa new-model"].
Proof. exact ex_empty. Qed.
Print Assumptions C86_section_refuted.

(** Equal diffs, the same lists even, can have different reverse CLIs: the reverse diff
    of a section that was moved shows all of it. *)
Theorem C86_reverse_refuted : exists t1 t2 t3 t4 d, get_diff false t1 t2 = Ok d /\ get_diff false t3 t4 = Ok d /\ running_eq (t1, t2) (t3, t4) = Ok true /\
  get_cli true t1 t2 = Ok ["no vlan 2"; "!"; "vlan 2"; "  name a"; "  state b"] /\ get_cli true t3 t4 = Ok ["no vlan 2"; "!"; "vlan 2"; "  name a"].
Proof. exact ex_reverse. Qed.
Print Assumptions C86_reverse_refuted.
