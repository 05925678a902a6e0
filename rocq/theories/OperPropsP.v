(** Example operands for C78. *)
From Coq Require Import String Ascii List Bool Arith ZArith Lia.
From Verif Require Import Base XmlM CalcM NetconfM ConfigM DataSpec DeltaSpec MoveSpec ConfigSpec CompatP TagM MDiffM CompatM CompatSpec CompatDevP
  CompatPropsP OperM OperSpec OperP.
Import ListNotations.
Open Scope string_scope.
Open Scope list_scope.

Definition ox_a : cfg := Cfg cx_d1 cx_a.
Definition ox_b : cfg := Cfg cx_d2 cx_b.
(** Two entries that change their places *)
Definition ox_c : cfg := Cfg cx_d1 (cx_cfg [cx_entry "bob"; cx_entry "ann"]).
Definition ox_add : list xml := [Elem "{u}sys" None [] [cx_leaf "{u}dns" "1.1.1.1"; Elem "{u}user" None [(operation_tag, "delete")] [cx_leaf "{u}name" "bob"]]].
Definition ox_sum : cfg := Cfg cx_d1 (cx_cfg [cx_entry "ann"; cx_leaf "{u}dns" "1.1.1.1"]).

Lemma ox_suited : Suited ox_a ox_b.
Proof.
  split; [exact cx_fine1 |]. split; [exact cx_fine2 |]. split; [exact cx_stored1 |]. split; [exact cx_stored2 |].
  split; [exact cx_local |]. split; [apply local_of; vm_compute; reflexivity |]. split; [discriminate |].
  split; [exact cx_roots1 |]. split; [exact cx_roots2 |]. split; [exact cx_agree |]. intros _.
  split; [exact cx_diffable1 |]. split; [exact cx_diffable2 | exact cx_loadable].
Qed.
Lemma ox_proper_a : Proper ox_a. Proof. repeat split; vm_compute; reflexivity. Qed.
Lemma ox_proper_b : Proper ox_b. Proof. repeat split; vm_compute; reflexivity. Qed.
Lemma ox_proper_sum : Proper ox_sum. Proof. repeat split; vm_compute; reflexivity. Qed.
Lemma ox_back : ConfigSpec.Comparable (g_schema ox_b) (g_ele ox_b) (g_ele ox_a).
Proof.
  split; [vm_compute; reflexivity |]. split; [vm_compute; reflexivity |].
  split; [apply inplace_Ends | apply (compat_NoSwitch true)]; vm_compute; reflexivity.
Qed.
Lemma ox_comparable_sum : ConfigSpec.Comparable (g_schema ox_a) (g_ele ox_a) (g_ele ox_sum).
Proof.
  split; [vm_compute; reflexivity |]. split; [vm_compute; reflexivity |].
  split; [apply inplace_Ends | apply (compat_NoSwitch true)]; vm_compute; reflexivity.
Qed.
Lemma ox_suited_sum : Suited ox_a ox_sum.
Proof.
  apply suited_one; [reflexivity | exact cx_fine1 | exact cx_stored1 | exact cx_local | exact cx_roots1 | exact cx_roots1].
Qed.

(** The same on devices that are not compatible *)
Definition ox_e1 : cfg := Cfg cx_e1 cx_12.
Definition ox_e1' : cfg := Cfg cx_e1 cx_21.
Definition ox_e2 : cfg := Cfg cx_e2 cx_12.
