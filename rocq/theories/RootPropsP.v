(** Example data and lemmas for PropsJoin.v. *)
From Coq Require Import String Ascii List Bool Arith ZArith.
From Verif Require Import Base XmlM CalcM NetconfM ConfigM DataSpec DataP DeltaSpec ConfigSpec EditSpec JoinSpec SumSpec CompatP CompareP DeltaPropsP EditP EditSemP AddP MergeP ExampleM ExampleDelta SumP SumPropsP ForeignP MergeOrderP RootP.
Import ListNotations.
Open Scope string_scope.
Open Scope list_scope.

Lemma sum_orders : forall s x d r p t ws, wfs s = true -> valid s x = true -> valid s d = true -> nc_add s x d = Ok r ->
  (UserOrder s r p t ws <-> JoinedAt s x d p t ws).
Proof.
  intros s x d r p t ws W Vx Vd E. apply (merge_orders p (height d) s x d r); auto using valid_validk, valid_edit_ok.
Qed.

Definition rule_id (n : string) : uid := ("rule", KTup [Some n]).

Lemma orders_case : exists r, nc_add ex_schema ex_a ex_b = Ok r /\
  UserOrder ex_schema ex_a [("sys", KNone)] "rule" (map rule_id ["10"; "20"]) /\
  UserOrder ex_schema ex_b [("sys", KNone)] "rule" (map rule_id ["5"; "10"; "15"]) /\
  UserOrder ex_schema r [("sys", KNone)] "rule" (map rule_id ["10"; "20"; "5"; "15"]).
Proof.
  assert (A : UserOrder ex_schema ex_a [("sys", KNone)] "rule" (map rule_id ["10"; "20"])) by (eapply get_order_eq; vm_compute; reflexivity).
  assert (B : UserOrder ex_schema ex_b [("sys", KNone)] "rule" (map rule_id ["5"; "10"; "15"])) by (eapply get_order_eq; vm_compute; reflexivity).
  destruct (merge_spec ex_schema ex_a ex_b) as (r & E & _); [vm_compute; reflexivity | intros [X | X]; discriminate | vm_compute; reflexivity | vm_compute; reflexivity |].
  exists r. split; auto. split; auto. split; auto. apply (sum_orders ex_schema ex_a ex_b r); auto; try (vm_compute; reflexivity).
  left. eexists. eexists. split; [exact A |]. split; [exact B |]. vm_compute. reflexivity.
Qed.

Definition lab_opts : opts := Opts PCMerge PRReplace PDDelete DMinimum 0.

Lemma lab_case : IsConfig ex_schema ex_lab1 /\ IsConfig ex_schema ex_lab2 /\ ~ RootKept lab_opts ex_schema ex_lab1 ex_lab2 /\
  ~ RootKept lab_opts ex_schema ex_lab2 ex_lab1 /\ Extends ex_schema ex_lab2 ex_lab1 /\ ~ Extends ex_schema ex_lab1 ex_lab2.
Proof.
  assert (C1 : IsConfig ex_schema ex_lab1) by (repeat split; vm_compute; reflexivity).
  assert (C2 : IsConfig ex_schema ex_lab2) by (repeat split; vm_compute; reflexivity).
  assert (K : forall a b, leaf_lists_differ ex_schema (xkids b) (xkids a) = Ok true -> valid ex_schema a = true -> valid ex_schema b = true ->
    ~ RootKept lab_opts ex_schema a b).
  { intros a b D Va Vb [X | [[X _] | X]]; try discriminate. apply (differ_iff ex_schema a b Va Vb) in D. auto. }
  assert (W : wfs ex_schema = true) by (vm_compute; reflexivity).
  split; auto. split; auto. split; [apply K; vm_compute; reflexivity |]. split; [apply K; vm_compute; reflexivity |]. split.
  - apply (absorbs ex_schema ex_lab2 ex_lab1); auto. exists ex_lab1. split; [vm_compute; reflexivity |]. split; auto.
    destruct (cmp_eq_iff ex_schema ex_lab1 ex_lab1) as (e & E1 & E2); [vm_compute; reflexivity | vm_compute; reflexivity | reflexivity |].
    assert (E : e = true) by (vm_compute in E1; congruence). subst e. split; auto. apply E2. auto.
  - intro X. apply (absorbs ex_schema ex_lab1 ex_lab2) in X; auto. destruct X as (x & E & _ & _ & Q).
    vm_compute in E. injection E as <-. vm_compute in Q. discriminate.
Qed.
