(** Properties C06, C07, C12: deltas whose root is replaced, marks of minimum-replace, and the
    order of merged entries. *)
From Coq Require Import String Ascii List Bool Arith ZArith.
From Verif Require Import Base XmlM CalcM NetconfM ConfigM DataSpec DeltaSpec ConfigSpec EditSpec JoinSpec SumSpec CompatP ExampleM ExampleDelta ForeignP RootP RootPropsP.
Import ListNotations.
Open Scope string_scope.
Open Scope list_scope.

(** ** C12
    In the merge of two valid trees the user-ordered entries of the first come first, in their
    order, followed by what only the second has, in its order. *)
Theorem C12_order : forall s x d r p t ws, wfs s = true -> valid s x = true -> valid s d = true -> nc_add s x d = Ok r ->
  (UserOrder s r p t ws <-> JoinedAt s x d p t ws).
Proof. exact sum_orders. Qed.
Print Assumptions C12_order.

(** Rules 10, 20 merged with rules 5, 10, 15 *)
Example C12_order_case : exists r, nc_add ex_schema ex_a ex_b = Ok r /\
  UserOrder ex_schema ex_a [("sys", KNone)] "rule" (map rule_id ["10"; "20"]) /\
  UserOrder ex_schema ex_b [("sys", KNone)] "rule" (map rule_id ["5"; "10"; "15"]) /\
  UserOrder ex_schema r [("sys", KNone)] "rule" (map rule_id ["10"; "20"; "5"; "15"]).
Proof. exact orders_case. Qed.

(** [a + b] is [b] exactly if [b] has all that [a] has and its entries begin with those of
    [a]; leaf-lists with defaults included. *)
Theorem C12_absorbs : forall s a b, wfs s = true -> sty s = TRoot -> IsConfig s a -> IsConfig s b ->
  (Reaches s (config_add s a b) b <-> Extends s a b).
Proof. exact absorbs. Qed.
Print Assumptions C12_absorbs.

(** ** C06
    Where the operation replace is put on the root it is ignored, and the sum is that of the
    two configs. So the destination is reached exactly if it extends the source. *)
Theorem C06_root_sum : forall o s a b, wfs s = true -> sty s = TRoot -> IsConfig s a -> IsConfig s b -> ~ RootKept o s a b ->
  config_add_delta s a (Delta a b o) = config_add s a b /\
  (Reaches s (config_add_delta s a (Delta a b o)) b <-> Extends s a b).
Proof. intros o s a b W R Ca Cb N. exact (conj (root_replaced o s a b W R Ca Cb N) (root_exactly o s a b W R Ca Cb N)). Qed.
Print Assumptions C06_root_sum.

(** All options in one statement *)
Theorem C06_all_options : forall o s a b, wfs s = true -> sty s = TRoot -> IsConfig s a -> IsConfig s b ->
  orderable s a = true -> orderable s b = true -> NoSwitch s a a -> NoSwitch s b b ->
  (Reaches s (config_add_delta s a (Delta a b o)) b <-> (RootKept o s a b /\ Fits o s a b) \/ (~ RootKept o s a b /\ Extends s a b)).
Proof. exact reaches_all. Qed.
Print Assumptions C06_all_options.

(** Labels x, y and label x: from the second to the first the destination is reached, not in
    the other direction. *)
Example C06_root_case : IsConfig ex_schema ex_lab1 /\ IsConfig ex_schema ex_lab2 /\ ~ RootKept lab_opts ex_schema ex_lab1 ex_lab2 /\
  ~ RootKept lab_opts ex_schema ex_lab2 ex_lab1 /\ Extends ex_schema ex_lab2 ex_lab1 /\ ~ Extends ex_schema ex_lab1 ex_lab2.
Proof. exact lab_case. Qed.

(** ** C07
    The marks of diff_type='minimum-replace' have no effect on the sum: it is that of
    diff_type='minimum', for all trees, source, destination and depths. *)
Theorem C07_marks_ignored : forall c r d n m s x a b,
  config_add_delta s x (Delta a b (Opts c r d DMinimumReplace n)) = config_add_delta s x (Delta a b (Opts c r d DMinimum m)).
Proof. exact marks_ignored. Qed.
Print Assumptions C07_marks_ignored.

(** Although the deltas differ *)
Example C07_marks_case : delta_nc ex_schema (Delta ex_a ex_b (Opts PCMerge PRMerge PDDelete DMinimumReplace 0)) <>
  delta_nc ex_schema (Delta ex_a ex_b (Opts PCMerge PRMerge PDDelete DMinimum 0)) /\
  config_add_delta ex_schema ex_a (Delta ex_a ex_b (Opts PCMerge PRMerge PDDelete DMinimumReplace 0)) <> Err ModelError.
Proof. split; vm_compute; discriminate. Qed.
