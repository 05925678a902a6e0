(** C01-C04, C14: comparison of configs. *)
From Coq Require Import String Ascii List Bool Arith ZArith Lia Permutation.
From Verif Require Import Base XmlM CalcM NetconfM ConfigM DataSpec CompareSpec CompareP DataP ExampleM.
Import ListNotations.
Open Scope string_scope.
Open Scope list_scope.

(** C01 *)
Theorem C01_eq_is_semantic : forall s x y,
  valid s x = true -> valid s y = true -> xtag x = xtag y ->
  exists b, cmp_eq s x y = Ok b /\ (b = true <-> SameData s x y).
Proof. exact cmp_eq_iff. Qed.
Print Assumptions C01_eq_is_semantic.

Example C01_case : valid ex_schema ex_a = true /\ valid ex_schema ex_a' = true /\ xtag ex_a = xtag ex_a' /\
  cmp_eq ex_schema ex_a ex_a' = Ok true /\ cmp_eq ex_schema ex_a ex_b = Ok false /\ ex_a <> ex_a'.
Proof. repeat split; try (vm_compute; reflexivity). discriminate. Qed.

(** C02 *)
Theorem C02_le_is_containment : forall s x y,
  valid s x = true -> valid s y = true -> xtag x = xtag y ->
  exists b, cmp_le s x y = Ok b /\ (b = true <-> Contained s x y).
Proof. exact cmp_le_iff. Qed.
Print Assumptions C02_le_is_containment.

Theorem C02_le_partial_order :
  (forall s x, valid s x = true -> cmp_le s x x = Ok true) /\
  (forall s x y z, cmp_le s x y = Ok true -> cmp_le s y z = Ok true -> cmp_le s x z = Ok true) /\
  (forall s x y, cmp_le s x y = Ok true -> cmp_le s y x = Ok true -> cmp_eq s x y = Ok true).
Proof. exact le_partial_order. Qed.
Print Assumptions C02_le_partial_order.

Definition ex_small : xml :=
  e_config [ e_node "sys" [ ex_rule "20" "deny"; e_leaf "dns" "1.1.1.1"; e_leaf "host" "r1" ] ].
Example C02_case : valid ex_schema ex_small = true /\ cmp_le ex_schema ex_small ex_a = Ok true /\
  cmp_le ex_schema ex_a ex_a' = Ok true /\ cmp_le ex_schema ex_a ex_small = Ok false.
Proof. repeat split; vm_compute; reflexivity. Qed.

(** C03 *)
Theorem C03_operators_agree : forall s x y le ge,
  cmp_le s x y = Ok le -> cmp_ge s x y = Ok ge ->
  cmp_eq s x y = Ok (le && ge) /\ cmp_eq s y x = Ok (le && ge) /\
  cmp_ne s x y = Ok (negb (le && ge)) /\
  cmp_lt s x y = Ok (le && negb ge) /\ cmp_gt s x y = Ok (ge && negb le) /\
  cmp_gt s x y = cmp_lt s y x /\ cmp_ge s x y = cmp_le s y x.
Proof. exact cmp_ops. Qed.
Print Assumptions C03_operators_agree.

(** Also if one of the two directions raises. *)
Theorem C03_eq_ne : forall s x y b, cmp_eq s x y = Ok b <-> cmp_ne s x y = Ok (negb b).
Proof. exact cmp_eq_ne. Qed.
Print Assumptions C03_eq_ne.

Example C03_case : cmp_le ex_schema ex_small ex_a = Ok true /\ cmp_ge ex_schema ex_small ex_a = Ok false.
Proof. split; vm_compute; reflexivity. Qed.

(** C04 *)
Theorem C04_bool : forall s x, valid s x = true -> sty s = TRoot -> xtag x = config_tag ->
  config_bool s x = Ok (negb (no_kids x)).
Proof. exact config_bool_valid. Qed.
Print Assumptions C04_bool.

(** Also for trees that are not valid, whenever the call returns. *)
Theorem C04_bool_returns : forall s x b,
  xtag x = config_tag -> xtext x = None -> xattrs x = [] ->
  config_bool s x = Ok b -> (b = true <-> xkids x <> []).
Proof. exact config_bool_spec. Qed.
Print Assumptions C04_bool_returns.

Example C04_case : valid ex_schema ex_a = true /\ sty ex_schema = TRoot /\
  config_bool ex_schema ex_a = Ok true /\ config_bool ex_schema empty_config = Ok false.
Proof. repeat split; vm_compute; reflexivity. Qed.

(** C14. Missing: with preferred_replace='replace', subtraction compares the
    leaf-lists first and, if one differs, returns without looking at the other
    children. *)
Theorem C14_add_rejects_ambiguous : forall s x y, Ambiguous s x \/ Ambiguous s y ->
  exists e, nc_add s x y = Err e.
Proof. exact ambiguous_add. Qed.
Print Assumptions C14_add_rejects_ambiguous.

Theorem C14_sub_rejects_ambiguous_partial : forall o s x y, Ambiguous s x \/ Ambiguous s y ->
  o_replace o = PRMerge -> exists e, nc_sub o s x y = Err e.
Proof. exact ambiguous_sub. Qed.
Print Assumptions C14_sub_rejects_ambiguous_partial.

Theorem C14_compare_rejects_ambiguous : forall s x y, Ambiguous s x \/ Ambiguous s y ->
  xtag x = xtag y -> xtext x = None -> xtext y = None -> xattrs x = [] ->
  exists e, cmp_le s x y = Err e.
Proof. exact ambiguous_le_err. Qed.
Print Assumptions C14_compare_rejects_ambiguous.

(** Ambiguity at any depth: never reported equal. *)
Theorem C14_never_equal : forall s x y p s' n, At s x p s' n -> Ambiguous s' n ->
  cmp_le s x y <> Ok true /\ cmp_eq s x y <> Ok true /\ cmp_eq s y x <> Ok true.
Proof. exact ambiguous_deep. Qed.
Print Assumptions C14_never_equal.

Definition ex_dup : xml := e_config [ e_leaf "label" "x"; e_leaf "banner" "b"; e_leaf "label" "x" ].
Example C14_case : Ambiguous ex_schema ex_dup.
Proof.
  left. exists 0, 2, (e_leaf "label" "x"), (e_leaf "label" "x"), (s_ll "label" false), ("label", KText (Some "x")).
  repeat split; auto.
  - exists (s_ll "label" false). split; [right; right; left; reflexivity |]. constructor; discriminate.
  - constructor. reflexivity.
  - constructor. reflexivity.
Qed.

Theorem C14_sub_rejects_ambiguous_refuted : exists o s x y r,
  Ambiguous s x /\ nc_sub o s x y = Ok r.
Proof.
  exists (Opts PCMerge PRReplace PDDelete DMinimum 0), ex_schema,
    (e_config [ e_leaf "banner" "1"; e_leaf "banner" "2"; e_leaf "label" "x" ]),
    (e_config [ e_leaf "label" "y" ]).
  eexists. split; [| vm_compute; reflexivity].
  left. exists 0, 1, (e_leaf "banner" "1"), (e_leaf "banner" "2"), (s_leaf "banner"), ("banner", KNone).
  repeat split; auto.
  - exists (s_leaf "banner"). split; [right; left; reflexivity |]. constructor; discriminate.
  - apply id_other; discriminate.
  - apply id_other; discriminate.
Qed.
Print Assumptions C14_sub_rejects_ambiguous_refuted.
