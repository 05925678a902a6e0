(** C45 and C46: the difference of two compiled models. *)
From Coq Require Import String List Bool.
From Verif Require Import Base BaseP XmlM MDiffM MDiffSpec MDiffP MDiffPropsP.
Import ListNotations.
Open Scope string_scope.
Open Scope list_scope.

(** C45: whenever the comparison of two models succeeds, its result is empty exactly if
    both have the same nodes with the same attributes, up to the order of siblings. *)
Theorem C45_empty_iff_equal : forall t1 t2 d, model_diff false t1 t2 = Ok d ->
  (nonempty d = false <-> SameNodes t1 t2).
Proof. exact diff_empty. Qed.
Print Assumptions C45_empty_iff_equal.
Example C45_empty_case : (exists d, model_diff false md_old md_turned = Ok d /\ nonempty d = false) /\
  (exists d, model_diff false md_old md_new = Ok d /\ nonempty d = true).
Proof. split; [exact md_turned_ok | exists md_diff; split; [exact md_ok | reflexivity]]. Qed.

(** C45: a model compared with itself, as the same object, gives an empty diff. *)
Theorem C45_itself : forall t, exists d, model_diff true t t = Ok d /\ nonempty d = false.
Proof. exact diff_itself. Qed.
Print Assumptions C45_itself.

(** C45: the comparison succeeds if siblings have distinct tags and all nodes have a
    type. *)
Theorem C45_succeeds : forall b t1 t2, xtag t1 = xtag t2 -> DistinctTags t1 -> DistinctTags t2 -> Typed t2 ->
  exists d, model_diff b t1 t2 = Ok d.
Proof. exact diff_total. Qed.
Print Assumptions C45_succeeds.
Example C45_succeeds_case : xtag md_old = xtag md_new /\ DistinctTags md_old /\ DistinctTags md_new /\ Typed md_new.
Proof. exact (conj eq_refl (conj md_old_distinct (conj md_new_distinct md_new_typed))). Qed.

(** C46: the nodes marked as added are those of the second model at paths that the
    first one does not have. *)
Theorem C46_marked_added : forall t1 t2 d p, model_diff false t1 t2 = Ok d -> LeavesEnd t2 ->
  (Marked d p "added" <-> Added t1 t2 p).
Proof. exact diff_added. Qed.
Print Assumptions C46_marked_added.
Example C46_marked_added_case : model_diff false md_old md_new = Ok md_diff /\ LeavesEnd md_new /\
  Added md_old md_new ["{u}box"; "{u}new"].
Proof. exact (conj md_ok (conj (data_ends _ md_new_data) md_added)). Qed.

(** C46: the nodes marked as deleted are those of the first model at paths that the
    second one does not have, if no node with children became a leaf. *)
Theorem C46_marked_deleted_partial : forall t1 t2 d p, model_diff false t1 t2 = Ok d -> KeepsKind t1 t2 ->
  (Marked d p "deleted" <-> Deleted t1 t2 p).
Proof. exact diff_deleted. Qed.
Print Assumptions C46_marked_deleted_partial.
Example C46_marked_deleted_case : model_diff false md_old md_new = Ok md_diff /\ KeepsKind md_old md_new /\
  Deleted md_old md_new ["{u}gone"; "{u}x"].
Proof. exact (conj md_ok (conj md_keeps md_deleted)). Qed.

(** C46: the nodes marked as modified are the leaves and leaf-lists that are in both
    models and differ. *)
Theorem C46_marked_modified : forall t1 t2 d p, model_diff false t1 t2 = Ok d -> LeavesEnd t2 -> DistinctTags t1 ->
  (Marked d p "modified" <-> Modified t1 t2 p).
Proof. exact diff_modified. Qed.
Print Assumptions C46_marked_modified.
Example C46_marked_modified_case : model_diff false md_old md_new = Ok md_diff /\ LeavesEnd md_new /\ DistinctTags md_old /\
  Modified md_old md_new ["{u}box"; "{u}mtu"].
Proof. exact (conj md_ok (conj (data_ends _ md_new_data) (conj md_old_distinct md_modified))). Qed.

(** C46: for models of data nodes without empty containers, lists, choices and cases,
    [added] is None exactly if nothing was added; else it shows exactly the added nodes and
    their ancestors. The same for [deleted] and [modified]. *)
Theorem C46_added_partial : forall t1 t2 d, model_diff false t1 t2 = Ok d -> DataOnly t1 -> DataOnly t2 ->
  (part "added" d = None <-> forall p, ~ Added t1 t2 p) /\
  (forall p, Shown (part "added" d) p <-> p <> [] /\ exists q, Added t1 t2 (p ++ q)).
Proof. exact part_added. Qed.
Print Assumptions C46_added_partial.
Theorem C46_deleted_partial : forall t1 t2 d, model_diff false t1 t2 = Ok d -> DataOnly t1 -> DataOnly t2 -> KeepsKind t1 t2 ->
  (part "deleted" d = None <-> forall p, ~ Deleted t1 t2 p) /\
  (forall p, Shown (part "deleted" d) p <-> p <> [] /\ exists q, Deleted t1 t2 (p ++ q)).
Proof. exact part_deleted. Qed.
Print Assumptions C46_deleted_partial.
Theorem C46_modified_partial : forall t1 t2 d, model_diff false t1 t2 = Ok d -> DataOnly t1 -> DataOnly t2 -> DistinctTags t1 ->
  (part "modified" d = None <-> forall p, ~ Modified t1 t2 p) /\
  (forall p, Shown (part "modified" d) p <-> p <> [] /\ exists q, Modified t1 t2 (p ++ q)).
Proof. exact part_modified. Qed.
Print Assumptions C46_modified_partial.
Example C46_parts_case : model_diff false md_old md_new = Ok md_diff /\ DataOnly md_old /\ DataOnly md_new /\
  KeepsKind md_old md_new /\ DistinctTags md_old /\ Added md_old md_new ["{u}box"; "{u}new"] /\
  Deleted md_old md_new ["{u}gone"; "{u}x"] /\ Modified md_old md_new ["{u}box"; "{u}mtu"].
Proof.
  exact (conj md_ok (conj md_old_data (conj md_new_data (conj md_keeps (conj md_old_distinct (conj md_added (conj md_deleted md_modified))))))).
Qed.

(** C46 fails for an added container without children: it is not in [added]. *)
Theorem C46_empty_container_refuted : exists t1 t2 d p,
  model_diff false t1 t2 = Ok d /\ Added t1 t2 p /\ part "added" d = None.
Proof. exact empty_container. Qed.
Print Assumptions C46_empty_container_refuted.

(** C46 fails for an rpc: a modified leaf of its input is shown as added and as
    deleted. *)
Theorem C46_rpc_refuted : exists t1 t2 d p, model_diff false t1 t2 = Ok d /\
  (forall q, ~ Added t1 t2 q) /\ (forall q, ~ Deleted t1 t2 q) /\
  Shown (part "added" d) p /\ Shown (part "deleted" d) p.
Proof. exact rpc_shown. Qed.
Print Assumptions C46_rpc_refuted.

(** C46 fails for a changed attribute of a container: no part shows it. *)
Theorem C46_attribute_refuted : exists t1 t2 d, model_diff false t1 t2 = Ok d /\ nonempty d = true /\
  part "added" d = None /\ part "deleted" d = None /\ part "modified" d = None.
Proof. exact attribute_lost. Qed.
Print Assumptions C46_attribute_refuted.

(** C46 fails for a container that became a leaf: its children are not in [deleted]. *)
Theorem C46_became_leaf_refuted : exists t1 t2 d p, model_diff false t1 t2 = Ok d /\ DataOnly t1 /\ DataOnly t2 /\
  Deleted t1 t2 p /\ part "deleted" d = None.
Proof. exact became_leaf. Qed.
Print Assumptions C46_became_leaf_refuted.
