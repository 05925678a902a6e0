(** C95: opaque nodes (anyxml, anydata) in deltas and sums. *)
From Coq Require Import String List Bool Arith ZArith Lia.
From Verif Require Import Base XmlM CalcM CalcP NetconfM ConfigM DataSpec DataP DeltaSpec ConfigSpec OpaqueSpec OpaqueP ExampleM.
Import ListNotations.
Open Scope string_scope.
Open Scope list_scope.

(** ** C95
    Whatever the configs and options, a delta is the one of the schema whose opaque nodes
    are leaves, or the calculation raises ModelError. *)
Theorem C95_or : forall o s a b, delta_nc s (Delta a b o) = delta_nc (as_leaves s) (Delta a b o) \/ delta_nc s (Delta a b o) = Err ModelError.
Proof. exact delta_R. Qed.
Print Assumptions C95_or.

(** Between configs whose opaque nodes are texts, all deltas can be calculated where no
    opaque node is in both configs below nodes that differ; with preferred_replace='merge'
    and a diff_type other than 'replace', nowhere else. *)
Theorem C95_delta : forall o s a b, wfs (as_leaves s) = true -> IsConfig (as_leaves s) a -> IsConfig (as_leaves s) b ->
  texted (as_leaves s) a = true -> texted (as_leaves s) b = true ->
  (exists d, delta_nc (as_leaves s) (Delta a b o) = Ok d /\
    (delta_nc s (Delta a b o) = Ok d \/ delta_nc s (Delta a b o) = Err ModelError) /\
    (~ Meets s a b -> delta_nc s (Delta a b o) = Ok d)) /\
  (o_type o <> DReplace -> o_replace o = PRMerge -> (delta_nc s (Delta a b o) = Err ModelError <-> Meets s a b)).
Proof. exact delta_outcome. Qed.
Print Assumptions C95_delta.

(** A sum has the opaque children of its first operand, whatever the second says. *)
Theorem C95_sum : forall s x y r t, nc_add s x y = Ok r -> Opaque s t ->
  filter (fun c => String.eqb (xtag c) t) (xkids r) = filter (fun c => String.eqb (xtag c) t) (xkids x).
Proof. exact sum_opaque. Qed.
Print Assumptions C95_sum.

Definition op_any (t : string) : snode := SNode (SInfo t TOther false false None false [] "" "read-write") [].
Definition op_schema : snode := s_root [ s_cont "sys" [ s_leaf "host"; op_any "blob" ]; s_list "port" false ["id"] [ s_key "id"; op_any "raw" ]; op_any "note" ].
Definition op_cfg (h : string) (blob ports top : list xml) : xml := e_config (e_node "sys" (e_leaf "host" h :: blob) :: ports ++ top).
Definition op_port (r : list xml) : xml := e_node "port" (e_leaf "id" "1" :: r).
Definition op_a : xml := op_cfg "r1" [] [op_port [e_leaf "raw" "k"]] [].
(** The blob and the note are new; the raw texts are in both configs, in equal entries. *)
Definition op_b : xml := op_cfg "r2" [e_leaf "blob" "v"] [op_port [e_leaf "raw" "k"]] [e_leaf "note" "n"].
(** The raw texts are in both configs, in entries that differ. *)
Definition op_c : xml := op_cfg "r2" [] [op_port [e_leaf "raw" "K"]] [].

Example C95_case : wfs (as_leaves op_schema) = true /\
  IsConfig (as_leaves op_schema) op_a /\ IsConfig (as_leaves op_schema) op_b /\ IsConfig (as_leaves op_schema) op_c /\
  texted (as_leaves op_schema) op_a = true /\ texted (as_leaves op_schema) op_b = true /\ texted (as_leaves op_schema) op_c = true /\
  (exists d, delta_nc op_schema (Delta op_a op_b default_opts) = Ok d) /\ ~ Meets op_schema op_a op_b /\
  delta_nc op_schema (Delta op_a op_c default_opts) = Err ModelError /\ Meets op_schema op_a op_c /\
  Opaque op_schema "note" /\ exists r, nc_add op_schema op_a op_b = Ok r /\ r <> op_a.
Proof.
  assert (H1 : wfs (as_leaves op_schema) = true) by (vm_compute; reflexivity).
  assert (H2 : IsConfig (as_leaves op_schema) op_a) by (repeat split; vm_compute; reflexivity).
  assert (H3 : IsConfig (as_leaves op_schema) op_b) by (repeat split; vm_compute; reflexivity).
  assert (H4 : IsConfig (as_leaves op_schema) op_c) by (repeat split; vm_compute; reflexivity).
  assert (H5 : texted (as_leaves op_schema) op_a = true) by (vm_compute; reflexivity).
  assert (H6 : texted (as_leaves op_schema) op_b = true) by (vm_compute; reflexivity).
  assert (H7 : texted (as_leaves op_schema) op_c = true) by (vm_compute; reflexivity).
  assert (H8 : exists d, delta_nc op_schema (Delta op_a op_b default_opts) = Ok d) by (eexists; vm_compute; reflexivity).
  assert (H9 : delta_nc op_schema (Delta op_a op_c default_opts) = Err ModelError) by (vm_compute; reflexivity).
  do 7 (split; [assumption |]). split; [exact H8 |]. split.
  { intro M. destruct (delta_outcome default_opts op_schema op_a op_b H1 H2 H3 H5 H6) as (_ & G). destruct H8 as (d & H8).
    apply (G ltac:(discriminate) eq_refl) in M. rewrite M in H8. discriminate. }
  split; [exact H9 |]. split.
  { destruct (delta_outcome default_opts op_schema op_a op_c H1 H2 H4 H5 H7) as (_ & G). apply (G ltac:(discriminate) eq_refl). exact H9. }
  split.
  - exists (op_any "note"). split; [| reflexivity]. split; [reflexivity |]. eexists. split; [right; right; left; reflexivity | apply th_here; discriminate].
  - eexists. split; [vm_compute; reflexivity | discriminate].
Qed.

(** A config with an opaque child equals itself, but has no delta with itself. *)
Theorem C95_refuted_delta : exists s a, wfs (as_leaves s) = true /\ IsConfig (as_leaves s) a /\ cmp_eq s a a = Ok true /\
  delta_nc s (config_sub a a) = Err ModelError.
Proof. exists op_schema, op_b. split; [vm_compute; reflexivity |]. split; [repeat split; vm_compute; reflexivity |]. split; vm_compute; reflexivity. Qed.
Print Assumptions C95_refuted_delta.

(** The delta from one config to another need not lead there: opaque nodes to add are not
    added, opaque nodes to delete are not deleted. *)
Theorem C95_refuted_sum : exists s a b, wfs (as_leaves s) = true /\ IsConfig (as_leaves s) a /\ IsConfig (as_leaves s) b /\
  (exists r, config_add_delta s a (config_sub b a) = Ok r /\ cmp_eq s r b = Ok false) /\
  (exists r, config_add_delta s b (config_sub a b) = Ok r /\ cmp_eq s r a = Ok false).
Proof.
  exists op_schema, op_a, op_b. split; [vm_compute; reflexivity |]. split; [repeat split; vm_compute; reflexivity |]. split; [repeat split; vm_compute; reflexivity |].
  split; eexists; split; vm_compute; reflexivity.
Qed.
Print Assumptions C95_refuted_sum.
