(** C15, C58: what the nodes of a delta denote. *)
From Coq Require Import String Ascii List Bool Arith ZArith Lia Permutation.
From Verif Require Import Base XmlM CalcM NetconfM ConfigM DataSpec DeltaSpec ConfigSpec EditSpec OpsP ExampleM ExampleDelta.
Import ListNotations.
Open Scope string_scope.
Open Scope list_scope.

(** ** C15
    Whatever the options and the configs: what is marked delete or remove is in the
    source and not in the destination; what is marked create is in the destination and
    not in the source. *)
Theorem C15_operations : forall o s a b d,
  wfs s = true -> IsConfig s a -> IsConfig s b ->
  delta_nc s (Delta a b o) = Ok d -> forall p s' n, At s d p s' n -> p <> [] ->
    (edit_op n = OpDelete \/ edit_op n = OpRemove -> Present s a p /\ ~ Present s b p) /\
    (edit_op n = OpCreate -> ~ Present s a p /\ Present s b p).
Proof. exact delta_ops. Qed.
Print Assumptions C15_operations.

(** There always is a delta, unless an entry of a user-ordered leaf-list has no text:
    then a TypeError can be raised. *)
Theorem C15_delta_total : forall o s a b,
  wfs s = true -> IsConfig s a -> IsConfig s b ->
  (exists d, delta_nc s (Delta a b o) = Ok d) \/
  (delta_nc s (Delta a b o) = Err TypeError /\ (texted s a = false \/ texted s b = false)).
Proof. exact delta_total. Qed.
Print Assumptions C15_delta_total.

(** ** C58
    Every node of a delta has an identity, for a list entry its keys, and it is the
    identity of a node of the source or of the destination. *)
Theorem C58_keys : forall o s a b d,
  wfs s = true -> IsConfig s a -> IsConfig s b ->
  delta_nc s (Delta a b o) = Ok d -> forall s' n, Within s d s' n ->
    exists p, At s d p s' n /\ (Present s a p \/ Present s b p).
Proof. exact delta_keys. Qed.
Print Assumptions C58_keys.

(** Keys with an apostrophe *)
Example C58_case : IsConfig ex_top ex_top_quote /\ wfs ex_top = true /\
  exists d k, delta_nc ex_top (config_sub ex_top_quote (e_config [])) = Ok d /\ nth_error (xkids d) 0 = Some k /\
    xtag k = "rule" /\ key_tuple (match schema_child ex_top "rule" with Ok c => c | Err _ => ex_top end) k = Ok [Some "it's"].
Proof.
  split; [repeat split; vm_compute; reflexivity |]. split; [vm_compute; reflexivity |].
  do 2 eexists. split; [vm_compute; reflexivity |]. split; [vm_compute; reflexivity |]. split; vm_compute; reflexivity.
Qed.

Definition ex_ops : opts := Opts PCCreate PRMerge PDDelete DMinimum 0.
Example C15_case : IsConfig ex_schema ex_a /\ IsConfig ex_schema ex_b /\ wfs ex_schema = true /\
  exists d, delta_nc ex_schema (Delta ex_a ex_b ex_ops) = Ok d /\
    In ("user", "ann", "delete") (map (fun x => (xtag x, match find_kid "name" (xkids x) with Some k => match xtext k with Some t => t | None => "" end | None => "" end,
                                       match get_attr operation_tag x with Some o => o | None => "" end)) (flat_map xkids (xkids d))) /\
    In ("user", "eve", "create") (map (fun x => (xtag x, match find_kid "name" (xkids x) with Some k => match xtext k with Some t => t | None => "" end | None => "" end,
                                       match get_attr operation_tag x with Some o => o | None => "" end)) (flat_map xkids (xkids d))).
Proof.
  split; [repeat split; vm_compute; reflexivity |]. split; [repeat split; vm_compute; reflexivity |]. split; [vm_compute; reflexivity |].
  eexists. split; [vm_compute; reflexivity |]. split; vm_compute; tauto.
Qed.
