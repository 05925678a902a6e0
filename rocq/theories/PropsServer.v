(** C16: a server that executes the delta. *)
From Coq Require Import String Ascii List Bool Arith ZArith Lia.
From Verif Require Import Base XmlM CalcM NetconfM ConfigM DataSpec DeltaSpec EditSpec ConfigSpec CompatP ServerSpec
  ServerPropsP ExampleM ExampleDelta.
Import ListNotations.
Open Scope string_scope.
Open Scope list_scope.

(** ** C16
    Full statement: for all configs [a] and [b] and all options, a server that holds [a]
    and executes [b - a] holds [b], the order of user-ordered entries included.
    Reordered entries and case switches are covered. Missing from the proved part:
    entries that cannot be named in a key or value attribute, preferred_replace='replace'
    with differing leaf-lists directly below the root, and, unless
    preferred_delete='remove' is chosen, case switches in nested choices or
    with diff_type='replace'. For the last two the full statement is false. *)
Theorem C16_server_reaches_partial : forall o s a b,
  wfs s = true -> cases_ok s = true -> sty s = TRoot -> IsConfig s a -> IsConfig s b ->
  orderable s a = true -> orderable s b = true -> one_case s a = true -> one_case s b = true ->
  RootKept o s a b -> Switchable o s a b ->
  exists d r, delta_nc s (Delta a b o) = Ok d /\ serve s d (xkids a) = Some r /\ SameData s (e_config r) b.
Proof. exact server_reaches. Qed.
Print Assumptions C16_server_reaches_partial.

(** A pair that switches a case, reorders, creates and deletes; default options *)
Example C16_case : IsConfig ex_schema ex_srv_a /\ IsConfig ex_schema ex_srv_b /\ cases_ok ex_schema = true /\
  orderable ex_schema ex_srv_a = true /\ orderable ex_schema ex_srv_b = true /\
  one_case ex_schema ex_srv_a = true /\ one_case ex_schema ex_srv_b = true /\
  RootKept default_opts ex_schema ex_srv_a ex_srv_b /\ Switchable default_opts ex_schema ex_srv_a ex_srv_b /\
  exists d r, delta_nc ex_schema (Delta ex_srv_a ex_srv_b default_opts) = Ok d /\
    serve ex_schema d (xkids ex_srv_a) = Some r /\ r <> xkids ex_srv_a.
Proof.
  split; [repeat split; vm_compute; reflexivity |]. split; [repeat split; vm_compute; reflexivity |].
  repeat (split; [vm_compute; reflexivity |]). split; [left; reflexivity |].
  split; [right; left; split; [discriminate | vm_compute; reflexivity] |].
  eexists. eexists. split; [vm_compute; reflexivity |]. split; [vm_compute; reflexivity |]. discriminate.
Qed.

(** With preferred_delete='remove' every case switch is covered. *)
Theorem C16_server_reaches_remove_partial : forall c r t n s a b,
  wfs s = true -> cases_ok s = true -> sty s = TRoot -> IsConfig s a -> IsConfig s b ->
  orderable s a = true -> orderable s b = true -> one_case s a = true -> one_case s b = true ->
  RootKept (Opts c r PDRemove t n) s a b ->
  exists d l, delta_nc s (Delta a b (Opts c r PDRemove t n)) = Ok d /\ serve s d (xkids a) = Some l /\ SameData s (e_config l) b.
Proof. exact server_reaches_remove. Qed.
Print Assumptions C16_server_reaches_remove_partial.

Example C16_remove_case : IsConfig ex_nested ex_q /\ IsConfig ex_nested ex_t /\ wfs ex_nested = true /\ cases_ok ex_nested = true /\
  one_case ex_nested ex_q = true /\ one_case ex_nested ex_t = true /\
  RootKept (Opts PCMerge PRMerge PDRemove DMinimum 0) ex_nested ex_q ex_t.
Proof.
  split; [repeat split; vm_compute; reflexivity |]. split; [repeat split; vm_compute; reflexivity |].
  repeat (split; [vm_compute; reflexivity |]). left. reflexivity.
Qed.

(** The delta deletes a leaf of an inner choice that the server has deleted with its
    outer case: the server refuses the edit. *)
Theorem C16_nested_choice_refuted : exists s a b d,
  wfs s = true /\ cases_ok s = true /\ sty s = TRoot /\ IsConfig s a /\ IsConfig s b /\
  orderable s a = true /\ orderable s b = true /\ one_case s a = true /\ one_case s b = true /\
  RootKept default_opts s a b /\ delta_nc s (config_sub b a) = Ok d /\ serve s d (xkids a) = None.
Proof. exact nested_choice. Qed.
Print Assumptions C16_nested_choice_refuted.

(** diff_type='replace' never omits the deletion of the former case. *)
Theorem C16_replace_type_refuted : exists o s a b d,
  o_type o = DReplace /\ wfs s = true /\ flat_choices s = true /\ cases_ok s = true /\ sty s = TRoot /\ IsConfig s a /\ IsConfig s b /\
  orderable s a = true /\ orderable s b = true /\ one_case s a = true /\ one_case s b = true /\
  RootKept o s a b /\ delta_nc s (Delta a b o) = Ok d /\ serve s d (xkids a) = None.
Proof. exact replace_type. Qed.
Print Assumptions C16_replace_type_refuted.

(** preferred_replace='replace' puts the operation on the root: the server executes
    the merges only. *)
Theorem C16_root_replace_refuted : exists o s a b d r,
  wfs s = true /\ cases_ok s = true /\ sty s = TRoot /\ IsConfig s a /\ IsConfig s b /\ Comparable s a b /\ o_type o = DMinimum /\
  delta_nc s (Delta a b o) = Ok d /\ serve s d (xkids a) = Some r /\ ~ SameData s (e_config r) b.
Proof. exact root_replace. Qed.
Print Assumptions C16_root_replace_refuted.
