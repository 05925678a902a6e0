(** C97: a delta that is added to the config it leads to. *)
From Coq Require Import String Ascii List Bool Arith ZArith Lia.
From Verif Require Import Base XmlM CalcM NetconfM ConfigM DataSpec DeltaSpec ConfigSpec VocabSpec AgainSpec AgainP ExampleM ExampleDelta.
Import ListNotations.
Open Scope string_scope.
Open Scope list_scope.

(** ** C97
    Adding [b - a] to [b] gives [b] again, unless the delta creates or deletes a node. There
    is no condition on entries that move, on choices or on options. *)
Theorem C97_again : forall o s a b d, wfs s = true -> sty s = TRoot -> IsConfig s a -> IsConfig s b -> orderable s b = true ->
  delta_nc s (Delta a b o) = Ok d -> (forall n, Below d n -> ~ Once n) -> Reaches s (config_add_delta s b (Delta a b o)) b.
Proof. exact again. Qed.
Print Assumptions C97_again.

Definition ag_opts : opts := Opts PCMerge PRMerge PDRemove DMinimum 0.
(** Three entries in reverse: the delta does not lead from [ex_abc] to [ex_cba], but keeps
    [ex_cba] as it is. *)
Example C97_case : wfs ex_schema = true /\ sty ex_schema = TRoot /\ IsConfig ex_schema ex_abc /\ IsConfig ex_schema ex_cba /\ orderable ex_schema ex_cba = true /\
  (exists d, delta_nc ex_schema (Delta ex_abc ex_cba default_opts) = Ok d /\ (forall n, Below d n -> ~ Once n) /\
     exists c, In c (xkids d) /\ xkids c <> []) /\
  (exists r, config_add_delta ex_schema ex_abc (Delta ex_abc ex_cba default_opts) = Ok r /\ cmp_eq ex_schema r ex_cba = Ok false).
Proof.
  split; [vm_compute; reflexivity |]. split; [reflexivity |]. split; [repeat split; vm_compute; reflexivity |]. split; [repeat split; vm_compute; reflexivity |].
  split; [vm_compute; reflexivity |]. split.
  - eexists. split; [vm_compute; reflexivity |]. split; [apply quiet_Below; vm_compute; reflexivity |]. eexists. split; [left; reflexivity | discriminate].
  - eexists. split; vm_compute; reflexivity.
Qed.

(** One node that is created or deleted, anywhere, and the sum is refused. *)
Theorem C97_refused : forall o s a b d n, wfs s = true -> sty s = TRoot -> IsConfig s a -> IsConfig s b -> orderable s b = true ->
  delta_nc s (Delta a b o) = Ok d -> Below d n -> Once n -> config_add_delta s b (Delta a b o) = Err ConfigDeltaError.
Proof. exact refused. Qed.
Print Assumptions C97_refused.
Example C97_refused_case : IsConfig ex_schema ex_a /\ IsConfig ex_schema ex_b /\ orderable ex_schema ex_b = true /\
  exists d c n, delta_nc ex_schema (Delta ex_a ex_b default_opts) = Ok d /\ In c (xkids d) /\ In n (xkids c) /\ Once n.
Proof.
  split; [repeat split; vm_compute; reflexivity |]. split; [repeat split; vm_compute; reflexivity |]. split; [vm_compute; reflexivity |].
  do 3 eexists. split; [vm_compute; reflexivity |]. split; [left; reflexivity |]. split; [do 6 right; left; reflexivity |]. left. reflexivity.
Qed.

(** With preferred_delete='remove' and without preferred_create='create' a delta has no such
    node and can be added any number of times. *)
Theorem C97_options : forall o s a b d, wfs s = true -> sty s = TRoot -> IsConfig s a -> IsConfig s b -> orderable s b = true ->
  o_delete o = PDRemove -> o_create o <> PCCreate ->
  delta_nc s (Delta a b o) = Ok d -> (forall n, Below d n -> ~ Once n) /\ Reaches s (config_add_delta s b (Delta a b o)) b.
Proof. exact again_calm. Qed.
Print Assumptions C97_options.
Example C97_options_case : IsConfig ex_schema ex_a /\ IsConfig ex_schema ex_b /\ orderable ex_schema ex_b = true /\
  o_delete ag_opts = PDRemove /\ o_create ag_opts <> PCCreate /\ cmp_eq ex_schema ex_a ex_b = Ok false /\
  exists d, delta_nc ex_schema (Delta ex_a ex_b ag_opts) = Ok d.
Proof.
  split; [repeat split; vm_compute; reflexivity |]. split; [repeat split; vm_compute; reflexivity |]. split; [vm_compute; reflexivity |].
  split; [reflexivity |]. split; [discriminate |]. split; [vm_compute; reflexivity |]. eexists. vm_compute. reflexivity.
Qed.

(** Without the condition on the keys of user-ordered entries: a quote in a key. *)
Theorem C97_quote_refuted : exists o s a b d, wfs s = true /\ sty s = TRoot /\ IsConfig s a /\ IsConfig s b /\
  delta_nc s (Delta a b o) = Ok d /\ (forall n, Below d n -> ~ Once n) /\ config_add_delta s b (Delta a b o) = Err SyntaxError.
Proof.
  exists ag_opts, ex_schema, (e_config [ e_node "sys" [ ex_rule "2" "permit"; ex_rule "it's" "permit"] ]), ex_quote. eexists.
  split; [vm_compute; reflexivity |]. split; [reflexivity |]. split; [repeat split; vm_compute; reflexivity |]. split; [repeat split; vm_compute; reflexivity |].
  split; [vm_compute; reflexivity |]. split; [apply quiet_Below; vm_compute; reflexivity | vm_compute; reflexivity].
Qed.
Print Assumptions C97_quote_refuted.
