(** Property C84: what the operators do depends on the data of their operands, not on how
    these are written. *)
From Coq Require Import String Ascii List Bool Arith ZArith.
From Verif Require Import Base XmlM CalcM NetconfM ConfigM DataSpec DeltaSpec ConfigSpec AlikeSpec ExampleM ExampleDelta AlikePropsP AlikeSubPropsP.
Import ListNotations.
Open Scope string_scope.
Open Scope list_scope.

(** [ex_a] and [ex_a'] are one config written in two ways. *)
Example alike_case : IsConfig ex_schema ex_a /\ IsConfig ex_schema ex_a' /\ ex_a <> ex_a' /\ SameData ex_schema ex_a ex_a'.
Proof. exact two_ways. Qed.

(** Well-formed trees hold the same data exactly if they differ only in orders of siblings that
    have no meaning. *)
Theorem C84_alike : forall s x y, valid s x = true -> valid s y = true -> xtag x = xtag y -> (Alike s x y <-> SameData s x y).
Proof. exact AlikeDataP.alike_same_iff. Qed.
Print Assumptions C84_alike.

Example C84_alike_case : ~ Alike ex_schema ex_abc ex_cba /\ exists r r', config_add ex_schema empty_config ex_abc = Ok r /\
  config_add ex_schema empty_config ex_cba = Ok r' /\ cmp_eq ex_schema r r' = Ok false.
Proof. exact order_matters. Qed.

(** The six comparisons *)
Theorem C84_compare : forall s x x' y y', valid s x = true -> valid s x' = true -> valid s y = true -> valid s y' = true ->
  xtag x = xtag x' -> xtag y = xtag y' -> SameData s x x' -> SameData s y y' ->
  cmp_le s x y = cmp_le s x' y' /\ cmp_lt s x y = cmp_lt s x' y' /\ cmp_ge s x y = cmp_ge s x' y' /\ cmp_gt s x y = cmp_gt s x' y' /\
  cmp_eq s x y = cmp_eq s x' y' /\ cmp_ne s x y = cmp_ne s x' y'.
Proof. exact compare_alike. Qed.
Print Assumptions C84_compare.
Example C84_compare_case : valid ex_schema ex_a = true /\ valid ex_schema ex_a' = true /\ valid ex_schema ex_b = true /\ valid ex_schema ex_b' = true /\
  SameData ex_schema ex_a ex_a' /\ SameData ex_schema ex_b ex_b' /\ cmp_eq ex_schema ex_a ex_b = Ok false /\ cmp_eq ex_schema ex_a' ex_b' = Ok false.
Proof. destruct delta_case as (_ & (V & _) & (V' & _) & D & (W & _) & (W' & _) & E & _). repeat (split; [assumption |]). split; vm_compute; reflexivity. Qed.

(** Building a config, whatever the tree: defaults and empty nodes are removed from both, or
    both are refused. *)
Theorem C84_new : forall check rd s x x', xtag x = config_tag -> Alike s x x' ->
  Alikewise (Alike s) (config_new check rd s x) (config_new check rd s x').
Proof. exact AlikeCheckP.config_new_alike. Qed.
Print Assumptions C84_new.
Example C84_new_case : Alike ex_schema ex_a ex_a' /\ config_new true false ex_schema ex_a = Ok ex_a /\ config_new true false ex_schema ex_a' = Ok ex_a' /\ ex_a <> ex_a'.
Proof.
  destruct two_ways as ((V & _) & (V' & _) & N & D). split; [apply C84_alike; assumption || reflexivity |].
  split; [vm_compute; reflexivity |]. split; [vm_compute; reflexivity | exact N].
Qed.

(** Applying an edit, whatever its operations and whether it is well-formed or not: both sums
    fail, or they are alike, and then equal if one of them is well-formed. *)
Theorem C84_edit : forall s a a' y y', IsConfig s a -> IsConfig s a' -> SameData s a a' -> Alike s y y' ->
  Alikewise (fun r r' => Alike s r r' /\ (valid s r = true -> valid s r' = true /\ SameData s r r' /\ cmp_eq s r r' = Ok true))
            (config_add s a y) (config_add s a' y').
Proof. exact add_agree. Qed.
Print Assumptions C84_edit.

Example C84_edit_case : Alike ex_schema ex_edit1 ex_edit2 /\
  exists r r', config_add ex_schema ex_a ex_edit1 = Ok r /\ config_add ex_schema ex_a' ex_edit2 = Ok r' /\ r <> r' /\ cmp_eq ex_schema r r' = Ok true.
Proof. exact two_edits. Qed.

(** Sums of configs *)
Theorem C84_sum : forall s a a' b b', IsConfig s a -> IsConfig s a' -> SameData s a a' -> IsConfig s b -> IsConfig s b' -> SameData s b b' ->
  Alikewise (fun r r' => Alike s r r' /\ (valid s r = true -> valid s r' = true /\ SameData s r r' /\ cmp_eq s r r' = Ok true))
            (config_add s a b) (config_add s a' b').
Proof. exact sum_agree. Qed.
Print Assumptions C84_sum.
Example C84_sum_case : SameData ex_schema ex_a ex_a' /\ SameData ex_schema ex_b ex_b' /\
  exists r r', config_add ex_schema ex_a ex_b = Ok r /\ config_add ex_schema ex_a' ex_b' = Ok r' /\ r <> r' /\ cmp_eq ex_schema r r' = Ok true.
Proof.
  destruct delta_case as (_ & _ & _ & D & _ & _ & E & _). split; [exact D |]. split; [exact E |].
  do 2 eexists. split; [vm_compute; reflexivity |]. split; [vm_compute; reflexivity |]. split; [discriminate | vm_compute; reflexivity].
Qed.

(** A delta applied to equal configs *)
Theorem C84_apply : forall s a a' d, IsConfig s a -> IsConfig s a' -> SameData s a a' ->
  Alikewise (fun r r' => Alike s r r' /\ (valid s r = true -> valid s r' = true /\ SameData s r r' /\ cmp_eq s r r' = Ok true))
            (config_add_delta s a d) (config_add_delta s a' d).
Proof. exact add_delta_agree. Qed.
Print Assumptions C84_apply.
Example C84_apply_case : SameData ex_schema ex_a ex_a' /\
  exists r r', config_add_delta ex_schema ex_a (Delta ex_a ex_b default_opts) = Ok r /\ config_add_delta ex_schema ex_a' (Delta ex_a ex_b default_opts) = Ok r' /\
    cmp_eq ex_schema r r' = Ok true.
Proof.
  destruct delta_case as (_ & _ & _ & D & _). split; [exact D |]. do 2 eexists. split; [vm_compute; reflexivity |]. split; [vm_compute; reflexivity |]. vm_compute; reflexivity.
Qed.

(** Differences, whatever the options: both fail, or the edits are alike. The destination has
    nodes of one case of each choice. *)
Theorem C84_delta : forall o s a a' b b', wfs s = true -> IsConfig s a -> IsConfig s a' -> SameData s a a' -> IsConfig s b -> IsConfig s b' -> SameData s b b' ->
  NoSwitch s b b -> Alikewise (Alike s) (delta_nc s (Delta a b o)) (delta_nc s (Delta a' b' o)).
Proof. exact delta_alike. Qed.
Print Assumptions C84_delta.

Example C84_delta_case : wfs ex_schema = true /\ IsConfig ex_schema ex_a /\ IsConfig ex_schema ex_a' /\ SameData ex_schema ex_a ex_a' /\
  IsConfig ex_schema ex_b /\ IsConfig ex_schema ex_b' /\ SameData ex_schema ex_b ex_b' /\ NoSwitch ex_schema ex_b ex_b /\
  exists d d', delta_nc ex_schema (Delta ex_a ex_b default_opts) = Ok d /\ delta_nc ex_schema (Delta ex_a' ex_b' default_opts) = Ok d' /\ d <> d' /\ length (xkids d) = 2.
Proof. exact delta_case. Qed.

(** Without that condition the order in which the nodes of the destination are written decides
    what is deleted, and sums with the differences of equal configs are not equal. *)
Theorem C84_delta_refuted : exists s a b b' r r', wfs s = true /\ IsConfig s a /\ IsConfig s b /\ IsConfig s b' /\ SameData s b b' /\
  config_add_delta s a (Delta a b default_opts) = Ok r /\ config_add_delta s a (Delta a b' default_opts) = Ok r' /\
  valid s r = true /\ valid s r' = true /\ ~ SameData s r r' /\ cmp_eq s r r' = Ok false.
Proof. exact delta_refuted. Qed.
Print Assumptions C84_delta_refuted.

(** [x + (b - a)] with all three written in other ways *)
Theorem C84_step : forall o s x x' a a' b b', wfs s = true -> IsConfig s x -> IsConfig s x' -> SameData s x x' ->
  IsConfig s a -> IsConfig s a' -> SameData s a a' -> IsConfig s b -> IsConfig s b' -> SameData s b b' -> NoSwitch s b b ->
  Alikewise (fun r r' => Alike s r r' /\ (valid s r = true -> valid s r' = true /\ SameData s r r' /\ cmp_eq s r r' = Ok true))
            (config_add_delta s x (Delta a b o)) (config_add_delta s x' (Delta a' b' o)).
Proof. exact step_agree. Qed.
Print Assumptions C84_step.
Example C84_step_case : wfs ex_schema = true /\ NoSwitch ex_schema ex_b ex_b /\
  exists r r', config_add_delta ex_schema ex_a' (Delta ex_a ex_b default_opts) = Ok r /\ config_add_delta ex_schema ex_a (Delta ex_a' ex_b' default_opts) = Ok r' /\
    cmp_eq ex_schema r r' = Ok true /\ cmp_eq ex_schema r ex_a = Ok false.
Proof.
  destruct delta_case as (H & _ & _ & _ & _ & _ & _ & N & _). split; [exact H |]. split; [exact N |].
  do 2 eexists. split; [vm_compute; reflexivity |]. split; [vm_compute; reflexivity |]. split; vm_compute; reflexivity.
Qed.

(** Taking a delta off a sum gives back the config it was added to: [(a + d) - d == a]. *)
Theorem C84_rollback : forall o s a b r, wfs s = true -> sty s = TRoot -> IsConfig s a -> IsConfig s b ->
  Comparable s a b -> Comparable s b a -> RootKept o s a b ->
  config_add_delta s a (Delta a b o) = Ok r -> Reaches s (config_sub_delta s r (Delta a b o)) a.
Proof. exact rollback. Qed.
Print Assumptions C84_rollback.
Example C84_rollback_case : Comparable ex_schema ex_a ex_b /\ Comparable ex_schema ex_b ex_a /\ RootKept default_opts ex_schema ex_a ex_b /\
  exists r r', config_add_delta ex_schema ex_a (Delta ex_a ex_b default_opts) = Ok r /\ config_sub_delta ex_schema r (Delta ex_a ex_b default_opts) = Ok r' /\
    cmp_eq ex_schema r ex_a = Ok false /\ cmp_eq ex_schema r' ex_a = Ok true.
Proof.
  destruct walk as (_ & _ & C & D & R & _). split; [exact C |]. split; [exact D |]. split; [exact R |].
  do 2 eexists. split; [vm_compute; reflexivity |]. split; [vm_compute; reflexivity |]. split; vm_compute; reflexivity.
Qed.

(** Any number of deltas in turn: [a + (c1 - a) + (c2 - c1) + ...] is the last config. *)
Theorem C84_replay : forall s l a x, wfs s = true -> sty s = TRoot -> IsConfig s a -> IsConfig s x -> SameData s x a -> Linked s a l ->
  Reaches s (replay_all s x a l) (last l a).
Proof. exact replays. Qed.
Print Assumptions C84_replay.

Example C84_replay_case : wfs ex_schema = true /\ sty ex_schema = TRoot /\ Comparable ex_schema ex_a ex_b /\ Comparable ex_schema ex_b ex_a /\
  RootKept default_opts ex_schema ex_a ex_b /\ Linked ex_schema ex_a [ex_b; ex_abc; ex_a].
Proof. exact walk. Qed.
