(** Property C63: reordered deltas that do lead to the destination. PropsPrune.v has the two
    refutations. *)
From Coq Require Import String Ascii List Bool Arith ZArith.
From Verif Require Import Base XmlM CalcM NetconfM ConfigM ReorderM DataSpec DeltaSpec ConfigSpec AlikeSpec ReorderSpec ShuffleSpec ExampleM ExampleDelta
  PrunePropsP ShuffleP.
Import ListNotations.
Open Scope string_scope.
Open Scope list_scope.

(** ** C63
    If no node at the chosen depth can have children ordered by the user, every draw leads to
    the destination. Missing: depths at which there are such children, see the next theorem
    and C63_reordered_delta_refuted. *)
Theorem C63_no_sequence_partial : forall draw o s a b n z,
  wfs s = true -> sty s = TRoot -> IsConfig s a -> IsConfig s b -> Comparable s a b -> RootKept o s a b ->
  FairDraw (draw z) -> NoSequence n s ->
  exists y, delta_nc_random draw s (Delta a b o) (rand_new (Some n) (Some z)) = Ok y /\ Reaches s (config_add s a y) b.
Proof. exact free_reaches. Qed.
Print Assumptions C63_no_sequence_partial.

Example C63_no_sequence_case : NoSequence 0 ex_schema /\ NoSequence 2 ex_schema /\ FairDraw (swap_draw 5) /\
  Comparable ex_schema ex_a ex_b /\ RootKept default_opts ex_schema ex_a ex_b /\
  delta_nc_random swap_draw ex_schema (config_sub ex_b ex_a) (rand_new (Some 0) (Some 5%Z)) <> delta_nc ex_schema (config_sub ex_b ex_a).
Proof. exact free_case. Qed.

(** At all depths: if the draw keeps the user-ordered entries of each node in their order,
    the reordered delta leads to the destination. *)
Theorem C63_kept_partial : forall draw o s a b n z e y,
  wfs s = true -> sty s = TRoot -> IsConfig s a -> IsConfig s b -> Comparable s a b -> RootKept o s a b ->
  FairDraw (draw z) -> delta_nc s (Delta a b o) = Ok e ->
  delta_nc_random draw s (Delta a b o) (rand_new (Some n) (Some z)) = Ok y ->
  KeepsOrder n s e y -> Reaches s (config_add s a y) b.
Proof. exact kept_reaches. Qed.
Print Assumptions C63_kept_partial.

(** So it does the same as the delta in its own order, for every pair of configs and whatever
    config it is applied to: both fail, or the sums are alike. *)
Theorem C63_same_sum_partial : forall draw s x d n z e y,
  IsConfig s x -> FairDraw (draw z) -> delta_nc s d = Ok e ->
  delta_nc_random draw s d (rand_new (Some n) (Some z)) = Ok y -> KeepsOrder n s e y ->
  Alikewise (fun r r' => Alike s r r' /\ (valid s r = true -> valid s r' = true /\ SameData s r r' /\ cmp_eq s r r' = Ok true))
            (config_add s x e) (config_add s x y).
Proof. exact kept_same. Qed.
Print Assumptions C63_same_sum_partial.

Example C63_kept_case : exists e y, delta_nc ex_schema (config_sub kept_b empty_config) = Ok e /\
  delta_nc_random swap_draw ex_schema (config_sub kept_b empty_config) (rand_new (Some 1) (Some 5%Z)) = Ok y /\ e <> y /\
  KeepsOrder 1 ex_schema e y /\ ~ NoSequence 1 ex_schema /\ IsConfig ex_schema kept_b /\ IsConfig ex_schema empty_config /\
  Comparable ex_schema empty_config kept_b.
Proof. exact kept_case. Qed.
