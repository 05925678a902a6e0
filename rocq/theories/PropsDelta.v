(** C05-C11: computing deltas and applying them. *)
From Coq Require Import String Ascii List Bool Arith ZArith Lia Permutation.
From Verif Require Import Base XmlM CalcM NetconfM ConfigM DataSpec DeltaSpec MoveSpec ConfigSpec CompatP ConfigP DeltaPropsP
  ExampleM ExampleDelta.
Import ListNotations.
Open Scope string_scope.
Open Scope list_scope.

(** The example pair meets the hypotheses of the theorems below. *)
Example case_config : IsConfig ex_schema ex_a /\ IsConfig ex_schema ex_b /\ wfs ex_schema = true /\ sty ex_schema = TRoot.
Proof. repeat split; vm_compute; reflexivity. Qed.
Example case_comparable : Comparable ex_schema ex_a ex_b.
Proof.
  split; [vm_compute; reflexivity |]. split; [vm_compute; reflexivity |].
  split; [apply inplace_Ends | apply (compat_NoSwitch true)]; vm_compute; reflexivity.
Qed.
Example case_comparable_back : Comparable ex_schema ex_b ex_a.
Proof.
  split; [vm_compute; reflexivity |]. split; [vm_compute; reflexivity |].
  split; [apply inplace_Ends | apply (compat_NoSwitch true)]; vm_compute; reflexivity.
Qed.
(** A pair that moves entries: the third rule comes first, and a new one stands between
    the two others, which change their places. *)
Example case_moved : IsConfig ex_schema ex_abc /\ IsConfig ex_schema ex_cbxa /\
  Comparable ex_schema ex_abc ex_cbxa /\ ~ KeepsOrder ex_schema ex_abc ex_cbxa.
Proof. exact moved_comparable. Qed.

(** ** C05
    Full statement: for all configs [a] and [b], [a + (b - a) == b]. Missing from the
    proved part: pairs with user-ordered entries that do not end in place when the
    moves are replayed one by one (MoveSpec.v), that switch a case, or whose
    user-ordered entries cannot be named in a key or value attribute. For each of
    the three the full statement is false. *)
Theorem C05_round_trip_partial : forall s a b,
  wfs s = true -> sty s = TRoot -> IsConfig s a -> IsConfig s b -> Comparable s a b ->
  Reaches s (config_add_delta s a (config_sub b a)) b.
Proof. exact reaches_default. Qed.
Print Assumptions C05_round_trip_partial.

Example C05_case : exists r, config_add_delta ex_schema ex_a (config_sub ex_b ex_a) = Ok r /\ r <> ex_a /\ r <> ex_b.
Proof. eexists. split; [vm_compute; reflexivity |]. split; discriminate. Qed.

Theorem C05_round_trip_refuted : exists s a b r,
  wfs s = true /\ sty s = TRoot /\ IsConfig s a /\ IsConfig s b /\
  orderable s a = true /\ orderable s b = true /\ NoSwitch s a b /\
  config_add_delta s a (config_sub b a) = Ok r /\ cmp_eq s r b = Ok false.
Proof.
  exists ex_schema, ex_abc, ex_cba. eexists. split; [vm_compute; reflexivity |]. split; [vm_compute; reflexivity |].
  split; [repeat split; vm_compute; reflexivity |]. split; [repeat split; vm_compute; reflexivity |].
  split; [vm_compute; reflexivity |]. split; [vm_compute; reflexivity |].
  split. { apply (compat_NoSwitch false); vm_compute; reflexivity. }
  split; vm_compute; reflexivity.
Qed.
Print Assumptions C05_round_trip_refuted.

Theorem C05_unnameable_refuted : exists s a b,
  wfs s = true /\ sty s = TRoot /\ IsConfig s a /\ IsConfig s b /\ KeepsOrder s a b /\ NoSwitch s a b /\
  config_add_delta s a (config_sub b a) = Err SyntaxError.
Proof.
  exists ex_schema, ex_tcp, ex_quote. split; [vm_compute; reflexivity |]. split; [vm_compute; reflexivity |].
  split; [repeat split; vm_compute; reflexivity |]. split; [repeat split; vm_compute; reflexivity |].
  split; [apply (compat_KeepsOrder true); vm_compute; reflexivity |]. split; [apply (compat_NoSwitch true); vm_compute; reflexivity |].
  vm_compute; reflexivity.
Qed.
Print Assumptions C05_unnameable_refuted.

(** ** C06
    [o] ranges over all preferences (and all diff types). *)
Theorem C06_every_preference_partial : forall o s a b,
  wfs s = true -> sty s = TRoot -> IsConfig s a -> IsConfig s b -> Comparable s a b -> RootKept o s a b ->
  Reaches s (config_add_delta s a (Delta a b o)) b.
Proof. exact reaches. Qed.
Print Assumptions C06_every_preference_partial.

(** [RootKept] holds for the example with every preference, and for every pair with
    preferred_replace='merge'. *)
Example C06_case : forall o, RootKept o ex_schema ex_a ex_b.
Proof.
  intro o. right. right. intros t cs D T Ha Hb.
  assert (E : t = "label").
  { destruct (String.eqb "sys" t) eqn:E1.
    - apply String.eqb_eq in E1. subst t. exfalso.
      assert (C : schema_child ex_schema "sys" = Ok cs).
      { eapply Defines_child; [exact D | vm_compute; reflexivity]. }
      vm_compute in C. inversion C. subst cs. discriminate T.
    - destruct (String.eqb "label" t) eqn:E2; [symmetry; apply String.eqb_eq; auto |].
      exfalso. apply Ha. cbv [values_below ex_a e_config xkids filter e_node e_leaf xtag map]. rewrite E1, E2. reflexivity. }
  subst t. destruct (s_user (si cs)); unfold values_below; simpl; tauto.
Qed.

(** Without [RootKept]: preferred_replace='replace' and a leaf-list below the top that
    differs. The operation lands on the root, where it is ignored. *)
Theorem C06_root_replace_refuted : exists o s a b r,
  wfs s = true /\ sty s = TRoot /\ IsConfig s a /\ IsConfig s b /\ Comparable s a b /\ o_type o = DMinimum /\
  config_add_delta s a (Delta a b o) = Ok r /\ cmp_eq s r b = Ok false.
Proof.
  exists (Opts PCMerge PRReplace PDDelete DMinimum 0), ex_schema, ex_lab1, ex_lab2. eexists.
  split; [vm_compute; reflexivity |]. split; [vm_compute; reflexivity |].
  split; [repeat split; vm_compute; reflexivity |]. split; [repeat split; vm_compute; reflexivity |].
  split. { split; [vm_compute; reflexivity |]. split; [vm_compute; reflexivity |].
    split; [apply inplace_Ends | apply (compat_NoSwitch true)]; vm_compute; reflexivity. }
  split; [reflexivity |]. split; vm_compute; reflexivity.
Qed.
Print Assumptions C06_root_replace_refuted.

(** ** C07 *)
Theorem C07_replace_types_partial : forall c r d n s a b,
  wfs s = true -> sty s = TRoot -> IsConfig s a -> IsConfig s b -> Comparable s a b ->
  (r = PRMerge \/ TopLeafListsAgree s a b) ->
  Reaches s (config_add_delta s a (Delta a b (Opts c r d DReplace n))) b /\
  Reaches s (config_add_delta s a (Delta a b (Opts c r d DMinimumReplace n))) b.
Proof. exact reaches_types. Qed.
Print Assumptions C07_replace_types_partial.

(** At replace_depth 0 nothing has to be assumed about preferred_replace. *)
Theorem C07_replace_top_partial : forall c r d s a b,
  wfs s = true -> sty s = TRoot -> IsConfig s a -> IsConfig s b -> Comparable s a b ->
  Reaches s (config_add_delta s a (Delta a b (Opts c r d DReplace 0))) b.
Proof. exact reaches_top. Qed.
Print Assumptions C07_replace_top_partial.

Example C07_case : forall n, Reaches ex_schema (config_add_delta ex_schema ex_a (Delta ex_a ex_b (Opts PCMerge PRMerge PDDelete DReplace n))) ex_b.
Proof.
  intro n. destruct case_config as (H1 & H2 & H3 & H4).
  apply (C07_replace_types_partial PCMerge PRMerge PDDelete n ex_schema ex_a ex_b); auto. exact case_comparable.
Qed.

Theorem C07_switch_refuted : exists n s a b r,
  wfs s = true /\ sty s = TRoot /\ IsConfig s a /\ IsConfig s b /\
  config_add_delta s a (Delta a b (Opts PCMerge PRMerge PDDelete DMinimumReplace n)) = Ok r /\ cmp_eq s r b = Ok false.
Proof.
  exists 0%Z, ex_schema, ex_tcp, ex_udp. eexists. split; [vm_compute; reflexivity |]. split; [vm_compute; reflexivity |].
  split; [repeat split; vm_compute; reflexivity |]. split; [repeat split; vm_compute; reflexivity |].
  split; vm_compute; reflexivity.
Qed.
Print Assumptions C07_switch_refuted.

(** ** C08 *)
Theorem C08_undo_partial : forall o s a b,
  wfs s = true -> sty s = TRoot -> IsConfig s a -> IsConfig s b -> Comparable s b a ->
  Reaches s (config_sub_delta s b (Delta a b o)) a /\
  Reaches s (config_add_delta s b (delta_neg (Delta a b o))) a /\
  d_src (delta_neg (delta_neg (Delta a b o))) = a /\ d_dst (delta_neg (delta_neg (Delta a b o))) = b.
Proof. exact undo. Qed.
Print Assumptions C08_undo_partial.

Example C08_case : Reaches ex_schema (config_sub_delta ex_schema ex_b (config_sub ex_b ex_a)) ex_a.
Proof.
  destruct case_config as (H1 & H2 & H3 & H4).
  exact (proj1 (C08_undo_partial default_opts ex_schema ex_a ex_b H3 H4 H1 H2 case_comparable_back)).
Qed.

Theorem C08_undo_refuted : exists s a b r,
  wfs s = true /\ sty s = TRoot /\ IsConfig s a /\ IsConfig s b /\
  config_sub_delta s b (config_sub b a) = Ok r /\ cmp_eq s r a = Ok false.
Proof.
  exists ex_schema, ex_abc, ex_cba. eexists. split; [vm_compute; reflexivity |]. split; [vm_compute; reflexivity |].
  split; [repeat split; vm_compute; reflexivity |]. split; [repeat split; vm_compute; reflexivity |].
  split; vm_compute; reflexivity.
Qed.
Print Assumptions C08_undo_refuted.

(** The options of a delta are lost when it is negated twice. *)
Theorem C08_options_lost : exists d, d_opts (delta_neg (delta_neg d)) <> d_opts d.
Proof. exists (Delta ex_a ex_b (Opts PCCreate PRMerge PDRemove DMinimum 0)). discriminate. Qed.
Print Assumptions C08_options_lost.

(** ** C09
    For all options. Only the delta of entries that cannot be named may fail to be
    computed, hence [orderable]. *)
Theorem C09_equal_configs_partial : forall o s a b,
  wfs s = true -> sty s = TRoot -> IsConfig s a -> IsConfig s b ->
  orderable s a = true -> orderable s b = true -> cmp_eq s a b = Ok true ->
  (exists d, delta_nc s (Delta a b o) = Ok d /\
     forall c, In c (xkids d) ->
       exists cs, Defines s (xtag c) cs /\ s_user (si cs) = true /\ (sty cs = TLeafList \/ sty cs = TList)) /\
  Reaches s (config_add_delta s a (Delta a b o)) a.
Proof. exact equal_change_nothing. Qed.
Print Assumptions C09_equal_configs_partial.

Example C09_case : IsConfig ex_schema ex_a' /\ orderable ex_schema ex_a' = true /\ orderable ex_schema ex_a = true /\
  cmp_eq ex_schema ex_a ex_a' = Ok true /\ ex_a <> ex_a' /\
  (exists d, delta_nc ex_schema (Delta ex_a ex_a' default_opts) = Ok d /\ xkids d = []).
Proof.
  split; [repeat split; vm_compute; reflexivity |]. split; [vm_compute; reflexivity |]. split; [vm_compute; reflexivity |].
  split; [vm_compute; reflexivity |]. split; [discriminate |]. eexists. split; vm_compute; reflexivity.
Qed.

(** The first half for all configs *)
Theorem C09_no_node : forall o s a b d,
  wfs s = true -> sty s = TRoot -> IsConfig s a -> IsConfig s b ->
  cmp_eq s a b = Ok true -> delta_nc s (Delta a b o) = Ok d ->
  forall c, In c (xkids d) ->
    exists cs, Defines s (xtag c) cs /\ s_user (si cs) = true /\ (sty cs = TLeafList \/ sty cs = TList).
Proof. exact equal_no_node. Qed.
Print Assumptions C09_no_node.

Example C09_no_node_case : wfs ex_top = true /\ IsConfig ex_top ex_top_quote /\ cmp_eq ex_top ex_top_quote ex_top_quote = Ok true /\
  exists d, delta_nc ex_top (config_sub ex_top_quote ex_top_quote) = Ok d /\ length (xkids d) = 2%nat.
Proof.
  split; [vm_compute; reflexivity |]. split; [repeat split; vm_compute; reflexivity |]. split; [vm_compute; reflexivity |].
  eexists. split; vm_compute; reflexivity.
Qed.

(** The second half fails for entries that cannot be named: a config minus itself, added
    to itself, raises. So does computing the delta when an entry of a user-ordered
    leaf-list has no text. *)
Theorem C09_unnameable_refuted : exists s a,
  wfs s = true /\ sty s = TRoot /\ IsConfig s a /\ texted s a = true /\
  config_add_delta s a (config_sub a a) = Err SyntaxError.
Proof.
  exists ex_top, ex_top_quote. split; [vm_compute; reflexivity |]. split; [vm_compute; reflexivity |].
  split; [repeat split; vm_compute; reflexivity |]. split; vm_compute; reflexivity.
Qed.
Print Assumptions C09_unnameable_refuted.

Theorem C09_no_text_refuted : exists s a,
  wfs s = true /\ sty s = TRoot /\ IsConfig s a /\ delta_nc s (config_sub a a) = Err TypeError.
Proof.
  exists ex_top, ex_top_empty. split; [vm_compute; reflexivity |]. split; [vm_compute; reflexivity |].
  split; [repeat split; vm_compute; reflexivity |]. vm_compute; reflexivity.
Qed.
Print Assumptions C09_no_text_refuted.

(** A delta is false if and only if the two configs hold the same data. *)
Theorem C09_bool : forall o s a b,
  valid s a = true -> valid s b = true -> xtag a = xtag b ->
  exists v, delta_bool s (Delta a b o) = Ok v /\ (v = false <-> SameData s a b).
Proof. exact delta_bool_iff. Qed.
Print Assumptions C09_bool.

Example C09_bool_case : valid ex_schema ex_a = true /\ valid ex_schema ex_b = true /\ xtag ex_a = xtag ex_b /\
  delta_bool ex_schema (Delta ex_a ex_b default_opts) = Ok true.
Proof. repeat split; vm_compute; reflexivity. Qed.

(** ** C10 *)
Theorem C10_user_order_partial : forall o s a b,
  wfs s = true -> sty s = TRoot -> IsConfig s a -> IsConfig s b -> Comparable s a b -> RootKept o s a b ->
  exists r, config_add_delta s a (Delta a b o) = Ok r /\
    forall p t us vs, UserOrder s r p t us -> UserOrder s b p t vs -> us = vs.
Proof. intros o s a b W R Ca Cb Cm RK. exact (reaches_order _ _ _ (reaches o s a b W R Ca Cb Cm RK)). Qed.
Print Assumptions C10_user_order_partial.

(** Which pairs that covers: those whose common entries keep their order, and those with
    one cut in each sequence. *)
Theorem C10_one_cut : forall s a b,
  IsConfig s a -> IsConfig s b -> orderable s a = true -> orderable s b = true -> NoSwitch s a b ->
  KeepsOrder s a b \/ CutsOnce s a b -> Comparable s a b.
Proof. exact which_comparable. Qed.
Print Assumptions C10_one_cut.
Example C10_one_cut_case : IsConfig ex_schema ex_a /\ IsConfig ex_schema ex_b /\ orderable ex_schema ex_a = true /\ orderable ex_schema ex_b = true /\
  NoSwitch ex_schema ex_a ex_b /\ KeepsOrder ex_schema ex_a ex_b.
Proof.
  split; [repeat split; vm_compute; reflexivity |]. split; [repeat split; vm_compute; reflexivity |].
  split; [vm_compute; reflexivity |]. split; [vm_compute; reflexivity |].
  split; [apply (compat_NoSwitch true) | apply (compat_KeepsOrder true)]; vm_compute; reflexivity.
Qed.

(** On the sequences alone, for all sequences of distinct entries *)
Theorem C10_replay : forall src dst, NoDup src -> NoDup dst -> OneCut src dst -> replay src dst = dst.
Proof. exact MoveP.one_cut. Qed.
Print Assumptions C10_replay.

Example C10_replay_case : exists a b c x, NoDup [a; b; c] /\ NoDup [b; x; c; a] /\ OneCut [a; b; c] [b; x; c; a] /\
  ~ Kept [a; b; c] [b; x; c; a].
Proof. exact replay_case. Qed.

(** Reversing three entries: the result is in neither order. *)
Theorem C10_user_order_refuted : exists s a b r,
  wfs s = true /\ sty s = TRoot /\ IsConfig s a /\ IsConfig s b /\
  config_add_delta s a (config_sub b a) = Ok r /\
  exists p t us vs, UserOrder s r p t us /\ UserOrder s b p t vs /\ us <> vs.
Proof. exact order_refuted. Qed.
Print Assumptions C10_user_order_refuted.

(** Swapping two entries works, and so does appending one. Both at once do not. *)
Theorem C10_swap_append_refuted : exists s a b b' r,
  wfs s = true /\ sty s = TRoot /\ IsConfig s a /\ IsConfig s b /\ IsConfig s b' /\
  Comparable s a b /\ Comparable s b b' /\
  config_add_delta s a (config_sub b' a) = Ok r /\ cmp_eq s r b' = Ok false /\
  exists p t us vs, UserOrder s r p t us /\ UserOrder s b' p t vs /\ us <> vs.
Proof. exact swap_append_refuted. Qed.
Print Assumptions C10_swap_append_refuted.

(** ** C11
    False: nodes of the old case stay, because the delta relies on the device to
    delete them and [node_add] does not. *)
Theorem C11_case_switch_refuted : exists s a b r v,
  wfs s = true /\ sty s = TRoot /\ IsConfig s a /\ IsConfig s b /\ KeepsOrder s a b /\
  config_add_delta s a (config_sub b a) = Ok r /\ cmp_eq s r b = Ok false /\
  Holds s r [("sys", KNone); ("tcp-port", KNone)] v /\
  ~ (exists v', Holds s b [("sys", KNone); ("tcp-port", KNone)] v').
Proof. exact switch_refuted. Qed.
Print Assumptions C11_case_switch_refuted.
