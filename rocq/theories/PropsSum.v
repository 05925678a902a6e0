(** Properties C05, C10, C11 for all pairs of configs: what the sum is where it is not the
    destination of the delta, and where it is. *)
From Coq Require Import String Ascii List Bool Arith ZArith.
From Verif Require Import Base XmlM CalcM NetconfM ConfigM DataSpec DeltaSpec MoveSpec ConfigSpec SumSpec CompatP ExampleM ExampleDelta SumP SumPropsP.
Import ListNotations.
Open Scope string_scope.
Open Scope list_scope.

(** Two configs with rules in opposite orders, and two with different cases of a choice: each
    of the four uses one case of each choice. *)
Example sum_case : IsConfig ex_schema ex_abc /\ IsConfig ex_schema ex_cba /\ IsConfig ex_schema ex_tcp /\ IsConfig ex_schema ex_udp /\
  (forall x, In x [ex_abc; ex_cba; ex_tcp; ex_udp] -> orderable ex_schema x = true /\ NoSwitch ex_schema x x).
Proof. exact four_configs. Qed.

(** ** C05
    [a + (b - a)] is [b] exactly if replaying the moves of user-ordered entries ends in the
    order of [b] and no choice changes its case. For configs that use one case of each choice,
    whose user-ordered entries can be named, and for all options that do not replace. *)
Theorem C05_exactly : forall o s a b,
  wfs s = true -> sty s = TRoot -> IsConfig s a -> IsConfig s b -> orderable s a = true -> orderable s b = true ->
  NoSwitch s a a -> NoSwitch s b b -> o_replace o = PRMerge -> o_type o <> DReplace ->
  (Reaches s (config_add_delta s a (Delta a b o)) b <-> EndsInPlace s a b /\ NoSwitch s a b).
Proof. exact reaches_exactly. Qed.
Print Assumptions C05_exactly.

Example C05_exactly_case : ~ EndsInPlace ex_schema ex_abc ex_cba /\ ~ NoSwitch ex_schema ex_tcp ex_udp /\
  EndsInPlace ex_schema ex_abc ex_cbxa.
Proof. exact exactly_case. Qed.

(** What the sum is in all cases and for all options that keep the root; [r] is the sum
    before defaults are removed from it. *)
Theorem C05_landing : forall o s a b,
  wfs s = true -> sty s = TRoot -> IsConfig s a -> IsConfig s b -> orderable s a = true -> orderable s b = true ->
  NoSwitch s a a -> NoSwitch s b b -> RootKept o s a b ->
  exists d r, delta_nc s (Delta a b o) = Ok d /\ nc_add s a d = Ok r /\ valid s r = true /\ Landing o s a b r /\
    config_add_delta s a (Delta a b o) = trim s r.
Proof. exact landing. Qed.
Print Assumptions C05_landing.

(** ** C06
    With all options that keep the root, [a + (b - a)] is [b] exactly if at the nodes that are
    not set as wholes the moves end in place and no choice changes its case. *)
Theorem C06_exactly : forall o s a b,
  wfs s = true -> sty s = TRoot -> IsConfig s a -> IsConfig s b -> orderable s a = true -> orderable s b = true ->
  NoSwitch s a a -> NoSwitch s b b -> RootKept o s a b ->
  (Reaches s (config_add_delta s a (Delta a b o)) b <-> Fits o s a b).
Proof. exact reaches_fits. Qed.
Print Assumptions C06_exactly.

(** Six pairs and options that meet the hypotheses. With three of them the destination is
    reached, although entries are reversed or a case is switched. *)
Example C06_exactly_case : (forall p, In p six_pairs -> ready p) /\
  Fits (at_depth 0) ex_schema ex_abc ex_cba /\ Fits (at_depth 1) ex_schema ex_tcp ex_udp /\
  Fits by_replace ex_schema ex_abc_dns ex_cba_dns /\
  ~ Fits (at_depth 1) ex_schema ex_abc ex_cba /\ ~ Fits (at_depth 2) ex_schema ex_tcp ex_udp /\ ~ Fits by_replace ex_schema ex_abc ex_cba.
Proof. exact (conj six_ready fits_case). Qed.

(** ** C07
    The same for diff_type='replace' and 'minimum-replace', at every depth. *)
Theorem C07_exactly : forall c r d n s a b,
  wfs s = true -> sty s = TRoot -> IsConfig s a -> IsConfig s b -> orderable s a = true -> orderable s b = true ->
  NoSwitch s a a -> NoSwitch s b b -> (r = PRMerge \/ TopLeafListsAgree s a b) ->
  (Reaches s (config_add_delta s a (Delta a b (Opts c r d DReplace n))) b <-> Fits (Opts c r d DReplace n) s a b) /\
  (Reaches s (config_add_delta s a (Delta a b (Opts c r d DMinimumReplace n))) b <-> Fits (Opts c r d DMinimumReplace n) s a b).
Proof. exact types_exactly. Qed.
Print Assumptions C07_exactly.

(** ** C10
    Where the order of the sum is that of the destination: exactly where replaying the moves
    ends there, at all nodes that are not set as wholes. *)
Theorem C10_exactly : forall o s a b,
  wfs s = true -> sty s = TRoot -> IsConfig s a -> IsConfig s b -> orderable s a = true -> orderable s b = true ->
  NoSwitch s a a -> NoSwitch s b b -> RootKept o s a b ->
  exists d r, delta_nc s (Delta a b o) = Ok d /\ nc_add s a d = Ok r /\
    forall p s' na nb nr t cs us vs ws, At s a p s' na -> At s b p s' nb -> At s r p s' nr -> ~ Whole o s a b p ->
      Defines s' t cs -> s_user (si cs) = true ->
      Order s' t (xkids na) us -> Order s' t (xkids nb) vs -> Order s' t (xkids nr) ws ->
      filter (among vs) ws = replay us vs.
Proof. exact order_exactly. Qed.
Print Assumptions C10_exactly.

(** What is set as a whole is in the order of the destination, and has its data. *)
Theorem C10_whole : forall o s a b,
  wfs s = true -> sty s = TRoot -> IsConfig s a -> IsConfig s b -> orderable s a = true -> orderable s b = true ->
  NoSwitch s a a -> NoSwitch s b b -> RootKept o s a b ->
  exists d r, delta_nc s (Delta a b o) = Ok d /\ nc_add s a d = Ok r /\
    forall p, Whole o s a b p ->
      (forall v, Holds s r p v <-> Holds s b p v) /\ (forall t us, UserOrder s r p t us <-> UserOrder s b p t us).
Proof. exact whole_exactly. Qed.
Print Assumptions C10_whole.

(** Reversed rules are set as a whole at depth 0 of diff_type='replace', and with
    preferred_replace='replace' if a leaf-list beside them changes. *)
Example C10_whole_case : Whole (at_depth 0) ex_schema ex_abc ex_cba [("sys", KNone)] /\
  Whole by_replace ex_schema ex_abc_dns ex_cba_dns [("sys", KNone)] /\ ~ Whole by_replace ex_schema ex_abc ex_cba [("sys", KNone)].
Proof. exact whole_case. Qed.

(** Three entries that are reversed end in the order of neither config. *)
Example C10_exactly_case : exists a b c, NoDup [a; b; c] /\ replay [a; b; c] [c; b; a] <> [c; b; a] /\ replay [a; b; c] [c; b; a] <> [a; b; c].
Proof. exact reversed_case. Qed.

(** ** C11
    A node of the source that the destination does not have stays exactly if the destination
    has a node of another case of the same choice and the delta does not delete nodes one by
    one at that depth; all the others are gone. Of the nodes that are set as wholes nothing
    stays (C10_whole). *)
Theorem C11_stays_exactly : forall o s a b,
  wfs s = true -> sty s = TRoot -> IsConfig s a -> IsConfig s b -> orderable s a = true -> orderable s b = true ->
  NoSwitch s a a -> NoSwitch s b b -> RootKept o s a b ->
  exists d r, delta_nc s (Delta a b o) = Ok d /\ nc_add s a d = Ok r /\
    forall p s' na nb nr c cs u, At s a p s' na -> At s b p s' nb -> At s r p s' nr -> ~ Whole o s a b p ->
      Defines s' (xtag c) cs -> Ident cs c u -> ~ HasKid s' nb u ->
      (In c (xkids nr) <-> In c (xkids na) /\ ~ ReplLevel o (length p) /\ exists cb, In cb (xkids nb) /\ OtherCase s' c cb).
Proof. exact stays_exactly. Qed.
Print Assumptions C11_stays_exactly.

Example C11_stays_case : exists s' na nb c cb, At ex_schema ex_tcp [("sys", KNone)] s' na /\ At ex_schema ex_udp [("sys", KNone)] s' nb /\
  In c (xkids na) /\ In cb (xkids nb) /\ OtherCase s' c cb /\ ~ HasKid s' nb ("tcp-port", KNone).
Proof. exact stays_case. Qed.

(** So a switch is never reached, whatever else changes. *)
Theorem C11_no_switch_reached : forall o s a b,
  wfs s = true -> sty s = TRoot -> IsConfig s a -> IsConfig s b -> orderable s a = true -> orderable s b = true ->
  NoSwitch s a a -> NoSwitch s b b -> o_replace o = PRMerge -> o_type o <> DReplace -> ~ NoSwitch s a b ->
  ~ Reaches s (config_add_delta s a (Delta a b o)) b.
Proof. exact switch_never. Qed.
Print Assumptions C11_no_switch_reached.

(** ** C08
    Taking the delta away from its destination gives the source back exactly if the moves of
    the way back end in the order of the source and no choice changes its case. For all
    options of the delta. *)
Theorem C08_exactly : forall o s a b,
  wfs s = true -> sty s = TRoot -> IsConfig s a -> IsConfig s b -> orderable s a = true -> orderable s b = true ->
  NoSwitch s a a -> NoSwitch s b b ->
  (Reaches s (config_sub_delta s b (Delta a b o)) a <-> EndsInPlace s b a /\ NoSwitch s b a).
Proof. exact undo_exactly. Qed.
Print Assumptions C08_exactly.

Example C08_exactly_case : EndsInPlace ex_schema ex_abc ex_ba /\ ~ EndsInPlace ex_schema ex_ba ex_abc /\
  NoSwitch ex_schema ex_ba ex_abc /\ EndsInPlace ex_schema ex_cbxa ex_abc.
Proof. exact undo_case. Qed.

(** The way back can fail where the way there does not: the second condition is not the
    first one. *)
Theorem C08_one_way_refuted : exists s a b r,
  wfs s = true /\ sty s = TRoot /\ IsConfig s a /\ IsConfig s b /\ orderable s a = true /\ orderable s b = true /\
  NoSwitch s a b /\ Reaches s (config_add_delta s a (config_sub b a)) b /\
  config_sub_delta s b (config_sub b a) = Ok r /\ cmp_eq s r a = Ok false.
Proof. exact one_way. Qed.
Print Assumptions C08_one_way_refuted.
