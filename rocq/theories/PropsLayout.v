(** C96: the text that layout puts into containers. *)
From Coq Require Import String List Bool Arith ZArith Lia.
From Verif Require Import Base XmlM CalcM NetconfM ConfigM DataSpec DeltaSpec MoveSpec ConfigSpec CompatP ConfigP LayoutSpec LayoutPropsP ExampleM.
Import ListNotations.
Open Scope string_scope.
Open Scope list_scope.

Definition la_schema : snode :=
  s_root [ s_cont "sys" [ s_leaf "host"; s_list "rule" true ["id"] [ s_key "id"; s_leaf "action"; s_cont "log" [ s_leaf "to" ] ] ] ].
Definition la_rule (tx : option string) (i a : string) : xml := e_node "rule" [ e_leaf "id" i; e_leaf "action" a; Elem "log" tx [] [ e_leaf "to" "disk" ] ].
Definition la_cfg (tx : option string) (h : string) (l : list xml) : xml := e_config [ Elem "sys" tx [] (e_leaf "host" h :: l) ].
Definition la_nl : option string := Some "
  ".
Definition la_a : xml := la_cfg la_nl "r1" [ la_rule None "1" "permit"; la_rule la_nl "2" "deny" ].
Definition la_a' : xml := la_cfg None "r1" [ la_rule la_nl "1" "permit"; la_rule None "2" "deny" ].
Definition la_b : xml := la_cfg None "r2" [ la_rule la_nl "3" "permit"; la_rule None "1" "permit"; la_rule la_nl "2" "permit" ].
Definition la_b' : xml := la_cfg la_nl "r2" [ la_rule None "3" "permit"; la_rule la_nl "1" "permit"; la_rule None "2" "permit" ].
Example C96_case : SameBut la_schema la_a la_a' /\ la_a <> la_a' /\ SameBut la_schema la_b la_b' /\ wfs la_schema = true /\ sty la_schema = TRoot /\
  IsConfig la_schema (unspaced la_schema la_a) /\ IsConfig la_schema (unspaced la_schema la_b) /\ ~ IsConfig la_schema la_a /\ Comparable la_schema (unspaced la_schema la_a) (unspaced la_schema la_b).
Proof.
  split; [vm_compute; reflexivity |]. split; [discriminate |]. split; [vm_compute; reflexivity |]. split; [vm_compute; reflexivity |]. split; [vm_compute; reflexivity |].
  split; [repeat split; vm_compute; reflexivity |]. split; [repeat split; vm_compute; reflexivity |]. split; [intros (V & _); vm_compute in V; discriminate |].
  split; [vm_compute; reflexivity |]. split; [vm_compute; reflexivity |]. split; [apply inplace_Ends | apply (compat_NoSwitch true)]; vm_compute; reflexivity.
Qed.

(** ** C96
    Comparisons do not see the text of containers, whatever the trees. *)
Theorem C96_compare : forall s a a' b b', wfs s = true -> SameBut s a a' -> SameBut s b b' ->
  cmp_le s a b = cmp_le s a' b' /\ cmp_lt s a b = cmp_lt s a' b' /\ cmp_ge s a b = cmp_ge s a' b' /\
  cmp_gt s a b = cmp_gt s a' b' /\ cmp_eq s a b = cmp_eq s a' b' /\ cmp_ne s a b = cmp_ne s a' b'.
Proof. exact compare_but. Qed.
Print Assumptions C96_compare.
Example C96_compare_case : cmp_eq la_schema la_a la_a' = Ok true /\ cmp_eq la_schema la_a la_b = Ok false.
Proof. vm_compute. auto. Qed.

(** Nor do the removal of defaults and the validation when a config is built: trees that
    differ in it only become such configs, or are refused in the same way. *)
Theorem C96_built : forall check rd s x y, SameBut s (retrieve x) (retrieve y) -> OutBut s (config_new check rd s x) (config_new check rd s y).
Proof. exact new_but. Qed.
Print Assumptions C96_built.
Example C96_built_case : SameBut la_schema (retrieve la_a) (retrieve la_a') /\ exists r, config_new true true la_schema la_a = Ok r.
Proof. split; [vm_compute; reflexivity | eexists; vm_compute; reflexivity]. Qed.

(** Deltas of such trees, with all options, differ in it only. *)
Theorem C96_delta : forall o s a a' b b', wfs s = true -> SameBut s a a' -> SameBut s b b' ->
  OutBut s (delta_nc s (Delta a b o)) (delta_nc s (Delta a' b' o)).
Proof. exact delta_but. Qed.
Print Assumptions C96_delta.
Example C96_delta_case : exists d d', delta_nc la_schema (config_sub la_b la_a) = Ok d /\ delta_nc la_schema (config_sub la_b' la_a') = Ok d' /\ d <> d'.
Proof. eexists. eexists. split; [vm_compute; reflexivity |]. split; [vm_compute; reflexivity |]. discriminate. Qed.

(** So do sums, if what is added names the places of list entries by children that are no
    containers. *)
Theorem C96_sum : forall s x x' y y', wfs s = true -> KeyRefs s y -> xtag x = config_tag -> SameBut s x x' -> SameBut s y y' ->
  OutBut s (config_add s x y) (config_add s x' y').
Proof. exact sum_but. Qed.
Print Assumptions C96_sum.

(** All deltas do so. *)
Theorem C96_refs : forall o s a b d, wfs s = true -> IsConfig s a -> IsConfig s b -> orderable s b = true -> delta_nc s (Delta a b o) = Ok d -> KeyRefs s d.
Proof. exact delta_refs. Qed.
Print Assumptions C96_refs.
Example C96_refs_case : exists d c, delta_nc la_schema (config_sub (unspaced la_schema la_b) (unspaced la_schema la_a)) = Ok d /\
  In c (flat_map xkids (xkids d)) /\ exists p, get_attr key_tag c = Some p.
Proof. eexists. eexists. split; [vm_compute; reflexivity |]. split; [right; right; left; reflexivity |]. eexists. vm_compute. reflexivity. Qed.

(** Hence the round trip of C06 for configs with such text. *)
Theorem C96_round_trip : forall o s a b, wfs s = true -> sty s = TRoot -> IsConfig s (unspaced s a) -> IsConfig s (unspaced s b) ->
  Comparable s (unspaced s a) (unspaced s b) -> RootKept o s (unspaced s a) (unspaced s b) ->
  exists r, config_add_delta s a (Delta a b o) = Ok r /\ IsConfig s (unspaced s r) /\ SameData s (unspaced s r) (unspaced s b) /\ cmp_eq s r b = Ok true.
Proof. exact layout_round_trip. Qed.
Print Assumptions C96_round_trip.
Example C96_round_trip_case : RootKept default_opts la_schema (unspaced la_schema la_a) (unspaced la_schema la_b) /\
  exists r, config_add_delta la_schema la_a (config_sub la_b la_a) = Ok r /\ r <> la_b /\ ~ SameBut la_schema r la_a.
Proof. split; [left; reflexivity |]. eexists. split; [vm_compute; reflexivity |]. split; [discriminate | vm_compute; discriminate]. Qed.

(** Full statement: the text of inner nodes does not matter. It does in list entries: two
    configs that differ in it only are not equal, and the delta between them does not lead
    from one to the other. *)
Theorem C96_lists_refuted : exists s a b r, wfs s = true /\ IsConfig s b /\ blanked s a = b /\ cmp_eq s a b = Ok false /\
  config_add_delta s a (config_sub b a) = Ok r /\ cmp_eq s r b = Ok false.
Proof.
  exists la_schema, (e_config [ e_node "sys" [ e_leaf "host" "r1"; Elem "rule" la_nl [] [ e_leaf "id" "1" ] ] ]),
    (e_config [ e_node "sys" [ e_leaf "host" "r1"; e_node "rule" [ e_leaf "id" "1" ] ] ]). eexists.
  split; [vm_compute; reflexivity |]. split; [repeat split; vm_compute; reflexivity |]. repeat split; vm_compute; reflexivity.
Qed.
Print Assumptions C96_lists_refuted.

(** And it does where an edit names a list entry by the text of a container. *)
Theorem C96_named_refuted : exists s x x' y, wfs s = true /\ xtag x = config_tag /\ SameBut s x x' /\ ~ OutBut s (config_add s x y) (config_add s x' y).
Proof.
  exists la_schema, (la_cfg None "r1" [ la_rule (Some "w") "1" "permit" ]), (la_cfg None "r1" [ la_rule None "1" "permit" ]),
    (e_config [ e_node "sys" [ Elem "rule" None [(insert_tag, "before"); (key_tag, "[log='w']")] [ e_leaf "id" "2" ] ] ]).
  split; [vm_compute; reflexivity |]. split; [reflexivity |]. split; [vm_compute; reflexivity |]. vm_compute. discriminate.
Qed.
Print Assumptions C96_named_refuted.
