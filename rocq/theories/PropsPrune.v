(** C19-C24, C63: validation, filter, extraction, reordering, the replace marker. *)
From Coq Require Import String Ascii List Bool Arith ZArith Lia Permutation.
From Verif Require Import Base XmlM CalcM NetconfM ConfigM FilterM ReorderM DataSpec DeltaSpec PruneSpec PruneP FilterP
  ReorderSpec ReorderP PrunePropsP ExampleM.
Import ListNotations.
Open Scope string_scope.
Open Scope list_scope.
Open Scope nat_scope.

(** ** C19
    Full statement: no node at all has an edit attribute, and every list entry has its
    keys. Missing: attributes of nodes without children (they are not looked at, see
    [C19_leaf_attribute_refuted]) and keys which validation itself removes. *)
Theorem C19_status : forall rd s x y sn n, config_new true rd s x = Ok y -> Below s y sn n ->
  s_status (si sn) <> "obsolete" /\ (rd = true -> s_status (si sn) <> "deprecated") /\
  (xkids n = [] -> sty sn <> TList /\ ~ (sty sn = TContainer /\ s_presence (si sn) = false)).
Proof.
  intros rd s x y sn n H B. destruct (config_new_validate _ _ _ _ H) as (e & _ & _ & V). exact (validated_nodes _ _ _ _ _ _ V B).
Qed.
Print Assumptions C19_status.

Theorem C19_keys_partial : forall rd s x y sn n k, config_new true rd s x = Ok y -> Below s y sn n -> sty sn = TList ->
  KeysLive rd sn -> In k (s_keys (si sn)) -> HasKid k n.
Proof.
  intros rd s x y sn n k H B T L I. destruct (config_new_validate _ _ _ _ H) as (e & _ & _ & V).
  exact (validated_keys _ _ _ _ _ _ _ V B T L I).
Qed.
Print Assumptions C19_keys_partial.

Theorem C19_attributes_partial : forall rd s x y sn n, config_new true rd s x = Ok y -> Below s y sn n -> sty sn <> TRoot ->
  xkids n <> [] -> ~ EditAttr n.
Proof.
  intros rd s x y sn n H B T N. destruct (config_new_validate _ _ _ _ H) as (e & _ & _ & V).
  exact (validated_inner _ _ _ _ _ _ V B T N).
Qed.
Print Assumptions C19_attributes_partial.

(** A tree of known nodes is accepted exactly if every inner node has its keys and no
    edit attribute. *)
Theorem C19_accepts : forall rd s x, sty s = TRoot -> known s x ->
  ((exists y, validate rd s x = Ok y) <->
   (forall sn n, Within s x sn n -> sty sn <> TRoot -> xkids n <> [] -> Acceptable sn n)).
Proof. exact validate_accepts. Qed.
Print Assumptions C19_accepts.

(** What is removed, and that nothing else changes. *)
Theorem C19_removes : forall rd s x y, known s x -> validate rd s x = Ok y -> Pruned (fun p => ~ Voided rd s x p) x y.
Proof. exact validate_spec. Qed.
Print Assumptions C19_removes.

Theorem C19_leaf_attribute_refuted : exists s x y sn n, sty s = TRoot /\ config_new true false s x = Ok y /\
  Below s y sn n /\ EditAttr n.
Proof. exact leaf_attribute. Qed.
Print Assumptions C19_leaf_attribute_refuted.

Theorem C19_obsolete_key_refuted : exists s x y sn n k, sty s = TRoot /\ valid s x = true /\ config_new true false s x = Ok y /\
  Below s y sn n /\ sty sn = TList /\ In k (s_keys (si sn)) /\ ~ HasKid k n.
Proof. exact obsolete_key. Qed.
Print Assumptions C19_obsolete_key_refuted.

(** The obsolete leaf goes, the deprecated one only if asked for. *)
Example C19_case : (exists y, config_new true false pr_schema pr_x = Ok y /\ length (places [] y) = length (places [] pr_x) - 1) /\
  (exists y, config_new true true pr_schema pr_x = Ok y /\ length (places [] y) = length (places [] pr_x) - 2).
Proof. split; eexists; split; vm_compute; reflexivity. Qed.

(** ** C20 *)
Theorem C20_filter : forall s xpath x c l, config_new true false s x = Ok c -> xpath c = XNodes l -> elements l <> [] ->
  exists y, config_filter s xpath x = Ok y /\ Pruned (FilterKeeps s c (elements l)) c y.
Proof. exact config_filter_spec. Qed.
Print Assumptions C20_filter.

Theorem C20_nothing_selected : forall s xpath x c l, config_new true false s x = Ok c -> xpath c = XNodes l -> elements l = [] ->
  config_filter s xpath x = Ok empty_config.
Proof. exact config_filter_nothing. Qed.
Print Assumptions C20_nothing_selected.
Example C20_nothing_case : (exists c, config_new true false pr_schema pr_x = Ok c) /\ elements [None] = [] /\
  config_filter pr_schema (fun _ => XNodes [None]) pr_x = Ok empty_config.
Proof. split; [eexists; vm_compute; reflexivity |]. split; vm_compute; reflexivity. Qed.

(** An expression whose value is a number, string or boolean selects no node, but
    everything is kept. *)
Theorem C20_scalar_refuted : exists s xpath x y, sty s = TRoot /\ xpath x = XScalar /\ config_filter s xpath x = Ok y /\ xkids y <> [].
Proof. exact scalar_keeps. Qed.
Print Assumptions C20_scalar_refuted.

(** The address of the second interface: its keys stay, its mtu goes. *)
Example C20_case :
  config_filter pr_schema (fun _ => XNodes [Some [0; 4; 3; 0]; None]) pr_x =
  Ok (e_config [ e_node "sys" [ e_node "if" [ e_leaf "name" "b"; e_node "ip" [ e_leaf "addr" "10.0.0.2" ] ] ] ]).
Proof. vm_compute. reflexivity. Qed.

(** ** C21 *)
Theorem C21_extract : forall rd s reply c, config_new true rd s reply = Ok c ->
  exists y, extract_config rd s reply = Ok y /\ Pruned (fun p => ~ ReadOnly s c p) c y.
Proof. exact extract_spec. Qed.
Print Assumptions C21_extract.

Example C21_case : exists c, config_new true false pr_schema pr_x = Ok c /\
  exists y, extract_config false pr_schema pr_x = Ok y /\ length (places [] y) = length (places [] c) - 3.
Proof. eexists. split; [vm_compute; reflexivity |]. eexists. split; vm_compute; reflexivity. Qed.

(** The doc string says that the results of get and of get-config are equal. They are
    not if a container held state only: it is left behind, empty. *)
Theorem C21_docstring_refuted : exists s r1 r2 c1 c2, sty s = TRoot /\
  extract_config false s r1 = Ok c1 /\ extract_config false s r2 = Ok c2 /\
  trim s c1 <> Ok c1 /\ trim s c1 = Ok c2 /\ cmp_eq s c1 c2 = Ok false.
Proof. exact extract_differs. Qed.
Print Assumptions C21_docstring_refuted.

(** ** C22 *)
Theorem C22_reorder : forall draw s d r n z e y, FairDraw (draw z) -> r_depth r = Some n -> r_seed r = Some z ->
  delta_nc s d = Ok e -> delta_nc_random draw s d r = Ok y -> Shuffled n s e y /\ SameNodes e y.
Proof. exact reorder_result. Qed.
Print Assumptions C22_reorder.

Theorem C22_total : forall draw d s x, FairDraw draw -> known s x -> exists y, reorder draw d s x = Ok y.
Proof. exact reorder_total. Qed.
Print Assumptions C22_total.

(** With two children besides the keys the order always changes. *)
Theorem C22_two : forall draw s t tx a keys c1 c2 sc,
  (forall k, In k keys -> exists sk, schema_child s (xtag k) = Ok sk /\ s_is_key (si sk) = true) ->
  schema_child s (xtag c1) = Ok sc -> s_is_key (si sc) = false ->
  reorder draw 0 s (Elem t tx a (keys ++ [c1; c2])) = Ok (Elem t tx a (keys ++ [c2; c1])).
Proof. exact two_swapped. Qed.
Print Assumptions C22_two.
Example C22_two_case : exists sk sc, let s := s_list "if" false ["name"] [ s_key "name"; s_leaf "mtu"; s_leaf "ip" ] in
  schema_child s "name" = Ok sk /\ s_is_key (si sk) = true /\ schema_child s "mtu" = Ok sc /\ s_is_key (si sc) = false /\
  reorder (swap_draw 5) 0 s (e_node "if" [e_leaf "name" "a"; e_leaf "mtu" "1"; e_leaf "ip" ""]) = Ok (e_node "if" [e_leaf "name" "a"; e_leaf "ip" ""; e_leaf "mtu" "1"]).
Proof. do 2 eexists. repeat split; vm_compute; reflexivity. Qed.

Example C22_case : FairDraw (swap_draw 5) /\ delta_nc_random swap_draw ex_schema (config_sub ex_b ex_a) (rand_new (Some 0) (Some 5%Z)) <>
  delta_nc ex_schema (config_sub ex_b ex_a).
Proof. split; [apply swap_fair | vm_compute; discriminate]. Qed.

(** ** C63 *)
Theorem C63_reordered_delta_refuted : exists s a b n z e c, sty s = TRoot /\ valid s a = true /\ valid s b = true /\
  delta_nc_random swap_draw s (config_sub b a) (rand_new (Some n) (Some z)) = Ok e /\
  config_add s a e = Ok c /\ cmp_eq s c b = Ok false.
Proof. exact reorder_breaks. Qed.
Print Assumptions C63_reordered_delta_refuted.

Theorem C63_reordered_delta_fails_refuted : exists s a b n z e, sty s = TRoot /\ valid s a = true /\ valid s b = true /\
  delta_nc_random swap_draw s (config_sub b a) (rand_new (Some n) (Some z)) = Ok e /\
  config_add s a e = Err ConfigDeltaError.
Proof. exact reorder_fails. Qed.
Print Assumptions C63_reordered_delta_fails_refuted.

(** ** C23
    Full statement: whichever way the options are given, a depth without a seed leads
    to a generated seed. True of the setter, false of the constructor. *)
Theorem C23_setter_partial : forall r ops v gen, let r' := rand_run r (ops ++ [SetSeed v gen]) in
  match r_depth r' with
  | None => r_seed r' = None
  | Some _ => r_seed r' = Some (match v with None => gen | Some z => z end)
  end.
Proof. exact seed_after_setter. Qed.
Print Assumptions C23_setter_partial.

(** The constructor stores None and the delta is never reordered, whatever is drawn. *)
Theorem C23_constructor_refuted : forall draw s d n, delta_nc_random draw s d (rand_new (Some n) None) = delta_nc s d.
Proof. exact no_seed. Qed.
Print Assumptions C23_constructor_refuted.

(** The seed is not always None when the depth is. *)
Theorem C23_seed_without_depth_refuted : exists v, r_depth (rand_new None v) = None /\ r_seed (rand_new None v) <> None.
Proof. exists (Some 7%Z). split; [reflexivity | discriminate]. Qed.
Print Assumptions C23_seed_without_depth_refuted.

Example C23_case : rand_run (rand_new None None) [SetDepth (Some 2); SetSeed None 1234%Z] = RandOpts (Some 2) (Some 1234%Z).
Proof. reflexivity. Qed.

(** ** C24 *)
Theorem C24_marked : forall x d name value, exists y, add_attribute_at_depth x d name value = Ok y /\ Marked name value d x y.
Proof. exact loop_marked. Qed.
Print Assumptions C24_marked.

Theorem C24_delta : forall o s b a y, o_type o = DMinimumReplace -> nc_sub o s b a = Ok y ->
  exists e, nc_sub (as_minimum o) s b a = Ok e /\ Marked "operation" "replace" (o_depth o + 1) e y.
Proof. exact sub_marked. Qed.
Print Assumptions C24_delta.

(** The queue loop and the recursive form used in [nc_sub] are the same function. *)
Theorem C24_loop : forall x d, add_attribute_at_depth x d "operation" "replace" = Ok (mark_depth d x).
Proof. exact mark_loop_depth. Qed.
Print Assumptions C24_loop.

Example C24_case : exists y, nc_sub (Opts PCMerge PRMerge PDDelete DMinimumReplace 0) ex_schema ex_b ex_a = Ok y /\
  map (get_attr "operation") (xkids y) = [Some "replace"; Some "replace"] /\ get_attr operation_tag (hd y (xkids y)) = None.
Proof. eexists. split; [vm_compute; reflexivity |]. split; vm_compute; reflexivity. Qed.
