(** C78: the operators of configs and deltas. *)
From Coq Require Import String Ascii List Bool Arith ZArith Lia.
From Verif Require Import Base XmlM CalcM NetconfM ConfigM DataSpec DeltaSpec ConfigSpec CompatM CompatSpec CompatPropsP OperM OperSpec OperP OperPropsP.
Import ListNotations.
Open Scope string_scope.
Open Scope list_scope.

(** ** C78
    Full statement: for all configs [a] and [b] that may be combined, [a + (b - a)] and
    [(b - a) + a] equal [b], [b - (b - a)] equals [a], [-(-d)] acts as [d], a delta made from
    an element leads where the element leads; all other pairs of operands are refused.
    Missing from the proved part: the pairs of configs that C05 leaves out; a delta plus
    something that is no config. *)
Theorem C78_sum_partial : forall a b, Suited a b -> Proper a -> Proper b -> ConfigSpec.Comparable (g_schema a) (g_ele a) (g_ele b) ->
  exists d, py_sub (PCfg b) (PCfg a) = Ok (PDel d) /\
    py_add (PDel d) (PCfg a) = py_add (PCfg a) (PDel d) /\ IsLike (py_add (PCfg a) (PDel d)) a b.
Proof. exact sum_law. Qed.
Print Assumptions C78_sum_partial.

Theorem C78_undo_partial : forall a b o, Suited a b -> Proper a -> Proper b -> ConfigSpec.Comparable (g_schema b) (g_ele b) (g_ele a) ->
  IsLike (py_sub (PCfg b) (PDel (Dlt a b o))) b a /\
  exists n, py_neg (PDel (Dlt a b o)) = Ok (PDel n) /\ IsLike (py_add (PCfg b) (PDel n)) b a.
Proof. exact undo_law. Qed.
Print Assumptions C78_undo_partial.

(** Configs of two devices whose schemas differ in the order of nodes *)
Example C78_case : Suited ox_a ox_b /\ Proper ox_a /\ Proper ox_b /\ g_schema ox_a <> g_schema ox_b /\
  ConfigSpec.Comparable (g_schema ox_a) (g_ele ox_a) (g_ele ox_b) /\ ConfigSpec.Comparable (g_schema ox_b) (g_ele ox_b) (g_ele ox_a) /\
  py_cmp CEq (PCfg ox_a) (PCfg ox_b) = Ok false.
Proof.
  split; [exact ox_suited |]. split; [exact ox_proper_a |]. split; [exact ox_proper_b |]. split; [vm_compute; discriminate |].
  split; [exact cx_comparable |]. split; [exact ox_back | vm_compute; reflexivity].
Qed.

(** All configs of one device may be combined, if its models are in order. *)
Theorem C78_one_device : forall a b, g_dev a = g_dev b -> Fine (g_dev a) -> Stored (g_dev a) -> OneLocal (g_dev a) ->
  RootsLoaded (OCfg (g_tops a)) -> RootsLoaded (OCfg (g_tops b)) -> Suited a b.
Proof. exact suited_one. Qed.
Print Assumptions C78_one_device.
Example C78_one_device_case : g_dev ox_a = g_dev ox_c /\ Fine cx_d1 /\ Stored cx_d1 /\ OneLocal cx_d1 /\
  RootsLoaded (OCfg (g_tops ox_a)) /\ RootsLoaded (OCfg (g_tops ox_c)) /\ py_cmp CEq (PCfg ox_a) (PCfg ox_c) = Ok false.
Proof.
  split; [reflexivity |]. split; [exact cx_fine1 |]. split; [exact cx_stored1 |]. split; [exact cx_local |].
  split; [exact cx_roots1 |]. split; [exact cx_roots1 | vm_compute; reflexivity].
Qed.

(** Twice negated, a delta leads from the same config to the same config. Its options are
    lost. *)
Theorem C78_negation : forall d, Suited (l_src d) (l_dst d) ->
  exists n m, py_neg (PDel d) = Ok (PDel n) /\ py_neg (PDel n) = Ok (PDel m) /\
    l_src n = l_dst d /\ l_dst n = l_src d /\ m = Dlt (l_src d) (l_dst d) default_sopts /\ py_pos (PDel d) = Ok (PDel d).
Proof. exact neg_law. Qed.
Print Assumptions C78_negation.
Example C78_negation_case : exists d, Suited (l_src d) (l_dst d) /\ l_opts d <> default_sopts /\ l_src d <> l_dst d.
Proof. exists (Dlt ox_a ox_b (SOpts "create" "merge" "remove" "minimum" 0)). split; [exact ox_suited |]. split; discriminate. Qed.

(** Which operands go together *)
Theorem C78_sum_kinds_partial : forall x y, (kind_of x = KDelta -> kind_of y = KConfig) ->
  (forall k v, Sum (kind_of x) (kind_of y) k -> py_add x y = Ok v -> kind_of v = k) /\
  ((forall k, ~ Sum (kind_of x) (kind_of y) k) -> py_add x y = Err TypeError).
Proof. exact sum_kinds. Qed.
Print Assumptions C78_sum_kinds_partial.

Theorem C78_difference_kinds : forall x y,
  (forall k v, Difference (kind_of x) (kind_of y) k -> py_sub x y = Ok v -> kind_of v = k) /\
  ((forall k, ~ Difference (kind_of x) (kind_of y) k) -> py_sub x y = Err TypeError).
Proof. exact difference_kinds. Qed.
Print Assumptions C78_difference_kinds.

(** The sum of two deltas, or of a delta and an element, is None and no error. *)
Theorem C78_delta_sum_refuted : forall d y, kind_of y <> KConfig -> py_add (PDel d) y = Ok PNone.
Proof. intros d y N. destruct y; try reflexivity. exfalso. apply N. reflexivity. Qed.
Print Assumptions C78_delta_sum_refuted.
Example C78_delta_sum_case : kind_of (PDel (Dlt ox_a ox_b default_sopts)) <> KConfig /\
  exists v, py_add (PCfg ox_a) (PDel (Dlt ox_a ox_b default_sopts)) = Ok (PCfg v).
Proof. split; [discriminate |]. eexists. vm_compute. reflexivity. Qed.

(** Only configs are compared; anything else raises, also [==] of a delta with itself. *)
Theorem C78_compare : forall o x y, kind_of x = KConfig \/ kind_of x = KDelta \/ kind_of y = KConfig \/ kind_of y = KDelta ->
  kind_of x <> KConfig \/ kind_of y <> KConfig -> py_cmp o x y = Err TypeError.
Proof. exact cmp_kinds. Qed.
Print Assumptions C78_compare.
Example C78_compare_case : py_cmp CEq PNone (PCfg ox_a) = Err TypeError /\ py_cmp CLe (PCfg ox_a) (PCfg ox_sum) = Ok false /\
  py_cmp CNe (PCfg ox_a) (PCfg ox_c) = Ok true.
Proof. repeat split; vm_compute; reflexivity. Qed.

(** Between configs of one device each operator asks what it says. *)
Theorem C78_asks : forall o a b, g_schema a = g_schema b -> valid (g_schema a) (g_ele a) = true -> valid (g_schema b) (g_ele b) = true ->
  xtag (g_ele a) = xtag (g_ele b) -> exists r, py_cmp o (PCfg a) (PCfg b) = Ok r /\ (r = true <-> Asks o (g_schema a) (g_ele a) (g_ele b)).
Proof. exact cmp_asks. Qed.
Print Assumptions C78_asks.
Example C78_asks_case : g_schema ox_a = g_schema ox_c /\ valid (g_schema ox_a) (g_ele ox_a) = true /\ valid (g_schema ox_c) (g_ele ox_c) = true /\
  xtag (g_ele ox_a) = xtag (g_ele ox_c) /\ py_cmp CLt (PCfg (Cfg cx_d1 (cx_cfg []))) (PCfg ox_a) = Ok true.
Proof. repeat split; vm_compute; reflexivity. Qed.

(** A delta plus a config is not checked: where config plus delta is refused because the
    devices differ, delta plus config gives a config. *)
Theorem C78_unchecked_refuted : exists d c v, py_sub (PCfg ox_e1') (PCfg ox_e1) = Ok (PDel d) /\
  py_add (PCfg c) (PDel d) = Err ModelIncompatible /\ py_add (PDel d) (PCfg c) = Ok (PCfg v).
Proof. exists (Dlt ox_e1 ox_e1' default_sopts), ox_e2. eexists. repeat split; vm_compute; reflexivity. Qed.
Print Assumptions C78_unchecked_refuted.

(** ** The constructor *)
Theorem C78_options : forall a b o rd, Suited a b ->
  (GoodPreferences o /\ GoodDepth rd -> delta_new (PCfg a) (PCfg b) DNone o rd = Ok (Dlt a b o)) /\
  (~ (GoodPreferences o /\ GoodDepth rd) -> delta_new (PCfg a) (PCfg b) DNone o rd = Err ValueError).
Proof. exact new_options. Qed.
Print Assumptions C78_options.

(** Arguments of the wrong kind are refused; a text that is no XML raises what the XML parser
    raises. *)
Theorem C78_arguments : forall src dst da o rd, GoodPreferences o -> GoodDepth rd ->
  kind_of src <> KConfig \/ (exists v, da = DVal v /\ kind_of v <> KElement) \/
    (forall x, da <> DStr (Err x)) /\ kind_of dst <> KConfig /\ dst <> PNone ->
  delta_new src dst da o rd = Err TypeError.
Proof. exact wrong_arguments. Qed.
Print Assumptions C78_arguments.
Example C78_arguments_case : GoodPreferences default_sopts /\ GoodDepth RNone /\ kind_of (PDel (Dlt ox_a ox_b default_sopts)) <> KElement /\
  delta_new (PCfg ox_a) PNone DNone default_sopts RNone = Ok (Dlt ox_a ox_a default_sopts) /\
  delta_new (PCfg ox_a) (PCfg ox_b) DNone default_sopts RNone = Ok (Dlt ox_a ox_b default_sopts).
Proof.
  split; [unfold GoodPreferences; simpl; tauto |]. split; [left; reflexivity |]. split; [discriminate |].
  split; vm_compute; reflexivity.
Qed.

(** Attributes assigned later are looked at when the delta is computed. *)
Theorem C78_assigned : forall d,
  (GoodPreferences (l_opts d) -> exists o, Reads (l_opts d) o /\ l_nc d = nc_sub o (g_schema (l_src d)) (g_ele (l_dst d)) (g_ele (l_src d))) /\
  (~ GoodPreferences (l_opts d) -> l_nc d = Err ValueError).
Proof. exact nc_options. Qed.
Print Assumptions C78_assigned.
Example C78_options_case : GoodPreferences (SOpts "replace" "replace" "remove" "replace" 2) /\ GoodDepth (RInt 3) /\
  ~ GoodDepth (RInt (-1)) /\ ~ GoodPreferences (SOpts "merge" "create" "delete" "minimum" 0).
Proof.
  split; [unfold GoodPreferences; simpl; tauto |]. split; [right; exists 3%Z; split; [reflexivity | lia] |].
  split; [intros [H | (z & H & L)]; [discriminate | injection H as <-; lia] |].
  intros (_ & H & _). simpl in H. intuition discriminate.
Qed.

(** A [diff_type] that does not exist is taken without a word and means 'minimum'. *)
Theorem C78_type_refuted : exists o a b d, ~ GoodType o /\ Suited a b /\ delta_new (PCfg a) (PCfg b) DNone o RNone = Ok d /\
  l_nc d = l_nc (Dlt a b default_sopts) /\ exists e, l_nc d = Ok e.
Proof.
  exists (SOpts "merge" "merge" "delete" "replaced" 0), ox_a, ox_b. eexists.
  split; [unfold GoodType; simpl; intuition discriminate |]. split; [exact ox_suited |]. split; [vm_compute; reflexivity |].
  split; [vm_compute; reflexivity |]. eexists. vm_compute. reflexivity.
Qed.
Print Assumptions C78_type_refuted.
Theorem C78_other_type : forall a b o, ~ GoodType o ->
  l_nc (Dlt a b o) = l_nc (Dlt a b (SOpts (so_create o) (so_replace o) (so_delete o) "minimum" (so_depth o))).
Proof. exact other_type. Qed.
Print Assumptions C78_other_type.

(** A delta made from an element or a string, whatever its envelope, leads where adding
    its content leads; [config_dst] is ignored. *)
Theorem C78_delta_argument : forall a dst o rd ks e,
  GoodPreferences o -> GoodDepth rd -> kind_of dst = KConfig \/ dst = PNone -> Envelope ks e ->
  delta_new (PCfg a) dst (DVal (PEle e)) o rd = delta_new (PCfg a) dst (DStr (Ok e)) o rd /\
  (forall b, py_add (PCfg a) (PEle (Elem (nc "config") None [] ks)) = Ok (PCfg b) -> delta_new (PCfg a) dst (DVal (PEle e)) o rd = Ok (Dlt a b o)) /\
  (forall x, py_add (PCfg a) (PEle (Elem (nc "config") None [] ks)) = Err x -> delta_new (PCfg a) dst (DVal (PEle e)) o rd = Err x).
Proof. exact delta_arg. Qed.
Print Assumptions C78_delta_argument.

Theorem C78_delta_leads_partial : forall a b dst ks e, kind_of dst = KConfig \/ dst = PNone -> Envelope ks e ->
  py_add (PCfg a) (PEle (Elem (nc "config") None [] ks)) = Ok (PCfg b) ->
  Suited a b -> Proper a -> Proper b -> ConfigSpec.Comparable (g_schema a) (g_ele a) (g_ele b) ->
  exists d, delta_new (PCfg a) dst (DVal (PEle e)) default_sopts RNone = Ok d /\ IsLike (py_add (PCfg a) (PDel d)) a b.
Proof. exact delta_arg_law. Qed.
Print Assumptions C78_delta_leads_partial.
Example C78_delta_leads_case :
  Envelope ox_add (Elem (nc "rpc") None [] [Elem (nc "edit-config") None [] [Elem (nc "target") None [] []; Elem (nc "config") None [] ox_add]]) /\
  py_add (PCfg ox_a) (PEle (Elem (nc "config") None [] ox_add)) = Ok (PCfg ox_sum) /\
  Suited ox_a ox_sum /\ Proper ox_a /\ Proper ox_sum /\ ConfigSpec.Comparable (g_schema ox_a) (g_ele ox_a) (g_ele ox_sum).
Proof.
  split.
  { apply (env_rpc ox_add None [] (Elem (nc "edit-config") None [] [Elem (nc "target") None [] []; Elem (nc "config") None [] ox_add]) [] []);
      [intros c [] | reflexivity |].
    apply (env_edit ox_add None [] None [] [Elem (nc "target") None [] []] []). intros c [<- | []]. discriminate. }
  split; [vm_compute; reflexivity |]. split; [exact ox_suited_sum |]. split; [exact ox_proper_a |]. split; [exact ox_proper_sum | exact ox_comparable_sum].
Qed.

(** An element that is no envelope is lost without a word: the delta is empty. *)
Theorem C78_bare_refuted : exists a e d d', xtag e = "{u}sys" /\
  delta_new (PCfg a) PNone (DVal (PEle e)) default_sopts RNone = Ok d /\ l_bool d = Ok false /\
  delta_new (PCfg a) PNone (DVal (PEle (Elem (nc "config") None [] [e]))) default_sopts RNone = Ok d' /\ l_bool d' = Ok true.
Proof.
  exists ox_a, (Elem "{u}sys" None [] [cx_leaf "{u}dns" "1.1.1.1"]). eexists. eexists. split; [reflexivity |].
  split; [vm_compute; reflexivity |]. split; [vm_compute; reflexivity |]. split; vm_compute; reflexivity.
Qed.
Print Assumptions C78_bare_refuted.
Theorem C78_bare : forall e, (forall t, In t ["config"; "data"; "rpc-reply"; "rpc"; "edit-config"] -> xtag e <> nc t) ->
  retrieve e = Elem (nc "config") None [] [].
Proof. exact delta_arg_lost. Qed.
Print Assumptions C78_bare.
