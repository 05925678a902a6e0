(** C71: configs of two devices are combined only if their schemas agree, and then it does not
    matter whose schema is used. *)
From Coq Require Import String Ascii List Bool Arith Permutation Lia.
From Verif Require Import Base XmlM CalcM NetconfM ConfigM DataSpec DeltaSpec ConfigSpec MDiffSpec DeviceM DeviceSpec
  CompatM CompatSpec CompatDevP CompatCmpP CompatPropsP.
Import ListNotations.
Open Scope string_scope.
Open Scope list_scope.

(** The check has no answer but yes, and then the models in use are loaded on both devices,
    with the same nodes, the same prefixes and the same URLs. *)
Theorem C71_sound : forall a b r, AllFine a -> AllFine b -> OneObject a b -> is_compatible a b = Ok r -> r = true /\ Agree a b.
Proof. exact compat_sound. Qed.
Print Assumptions C71_sound.
Example C71_sound_case : AllFine (OCfg cx_c1) /\ AllFine (OCfg cx_c2) /\ OneObject (OCfg cx_c1) (OCfg cx_c2) /\
  is_compatible (OCfg cx_c1) (OCfg cx_c2) = Ok true /\ Uses (OCfg cx_c1) "m" /\ v_models cx_d1 <> v_models cx_d2.
Proof.
  split; [intros c ->; exact cx_fine1 |]. split; [intros c ->; exact cx_fine2 |]. split; [exact cx_one |]. split; [exact cx_ok |].
  split; [exact cx_uses | discriminate].
Qed.

Theorem C71_complete : forall a b, AllFine a -> AllFine b -> Stored (o_dev a) -> Stored (o_dev b) ->
  RootsLoaded a -> RootsLoaded b -> Agree a b ->
  (v_id (o_dev a) <> v_id (o_dev b) -> Diffable (o_dev a) /\ Diffable (o_dev b)) ->
  (v_id (o_dev a) <> v_id (o_dev b) -> forall n, Uses a n \/ Uses b n -> In n (v_loadable (o_dev a)) /\ In n (v_loadable (o_dev b))) ->
  is_compatible a b = Ok true.
Proof. exact compat_complete. Qed.
Print Assumptions C71_complete.
Example C71_complete_case : Stored cx_d1 /\ Stored cx_d2 /\ RootsLoaded (OCfg cx_c1) /\ RootsLoaded (OCfg cx_c2) /\
  Agree (OCfg cx_c1) (OCfg cx_c2) /\ Diffable cx_d1 /\ Diffable cx_d2 /\
  forall n, Uses (OCfg cx_c1) n \/ Uses (OCfg cx_c2) n -> In n (v_loadable cx_d1) /\ In n (v_loadable cx_d2).
Proof.
  exact (conj cx_stored1 (conj cx_stored2 (conj cx_roots1 (conj cx_roots2 (conj cx_agree (conj cx_diffable1 (conj cx_diffable2 cx_loadable))))))).
Qed.

Theorem C71_symmetric : forall a b, AllFine a -> AllFine b -> OneObject a b -> Stored (o_dev a) -> Stored (o_dev b) ->
  (v_id (o_dev a) <> v_id (o_dev b) -> Diffable (o_dev a) /\ Diffable (o_dev b)) ->
  is_compatible a b = Ok true -> is_compatible b a = Ok true.
Proof. exact compat_symmetric. Qed.
Print Assumptions C71_symmetric.
Example C71_symmetric_case : Stored cx_d1 /\ Stored cx_d2 /\ Diffable cx_d1 /\ Diffable cx_d2 /\
  is_compatible (OCfg cx_c1) (OCfg cx_c2) = Ok true /\ is_compatible (OCfg cx_c2) (OCfg cx_c1) = Ok true.
Proof. split; [exact cx_stored1 |]. split; [exact cx_stored2 |]. split; [exact cx_diffable1 |]. split; [exact cx_diffable2 |]. split; vm_compute; reflexivity. Qed.

Theorem C71_same_device : forall c1 c2, c_dev c1 = c_dev c2 -> Fine (c_dev c1) -> Stored (c_dev c1) ->
  RootsLoaded (OCfg c1) -> RootsLoaded (OCfg c2) -> is_compatible (OCfg c1) (OCfg c2) = Ok true.
Proof. exact compat_same_device. Qed.
Print Assumptions C71_same_device.
Example C71_same_device_case : RootsLoaded (OCfg (VCfg cx_d1 ["{u}sys"; "{x}top"])) /\ RootsLoaded (OCfg cx_c1).
Proof.
  split; [| exact cx_roots1]. intros c r P I. cbn in P. subst c. cbn in I. destruct I as [<- | [<- | []]].
  - exists "m", cx_m1. eexists. split; [right; left; reflexivity |]. split; [left; reflexivity | reflexivity].
  - exists "x", (cx_x "x"). eexists. split; [left; reflexivity |]. split; [left; reflexivity | reflexivity].
Qed.

(** A delta is made, and a config is added to, only after the check. *)
Theorem C71_guarded : (forall src dst o, Fine (c_dev src) -> Fine (c_dev dst) -> OneObject (OCfg src) (OCfg dst) ->
    new_delta src dst = Ok o -> o = ODelta src dst /\ Agree (OCfg src) (OCfg dst)) /\
  (forall A c b (k : res A) x, Fine (c_dev c) -> AllFine b -> OneObject (OCfg c) b ->
    add_config c b k = Ok x -> Agree (OCfg c) b /\ exists r, k = Ok r /\ x = Some r).
Proof. exact guarded. Qed.
Print Assumptions C71_guarded.
Example C71_guarded_case : new_delta cx_c1 cx_c2 = Ok (ODelta cx_c1 cx_c2) /\ add_config cx_c2 (ODelta cx_c1 cx_c2) (Ok 3) = Ok (Some 3) /\
  new_delta (VCfg cx_e1 ["{u}sys"]) (VCfg cx_e2 ["{u}sys"]) = Err ModelIncompatible /\
  add_config cx_c1 (OCfg (VCfg cx_d2 ["{y}top"])) (Ok 3) = Err ModelMissing.
Proof. repeat split; vm_compute; reflexivity. Qed.

(** The data nodes below the roots in use are the same on both devices. *)
Theorem C71_schema : forall a b x, AllFine a -> AllFine b -> OneObject a b -> Stored (o_dev a) -> Stored (o_dev b) ->
  is_compatible a b = Ok x ->
  forall n t r q, Uses a n \/ Uses b n ->
  (Loads (o_dev a) n t -> Top t r -> forall s, Data (DevModels (o_dev a)) (r :: q) s -> exists s', Data (DevModels (o_dev b)) (r :: q) s' /\ Twin s s') /\
  (Loads (o_dev b) n t -> Top t r -> forall s, Data (DevModels (o_dev b)) (r :: q) s -> exists s', Data (DevModels (o_dev a)) (r :: q) s' /\ Twin s s').
Proof. exact compat_schema. Qed.
Print Assumptions C71_schema.

(** Comparisons answer the same with either schema, errors included. *)
Theorem C71_compare : forall c1 c2 r x y, Fine (c_dev c1) -> Fine (c_dev c2) -> OneObject (OCfg c1) (OCfg c2) -> OneLocal (c_dev c1) ->
  is_compatible (OCfg c1) (OCfg c2) = Ok r -> Holds c1 x -> Holds c2 y ->
  let s1 := v_schema (c_dev c1) in let s2 := v_schema (c_dev c2) in
  cmp_le s1 x y = cmp_le s2 x y /\ cmp_lt s1 x y = cmp_lt s2 x y /\ cmp_ge s1 x y = cmp_ge s2 x y /\
  cmp_gt s1 x y = cmp_gt s2 x y /\ cmp_eq s1 x y = cmp_eq s2 x y /\ cmp_ne s1 x y = cmp_ne s2 x y.
Proof. exact compat_compare. Qed.
Print Assumptions C71_compare.
Example C71_compare_case : Fine cx_d1 /\ Fine cx_d2 /\ OneObject (OCfg cx_c1) (OCfg cx_c2) /\ OneLocal cx_d1 /\
  is_compatible (OCfg cx_c1) (OCfg cx_c2) = Ok true /\ Holds cx_c1 cx_a /\ Holds cx_c2 cx_b /\
  cmp_le (v_schema cx_d1) cx_a cx_b = cmp_le (v_schema cx_d2) cx_a cx_b.
Proof.
  split; [exact cx_fine1 |]. split; [exact cx_fine2 |]. split; [exact cx_one |]. split; [exact cx_local |]. split; [exact cx_ok |].
  split; [reflexivity |]. split; [reflexivity |]. vm_compute. reflexivity.
Qed.

(** A config is well-formed and free of defaults under both schemas or under none. *)
Theorem C71_config : forall c1 c2 r x, Fine (c_dev c1) -> Fine (c_dev c2) -> OneObject (OCfg c1) (OCfg c2) -> OneLocal (c_dev c1) ->
  is_compatible (OCfg c1) (OCfg c2) = Ok r -> Holds c1 x \/ Holds c2 x ->
  (IsConfig (v_schema (c_dev c1)) x <-> IsConfig (v_schema (c_dev c2)) x).
Proof. exact compat_config. Qed.
Print Assumptions C71_config.
Example C71_config_case : Holds cx_c1 cx_a /\ IsConfig (v_schema cx_d1) cx_a /\ IsConfig (v_schema cx_d2) cx_a.
Proof. split; [reflexivity |]. split; repeat split; vm_compute; reflexivity. Qed.

(** The round trip of C05 from the config of one device to that of another. Missing, as in
    C05: pairs whose moved user-ordered entries do not end in place, or that switch a case. *)
Theorem C71_round_trip_partial : forall c1 c2 r a b, Fine (c_dev c1) -> Fine (c_dev c2) -> OneObject (OCfg c1) (OCfg c2) -> OneLocal (c_dev c1) ->
  is_compatible (OCfg c1) (OCfg c2) = Ok r -> Holds c1 a -> Holds c2 b ->
  wfs (v_schema (c_dev c1)) = true -> IsConfig (v_schema (c_dev c1)) a -> IsConfig (v_schema (c_dev c2)) b ->
  ConfigSpec.Comparable (v_schema (c_dev c1)) a b ->
  Reaches (v_schema (c_dev c1)) (config_add_delta (v_schema (c_dev c1)) a (config_sub b a)) b.
Proof. exact compat_round_trip. Qed.
Print Assumptions C71_round_trip_partial.
Example C71_round_trip_case : Fine cx_d1 /\ Fine cx_d2 /\ OneLocal cx_d1 /\ Holds cx_c1 cx_a /\ Holds cx_c2 cx_b /\
  wfs (v_schema cx_d1) = true /\ IsConfig (v_schema cx_d1) cx_a /\ IsConfig (v_schema cx_d2) cx_b /\
  ConfigSpec.Comparable (v_schema cx_d1) cx_a cx_b /\ cmp_eq (v_schema cx_d1) cx_a cx_b = Ok false /\ v_schema cx_d1 <> v_schema cx_d2.
Proof.
  split; [exact cx_fine1 |]. split; [exact cx_fine2 |]. split; [exact cx_local |]. split; [reflexivity |]. split; [reflexivity |].
  split; [vm_compute; reflexivity |]. split; [repeat split; vm_compute; reflexivity |]. split; [repeat split; vm_compute; reflexivity |].
  split; [exact cx_comparable |]. split; [vm_compute; reflexivity |]. vm_compute. discriminate.
Qed.

(** Comparisons are not guarded: for configs of devices that are not compatible,
    [c1 == c2] and [c2 == c1] can differ. *)
Theorem C71_eq_unchecked_refuted : exists c1 c2 x y,
  Fine (c_dev c1) /\ Fine (c_dev c2) /\ OneLocal (c_dev c1) /\ OneLocal (c_dev c2) /\ Holds c1 x /\ Holds c2 y /\
  IsConfig (v_schema (c_dev c1)) x /\ IsConfig (v_schema (c_dev c2)) y /\
  is_compatible (OCfg c1) (OCfg c2) = Err ModelIncompatible /\
  cmp_eq (v_schema (c_dev c1)) x y = Ok false /\ cmp_eq (v_schema (c_dev c2)) y x = Ok true.
Proof. exact eq_unchecked. Qed.
Print Assumptions C71_eq_unchecked_refuted.

(** Keys are found by their names without namespaces: models that differ in the order of two
    children of a list with one local name are found compatible but have different keys. *)
Theorem C71_keys_refuted : exists c1 c2 x,
  Fine (c_dev c1) /\ Fine (c_dev c2) /\ Holds c1 x /\ Holds c2 x /\ is_compatible (OCfg c1) (OCfg c2) = Ok true /\
  IsConfig (v_schema (c_dev c1)) x /\
  cmp_eq (v_schema (c_dev c1)) x x = Ok true /\ cmp_eq (v_schema (c_dev c2)) x x = Err ConfigError.
Proof. exact local_needed. Qed.
Print Assumptions C71_keys_refuted.
