(** C17, C18: removal of defaults. *)
From Coq Require Import String Ascii List Bool Arith ZArith Lia Permutation.
From Verif Require Import Base XmlM CalcM NetconfM ConfigM DataSpec DeltaSpec ConfigSpec TrimSpec TrimP TrimPropsP TrimTreeSpec TrimTreeP ExampleM.
Import ListNotations.
Open Scope string_scope.
Open Scope list_scope.

(** ** C17
    For all trees, well-formed or not. *)
Theorem C17_trim_idempotent : forall s x y, trim s x = Ok y -> trim s y = Ok y.
Proof. intros s x y. exact (trim_idem x s y). Qed.
Print Assumptions C17_trim_idempotent.

Theorem C17_config_of_config : forall rd s x y, config_new false rd s x = Ok y -> config_new false rd s y = Ok y.
Proof. exact config_of_config. Qed.
Print Assumptions C17_config_of_config.

(** Removing the leaf empties the container, which is removed as well. *)
Definition ex_defaults : xml :=
  e_config [ e_node "sys" [ e_leaf "mtu" "1500"; e_leaf "ntp" "b"; e_leaf "ntp" "a" ]; e_leaf "label" "x" ].
Example C17_case : trim ex_schema ex_defaults = Ok (e_config [ e_leaf "label" "x" ]).
Proof. vm_compute. reflexivity. Qed.

(** ** C18
    An instance is in the result exactly if no node on its path consists of defaults
    only, and then it has the value it had; the order of user-ordered entries is
    kept. Full statement: also for schemas that give a key leaf a default. *)
Theorem C18_trim_partial : forall s x y, wfs s = true -> keys_plain s = true -> valid s x = true -> trim s x = Ok y ->
  TrimOf s x y.
Proof. exact trim_spec. Qed.
Print Assumptions C18_trim_partial.

Theorem C18_trim_returns : forall s x, valid s x = true -> exists y, trim s x = Ok y.
Proof. intros s x V. exact (trim_total x s V). Qed.
Print Assumptions C18_trim_returns.

(** Whatever is not made of defaults only stays. *)
Theorem C18_keeps : forall s x y p v, wfs s = true -> keys_plain s = true -> valid s x = true -> trim s x = Ok y ->
  Holds s x p v -> ~ Holds s y p v ->
  exists q s' n c cs u r, p = q ++ u :: r /\ At s x q s' n /\ In c (xkids n) /\ Defines s' (xtag c) cs /\ Ident cs c u /\
    OnlyDefault cs n c.
Proof. exact trim_removed. Qed.
Print Assumptions C18_keeps.

(** Keys of the list entries that stay are kept. *)
Theorem C18_keys_stay : forall s x y p s' n k v, wfs s = true -> keys_plain s = true -> valid s x = true -> trim s x = Ok y ->
  At s y p s' n -> sty s' = TList -> In k (s_keys (si s')) ->
  Holds s x (p ++ [(k, KNone)]) v -> Holds s y (p ++ [(k, KNone)]) v.
Proof. exact trim_keys_stay. Qed.
Print Assumptions C18_keys_stay.

Example C18_case : wfs ex_schema = true /\ keys_plain ex_schema = true /\ valid ex_schema ex_defaults = true.
Proof. repeat split; vm_compute; reflexivity. Qed.

(** RFC 7950 (7.8.2) allows a default on a key leaf and ignores it. The key is then
    removed from entries that have this value. *)
Theorem C18_key_default_refuted : exists s x y p s' n k v,
  wfs s = true /\ valid s x = true /\ trim s x = Ok y /\
  At s x p s' n /\ sty s' = TList /\ In k (s_keys (si s')) /\ Holds s x (p ++ [(k, KNone)]) v /\
  (exists c, xkids y = [c] /\ find_kid k (xkids c) = None /\ xkids c <> []).
Proof. exact key_default_refuted. Qed.
Print Assumptions C18_key_default_refuted.

(** For all schemas and trees, keys with defaults included: the result is the only tree that
    is the argument without the nodes that say nothing beyond the defaults. *)
Theorem C18_exact : forall s x y, trim s x = Ok y -> forall y', Trimmed s x y' <-> y' = y.
Proof. intros s x y. exact (trim_exact x s y). Qed.
Print Assumptions C18_exact.
Example C18_exact_case : trim ex_key_schema ex_key_data = Ok (e_config [ e_node "peer" [ e_leaf "as" "9" ] ]) /\
  trim ex_schema ex_defaults = Ok (e_config [ e_leaf "label" "x" ]).
Proof. split; vm_compute; reflexivity. Qed.
