(** C92: defaults in use and what is created. *)
From Coq Require Import String List Bool Arith ZArith Lia Sorted.
From Verif Require Import Base XmlM CalcM NetconfM ConfigM DataSpec DeltaSpec ConfigSpec EditSpec DefaultSpec DefaultP DefaultPropsP ExampleM.
Import ListNotations.
Open Scope string_scope.
Open Scope list_scope.

(** ** C92
    default_in_use gives the leaves and leaf-lists whose default is in use when there is
    an instance of the node, and the default cases of the choices in it, and nothing
    else. *)
Theorem C92_in_use : forall s p, In p (default_pos [] s) <-> (exists c, InUse s p c) \/ (exists k, CaseInUse s p k).
Proof. exact in_use. Qed.
Print Assumptions C92_in_use.

(** Each of them once, in the order of the document *)
Theorem C92_order : forall s, StronglySorted Earlier (map (@rev nat) (default_pos [] s)).
Proof. exact in_use_order. Qed.
Print Assumptions C92_order.

(** mtu, the case udp, its port, the level of the log and ntp; neither the port of the
    other case nor the shell *)
Example C92_in_use_case : default_pos [] df_sys = [[1]; [1; 2]; [0; 1; 2]; [0; 3]; [5]] /\ InUse df_sys [0; 1; 2] (s_leaf_def "udp-port" "69").
Proof.
  split; [vm_compute; reflexivity |]. exists (s_case "udp" [ s_leaf_def "udp-port" "69"; s_leaf "udp-opt" ]), 0, [1; 2]. split; [reflexivity |]. split.
  - apply (im_case df_sys [] df_sys 2 1); [constructor |]. exists df_choice, "udp". do 5 (split; [reflexivity |]). intros j k' L E.
    destruct j as [| j]; [| lia]. injection E as <-. discriminate.
  - split; [reflexivity |]. split; [left; reflexivity | discriminate].
Qed.

(** set_create_operation changes attributes only. It sets the operation create on
    exactly the nodes that are to be created. *)
Theorem C92_marks : forall s x y, set_create s x = Ok y -> AttrsOnly x y /\
  forall q n m, Node x q n -> Node y q m ->
    (ToCreate s x q -> m = set_attr operation_tag "create" n) /\ (~ ToCreate s x q -> xattrs m = xattrs n).
Proof. exact created. Qed.
Print Assumptions C92_marks.

(** host, the port of the case that is not the default, the file and the presence
    container are created; mtu, the level and ntp are merged. *)
Example C92_marks_case : exists y, set_create df_sys df_data = Ok y /\
  map (fun c => (xtag c, get_attr operation_tag c)) (xkids y) =
    [ ("host", Some "create"); ("mtu", None); ("tcp-port", Some "create"); ("log", None); ("admin", Some "create"); ("ntp", None) ] /\
  map (fun c => (xtag c, get_attr operation_tag c)) (flat_map xkids (xkids y)) = [ ("level", None); ("file", Some "create"); ("shell", None) ].
Proof. eexists. split; [vm_compute; reflexivity |]. split; vm_compute; reflexivity. Qed.

(** Whatever the options: no delta creates a non-presence container. *)
Theorem C92_containers : forall o s a b d, IsConfig s a -> IsConfig s b -> delta_nc s (Delta a b o) = Ok d ->
  forall p s' n, At s d p s' n -> p <> [] -> get_attr operation_tag n = Some "create" -> ~ NonPresence s'.
Proof. exact containers_merged. Qed.
Print Assumptions C92_containers.

Example C92_containers_case : IsConfig df_root (e_config []) /\ IsConfig df_root df_log /\
  exists d n, delta_nc df_root (Delta (e_config []) df_log df_ops) = Ok d /\
    At df_root d [("sys", KNone); ("host", KNone)] (s_leaf "host") n /\ get_attr operation_tag n = Some "create".
Proof.
  split; [repeat split; vm_compute; reflexivity |]. split; [repeat split; vm_compute; reflexivity |].
  do 2 eexists. split; [vm_compute; reflexivity |]. split.
  - eapply (at_down df_root _ _ df_sys); [left; reflexivity | | apply (id_other df_sys); discriminate |].
    + split; [reflexivity |]. exists df_sys. split; [left; reflexivity |]. apply th_here; discriminate.
    + eapply (at_down df_sys _ _ (s_leaf "host")); [left; reflexivity | | apply (id_other (s_leaf "host")); discriminate | constructor].
      split; [reflexivity |]. exists (s_leaf "host"). split; [left; reflexivity |]. apply th_here; discriminate.
  - reflexivity.
Qed.

(** A node whose default is in use in the source is not always merged: if the container
    is in the source already, the leaf in it is marked with create. *)
Theorem C92_default_refuted : exists s a b o d u v s' n q, IsConfig s a /\ IsConfig s b /\ wfs s = true /\
  delta_nc s (Delta a b o) = Ok d /\ Present s a [u] /\ NonPresence s' /\ InUse s' q n /\
  exists x y, At s d [u] s' x /\ At s d [u; v] n y /\ get_attr operation_tag y = Some "create".
Proof.
  exists df_root, df_log, df_log', df_ops. do 1 eexists. exists ("sys", KNone), ("mtu", KNone), df_sys, (s_leaf_def "mtu" "1500"), [1].
  assert (D : Defines df_root "sys" df_sys) by (split; [reflexivity |]; exists df_sys; split; [left; reflexivity |]; apply th_here; discriminate).
  split; [repeat split; vm_compute; reflexivity |]. split; [repeat split; vm_compute; reflexivity |]. split; [vm_compute; reflexivity |].
  split; [vm_compute; reflexivity |]. split.
  { do 2 eexists. eapply (at_down df_root _ _ df_sys); [left; reflexivity | exact D | apply (id_other df_sys); discriminate | constructor]. }
  split; [split; reflexivity |]. split.
  { exists df_sys, 1, []. split; [reflexivity |]. split; [constructor |]. split; [reflexivity |]. split; [left; reflexivity | discriminate]. }
  do 2 eexists. split; [| split].
  - eapply (at_down df_root _ _ df_sys); [left; reflexivity | exact D | apply (id_other df_sys); discriminate | constructor].
  - eapply (at_down df_root _ _ df_sys); [left; reflexivity | exact D | apply (id_other df_sys); discriminate |].
    eapply (at_down df_sys _ _ (s_leaf_def "mtu" "1500")); [left; reflexivity | | apply (id_other (s_leaf_def "mtu" "1500")); discriminate | constructor].
    split; [reflexivity |]. exists (s_leaf_def "mtu" "1500"). split; [right; left; reflexivity |]. apply th_here; discriminate.
  - reflexivity.
Qed.
Print Assumptions C92_default_refuted.
