(** Lemmas for the properties of filter, validation, extraction, reordering; example data. *)
From Coq Require Import String Ascii List Bool Arith ZArith Lia Permutation.
From Verif Require Import Base BaseP XmlM CalcM CalcP NetconfM ConfigM FilterM ReorderM DataSpec DataP DeltaSpec TrimP
  PruneSpec PruneP FilterP ReorderSpec ReorderP ConfigP ExampleM.
Import ListNotations.
Open Scope string_scope.
Open Scope list_scope.
Open Scope nat_scope.

Lemma config_new_known : forall rd s x y, config_new true rd s x = Ok y -> known s y.
Proof.
  intros rd s x y H. unfold config_new in H. apply bind_ok in H. destruct H as (e & He & H).
  apply validate_val_sub in H. eapply val_sub_known; eauto.
Qed.

Lemma config_new_validate : forall rd s x y, config_new true rd s x = Ok y -> exists e, trim s (retrieve x) = Ok e /\
  known s e /\ validate rd s e = Ok y.
Proof.
  intros rd s x y H. unfold config_new in H. apply bind_ok in H. destruct H as (e & He & H). exists e. split; auto. split; auto.
  eapply trim_known; eauto.
Qed.

Lemma config_filter_spec : forall s xpath x c l, config_new true false s x = Ok c -> xpath c = XNodes l -> elements l <> [] ->
  exists y, config_filter s xpath x = Ok y /\ Pruned (FilterKeeps s c (elements l)) c y.
Proof.
  intros s xpath x c l H E N. unfold config_filter. rewrite H. cbn [bind]. rewrite E.
  destruct (elements l) as [| q r] eqn:El; [congruence |]. rewrite <- El in *.
  apply filter_spec; [eapply config_new_known; eauto | congruence].
Qed.

Lemma config_filter_nothing : forall s xpath x c l, config_new true false s x = Ok c -> xpath c = XNodes l -> elements l = [] ->
  config_filter s xpath x = Ok empty_config.
Proof. intros s xpath x c l H E N. unfold config_filter. rewrite H. cbn [bind]. rewrite E, N. reflexivity. Qed.

Lemma config_filter_scalar : forall s xpath x c, config_new true false s x = Ok c -> xpath c = XScalar ->
  config_filter s xpath x = Ok c.
Proof. intros s xpath x c H E. unfold config_filter. rewrite H. cbn [bind]. rewrite E. reflexivity. Qed.

Lemma extract_spec : forall rd s reply c, config_new true rd s reply = Ok c ->
  exists y, extract_config rd s reply = Ok y /\ Pruned (fun p => ~ ReadOnly s c p) c y.
Proof.
  intros rd s reply c H. unfold extract_config. rewrite H. cbn [bind]. apply ro_spec. eapply config_new_known; eauto.
Qed.

(** ** Example data *)
Definition s_status_leaf (t st : string) : snode := SNode (SInfo t TLeaf false false None false [] st "read-write") [].
Definition s_ro_leaf (t : string) : snode := SNode (SInfo t TLeaf false false None false [] "" "read-only") [].

Definition pr_schema : snode :=
  s_root
    [ s_cont "sys"
        [ s_leaf "host"; s_status_leaf "old" "obsolete"; s_status_leaf "dep" "deprecated";
          s_cont "stats" [ s_ro_leaf "uptime" ];
          s_list "if" false ["name"] [ s_key "name"; s_leaf "mtu"; s_cont "counters" [ s_ro_leaf "in" ]; s_cont "ip" [ s_leaf "addr" ] ] ] ].

Definition pr_if (n m a : string) : xml :=
  e_node "if" [ e_leaf "name" n; e_leaf "mtu" m; e_node "counters" [ e_leaf "in" "7" ]; e_node "ip" [ e_leaf "addr" a ] ].
Definition pr_x : xml :=
  e_config [ e_node "sys" [ e_leaf "host" "r1"; e_leaf "old" "1"; e_leaf "dep" "2";
                            e_node "stats" [ e_leaf "uptime" "9" ];
                            pr_if "a" "1500" "10.0.0.1"; pr_if "b" "9000" "10.0.0.2" ] ].

(** ** Counterexamples *)
Definition bad_leaf : xml :=
  e_config [ e_node "sys" [ Elem "host" (Some "r1") [(operation_tag, "delete")] [] ] ].

Lemma leaf_attribute : exists s x y sn n, sty s = TRoot /\ config_new true false s x = Ok y /\ Below s y sn n /\ EditAttr n.
Proof.
  set (leaf := Elem "host" (Some "r1") [(operation_tag, "delete")] []).
  exists pr_schema, bad_leaf, bad_leaf, (s_leaf "host"), leaf.
  split; [reflexivity |]. split; [vm_compute; reflexivity |]. split.
  - destruct (schema_child pr_schema "sys") as [cs |] eqn:E1; [| discriminate].
    exists cs, (e_node "sys" [leaf]). split; [| split].
    + apply (wi_down _ _ (e_node "sys" [leaf]) cs); [simpl; auto | apply schema_child_Defines; auto | constructor].
    + simpl. auto.
    + apply schema_child_Defines. vm_compute in E1. injection E1 as E1. subst cs. vm_compute. reflexivity.
  - exists operation_tag, "delete". split; [simpl; auto |]. split; [reflexivity | discriminate].
Qed.

Definition scalar_x : xml := e_config [ e_node "sys" [ e_leaf "host" "r1" ] ].
Lemma scalar_keeps : exists s xpath x y, sty s = TRoot /\ xpath x = XScalar /\ config_filter s xpath x = Ok y /\ xkids y <> [].
Proof.
  exists pr_schema, (fun _ => XScalar), scalar_x, scalar_x. split; [reflexivity |]. split; [reflexivity |].
  split; [vm_compute; reflexivity | discriminate].
Qed.

(** Two replies about the same device: one with state, one without. *)
Definition reply_get : xml := e_config [ e_node "sys" [ e_node "stats" [ e_leaf "uptime" "9" ] ] ].
Definition reply_get_config : xml := e_config [].
Lemma extract_differs : exists s r1 r2 c1 c2, sty s = TRoot /\
  extract_config false s r1 = Ok c1 /\ extract_config false s r2 = Ok c2 /\
  trim s c1 <> Ok c1 /\ trim s c1 = Ok c2 /\ cmp_eq s c1 c2 = Ok false.
Proof.
  exists pr_schema, reply_get, reply_get_config. eexists. eexists. split; [reflexivity |].
  split; [vm_compute; reflexivity |]. split; [vm_compute; reflexivity |].
  split; [vm_compute; discriminate |]. split; vm_compute; reflexivity.
Qed.

(** A key that is obsolete is removed although the entry stays. *)
Definition ok_schema : snode :=
  s_root [ s_list "if" false ["name"] [ SNode (SInfo "name" TLeaf false false None true [] "obsolete" "read-write") []; s_leaf "mtu" ] ].
Definition ok_x : xml := e_config [ e_node "if" [ e_leaf "name" "a"; e_leaf "mtu" "9" ] ].
Lemma obsolete_key : exists s x y sn n k, sty s = TRoot /\ valid s x = true /\ config_new true false s x = Ok y /\
  Below s y sn n /\ sty sn = TList /\ In k (s_keys (si sn)) /\ ~ HasKid k n.
Proof.
  exists ok_schema, ok_x. eexists. 
  destruct (schema_child ok_schema "if") as [cs |] eqn:E1; [| discriminate].
  exists cs, (e_node "if" [ e_leaf "mtu" "9" ]), "name". split; [reflexivity |]. split; [vm_compute; reflexivity |].
  split; [vm_compute; reflexivity |]. split.
  - exists ok_schema, (e_config [ e_node "if" [ e_leaf "mtu" "9" ] ]). split; [constructor |]. split; [simpl; auto |].
    apply schema_child_Defines. exact E1.
  - vm_compute in E1. injection E1 as E1. subst cs. split; [reflexivity |]. split; [simpl; auto |].
    intros (c & I & E). destruct I as [I | []]. subst c. discriminate.
Qed.

(** The two orders of a reordered delta lead to different configs. *)
Definition swap_draw (z : Z) (a b : nat) : list nat := rev (seq a (b - a)).
Lemma swap_fair : forall z, FairDraw (swap_draw z).
Proof. intros z a b H. apply Permutation_rev. Qed.

Definition ro_schema : snode := s_root [ s_cont "sys" [ s_ll "dns" true ] ].
Definition ro_a : xml := e_config [].
Definition ro_b : xml := e_config [ e_node "sys" [ e_leaf "dns" "1"; e_leaf "dns" "2" ] ].
Lemma reorder_breaks : exists s a b n z e c, sty s = TRoot /\ valid s a = true /\ valid s b = true /\
  delta_nc_random swap_draw s (config_sub b a) (rand_new (Some n) (Some z)) = Ok e /\
  config_add s a e = Ok c /\ cmp_eq s c b = Ok false.
Proof.
  exists ro_schema, ro_a, ro_b, 1, 5%Z. eexists. eexists. split; [reflexivity |]. split; [vm_compute; reflexivity |].
  split; [vm_compute; reflexivity |]. split; [vm_compute; reflexivity |]. split; vm_compute; reflexivity.
Qed.

(** Or it cannot be applied at all. *)
Definition ro_a2 : xml := e_config [ e_node "sys" [ e_leaf "dns" "0" ] ].
Definition ro_b2 : xml := e_config [ e_node "sys" [ e_leaf "dns" "1"; e_leaf "dns" "2"; e_leaf "dns" "0" ] ].
Lemma reorder_fails : exists s a b n z e, sty s = TRoot /\ valid s a = true /\ valid s b = true /\
  delta_nc_random swap_draw s (config_sub b a) (rand_new (Some n) (Some z)) = Ok e /\
  config_add s a e = Err ConfigDeltaError.
Proof.
  exists ro_schema, ro_a2, ro_b2, 1, 5%Z. eexists. split; [reflexivity |]. split; [vm_compute; reflexivity |].
  split; [vm_compute; reflexivity |]. split; vm_compute; reflexivity.
Qed.
