(** C98: the model names that a device tells, after any history of scans, loads and lookups. *)
From Coq Require Import String Ascii List Bool.
From Verif Require Import Base BaseP XmlM CalcM DataSpec DataP TagM TagSpec DeviceM DeviceSpec DeviceP DevicePropsP LoadableM LoadableSpec OwnerM OwnerSpec OwnerP.
Import ListNotations.
Open Scope string_scope.
Open Scope list_scope.

(** ** C98
    Full statement: the name told is that of the model the node belongs to. Proved: it is that
    of a model which has the root of the node; among several the one whose name was loaded for
    the first time last. *)
Theorem C98_name : forall l r p n, fst (get_model_name (r :: p) (drun l)) = Ok n <-> Owner l r n.
Proof. exact owner_iff. Qed.
Print Assumptions C98_name.

(** Two models with a root in common, the first of which is loaded again *)
Definition ow_hist : list dcall := [DScan (d_tab "p"); DLoad (d_mod "a" d_leaf); DLoad (d_mod "b" d_leaf2); DLoad (d_mod "a" d_leaf2)].
Example C98_name_case : fst (get_model_name ["{urn:a}box"; "{urn:a}mtu"] (drun d_hist)) = Ok "a" /\
  fst (get_model_name ["{urn:b}top"] (drun d_hist)) = Ok "b" /\ fst (get_model_name ["{urn:a}box"] (drun ow_hist)) = Ok "b".
Proof. repeat split; vm_compute; reflexivity. Qed.

(** Without such a model, the error: before the first scan it is about the scan, except for
    tags without a namespace. *)
Theorem C98_missing : forall l r p, (forall m, Current l m -> ~ IsRoot m r) ->
  (forall u t, Word u -> Name t -> r = etree u t ->
     (Scanned l -> fst (get_model_name (r :: p) (drun l)) = Err ModelMissing) /\
     (~ Scanned l -> fst (get_model_name (r :: p) (drun l)) = Err ValueError)) /\
  (~ In "{"%char (chars r) -> fst (get_model_name (r :: p) (drun l)) = Err ModelMissing).
Proof. exact owner_missing. Qed.
Print Assumptions C98_missing.
Example C98_missing_case : (forall m, Current d_hist m -> ~ IsRoot m "{urn:z}no") /\ Scanned d_hist /\
  fst (get_model_name ["{urn:z}no"] (drun d_hist)) = Err ModelMissing /\ fst (get_model_name ["{urn:z}no"] (drun [DLoad d_other])) = Err ValueError.
Proof.
  split; [| split; [exists (d_tab "p"); left; reflexivity | split; vm_compute; reflexivity]].
  intros m C (k & I & E). apply d_hist_current in C. destruct C as [-> | ->]; destruct I as [<- | []]; vm_compute in E; discriminate.
Qed.

(** Asking for a name that is known changes nothing, and otherwise no more than reading the
    table of namespaces does. *)
Theorem C98_state : forall path d, (forall n, fst (get_model_name path d) = Ok n -> snd (get_model_name path d) = d) /\
  (snd (get_model_name path d) = d \/ snd (get_model_name path d) = snd (namespaces d)).
Proof. exact owner_state. Qed.
Print Assumptions C98_state.
Example C98_state_case : snd (get_model_name ["{urn:b}top"] (drun d_hist)) = drun d_hist /\
  snd (get_model_name ["{urn:z}no"] (drun d_hist)) <> drun d_hist.
Proof. split; [vm_compute; reflexivity | vm_compute; discriminate]. Qed.

(** If no root belongs to models of two names, the model named is the one in whose tree the
    schema node is found. *)
Theorem C98_schema_partial : forall l path s, Owned l -> fst (get_schema_node path (drun l)) = Ok s ->
  exists m, fst (get_model_name path (drun l)) = Ok (m_name m) /\ Current l m /\ Data (eq m) path s.
Proof. exact owner_schema. Qed.
Print Assumptions C98_schema_partial.
Example C98_schema_case : Owned d_hist /\ fst (get_schema_node ["{urn:a}box"; "{urn:a}mtu"] (drun d_hist)) = Ok d_leaf2.
Proof. split; [exact d_owned | exact d_after]. Qed.

(** Otherwise the schema node can be one model's and the name another's. *)
Theorem C98_schema_refuted : exists l path s n, fst (get_schema_node path (drun l)) = Ok s /\ fst (get_model_name path (drun l)) = Ok n /\
  forall m, Current l m -> m_name m = n -> ~ Data (eq m) path s.
Proof.
  exists [DLoad (d_mod "a" d_leaf); DLookup ["{urn:a}box"; "{urn:a}mtu"]; DLoad (d_mod "b" d_leaf2)], ["{urn:a}box"; "{urn:a}mtu"], d_leaf, "b".
  split; [vm_compute; reflexivity |]. split; [vm_compute; reflexivity |]. intros m C N H.
  apply Data_two in H. destruct H as (q & H & Df). apply Data_one in H. destruct H as (m' & <- & D).
  unfold Current in C. rewrite N in C. vm_compute in C. injection C as <-.
  apply Defines_in in D. vm_compute in D. destruct D as [<- | []]. apply Defines_in in Df. vm_compute in Df. destruct Df as [Df | []]. discriminate Df.
Qed.
Print Assumptions C98_schema_refuted.

(** A model that is loaded again does not get its roots back from one loaded in between. *)
Theorem C98_reload_refuted : exists l m r n, IsRoot m r /\ fst (get_model_name [r] (drun (l ++ [DLoad m]))) = Ok n /\ n <> m_name m.
Proof.
  exists [DScan (d_tab "p"); DLoad (d_mod "a" d_leaf); DLoad (d_mod "b" d_leaf2)], (d_mod "a" d_leaf2), "{urn:a}box", "b".
  split; [eexists; split; [left; reflexivity | reflexivity] |]. split; [vm_compute; reflexivity | discriminate].
Qed.
Print Assumptions C98_reload_refuted.

(** A node that another module adds is told to belong to the module of its root, although the
    namespace of the node is that of the other, which is loaded too. *)
Definition ow_table : table := [Entry "a" "a" "urn:a"; Entry "b" "b" "urn:b"].
Definition ow_extra : snode := dnode "{urn:b}extra" TLeaf [].
Definition ow_a : model := Model "a" (dnode "a" TOther [dnode "{urn:a}box" TContainer [d_leaf; ow_extra]]).
Definition ow_aug : list dcall := [DScan ow_table; DLoad ow_a; DLoad d_other].
Theorem C98_augment_refuted : exists l T path u t e n, Owned l /\ fst (namespaces (drun l)) = Ok T /\ In e T /\ e_url e = u /\ LoadedName l (e_name e) /\
  (exists s, fst (get_schema_node (path ++ [etree u t]) (drun l)) = Ok s) /\ fst (get_model_name (path ++ [etree u t]) (drun l)) = Ok n /\ n <> e_name e.
Proof.
  exists ow_aug, ow_table, ["{urn:a}box"], "urn:b", "extra", (Entry "b" "b" "urn:b"), "a".
  split.
  { intros m m' r [A | [A | [A | []]]] [B | [B | [B | []]]] (k & I & E) (k' & I' & E'); try discriminate;
      injection A as <-; injection B as <-; try reflexivity; destruct I as [<- | []]; destruct I' as [<- | []]; vm_compute in E, E'; congruence. }
  split; [vm_compute; reflexivity |]. split; [right; left; reflexivity |]. split; [reflexivity |].
  split; [exists d_other; split; [right; right; left; reflexivity | reflexivity] |].
  split; [eexists; vm_compute; reflexivity |]. split; [vm_compute; reflexivity | discriminate].
Qed.
Print Assumptions C98_augment_refuted.

(** A data node in a choice at top level belongs to no model, although a model defines it. *)
Theorem C98_choice_refuted : exists l path s, Owned l /\ Data (Current l) path s /\ fst (get_model_name path (drun l)) = Err ModelMissing.
Proof.
  exists [DScan []; DLoad d_choice], ["{urn:c}x"], (dnode "{urn:c}x" TLeaf []).
  split; [exact choice_owned |]. split; [apply d_choice_data; reflexivity | vm_compute; reflexivity].
Qed.
Print Assumptions C98_choice_refuted.

(** The list of loaded models: their names, each once, in order. *)
Theorem C98_loaded : forall l, Ascending (models_loaded (drun l)) /\ NoDup (models_loaded (drun l)) /\
  forall n, In n (models_loaded (drun l)) <-> LoadedName l n.
Proof. exact loaded_exact. Qed.
Print Assumptions C98_loaded.
Example C98_loaded_case : models_loaded (drun [DLoad d_other; DLoad (d_mod "a" d_leaf); DLoad d_choice; DLoad (d_mod "a" d_leaf2)]) = ["a"; "b"; "c"].
Proof. vm_compute. reflexivity. Qed.
