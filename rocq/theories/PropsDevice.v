(** C43, C44 and C65: the cache of schema lookups and the namespace table of a device,
    after any history of scans, loads and lookups. *)
From Coq Require Import String List Bool.
From Verif Require Import Base BaseP XmlM CalcM DataSpec TagM DeviceM DeviceSpec DeviceP DevicePropsP.
Import ListNotations.
Open Scope string_scope.
Open Scope list_scope.

(** C43: if no root belongs to models of two names, then after any history a schema
    lookup, also a failing one, gives what it gives with an empty cache. *)
Theorem C43_cache_partial : forall l path, Owned l ->
  fst (get_schema_node path (drun l)) = fst (get_schema_node path (forget (drun l))).
Proof. exact lookup_same. Qed.
Print Assumptions C43_cache_partial.
Example C43_cache_case : Owned d_hist /\ d_nodes (drun d_hist) <> [] /\
  fst (get_schema_node ["{urn:a}box"; "{urn:a}mtu"] (drun d_hist)) = Ok d_leaf2.
Proof. split; [exact d_owned | split; [discriminate | exact d_after]]. Qed.

(** C43: what a lookup answers is defined at that path by a model loaded last under its
    name. *)
Theorem C43_answer_partial : forall l path s, Owned l ->
  fst (get_schema_node path (drun l)) = Ok s -> Data (Current l) path s.
Proof. exact lookup_sound. Qed.
Print Assumptions C43_answer_partial.
Example C43_answer_case : Owned d_hist /\
  fst (get_schema_node ["{urn:a}box"; "{urn:a}mtu"] (drun d_hist)) = Ok d_leaf2 /\ d_leaf2 <> d_leaf.
Proof. split; [exact d_owned | split; [exact d_after | discriminate]]. Qed.

(** C43: loading a model never fails on the cache, whatever the history. *)
Theorem C43_load : forall l m, fst (load_model m (drun l)) = Ok tt.
Proof. exact load_ok. Qed.
Print Assumptions C43_load.
Example C43_load_case : d_nodes (drun d_hist) <> [] /\ last_load "a" d_hist <> None.
Proof. split; discriminate. Qed.

(** C43 fails if two models have the same root: an entry made from the first model
    survives its reload. *)
Theorem C43_shared_root_refuted : exists l path s,
  fst (get_schema_node path (drun l)) = Ok s /\ ~ Data (Current l) path s.
Proof. exact shared_root. Qed.
Print Assumptions C43_shared_root_refuted.

(** C44: the table read after a scan is the table of that scan, if nothing read the
    table between the first scan and this one. *)
Theorem C44_last_scan_partial : forall l1 T l2, Unread l1 -> (forall T', ~ In (DScan T') l2) ->
  fst (namespaces (drun (l1 ++ DScan T :: l2))) = Ok T.
Proof. exact last_scan_read. Qed.
Print Assumptions C44_last_scan_partial.
Example C44_last_scan_case : Unread d_quiet /\ Scanned d_quiet /\
  fst (namespaces (drun (d_quiet ++ DScan (d_tab "q") :: [DNamespaces; DLookup ["{urn:z}no"]]))) = Ok (d_tab "q").
Proof. split; [exact d_quiet_unread | split; [exists (d_tab "p"); right; left; reflexivity | reflexivity]]. Qed.

(** C44 fails otherwise: once read, the table stays for ever. *)
Theorem C44_stays : forall l T l', fst (namespaces (drun l)) = Ok T ->
  fst (namespaces (drun (l ++ DNamespaces :: l'))) = Ok T.
Proof. exact first_read_stays. Qed.
Print Assumptions C44_stays.
Example C44_stays_case : fst (namespaces (drun d_quiet)) = Ok (d_tab "p").
Proof. reflexivity. Qed.
Theorem C44_refuted : exists l T T', T <> T' /\ fst (namespaces (drun (l ++ [DScan T]))) = Ok T'.
Proof. exact stale_table. Qed.
Print Assumptions C44_refuted.

(** C65: every data node of the loaded models is found, if no model has a choice at top
    level. *)
Theorem C65_found_partial : forall l path s, Owned l -> DistinctNames (Current l) ->
  (forall m k, Current l m -> In k (skids (m_tree m)) -> sty k <> TChoice /\ sty k <> TCase) ->
  Data (Current l) path s -> fst (get_schema_node path (drun l)) = Ok s.
Proof. exact lookup_complete. Qed.
Print Assumptions C65_found_partial.
Example C65_found_case : Owned d_hist /\ DistinctNames (Current d_hist) /\
  (forall m k, Current d_hist m -> In k (skids (m_tree m)) -> sty k <> TChoice /\ sty k <> TCase) /\
  Data (Current d_hist) ["{urn:a}box"; "{urn:a}mtu"] d_leaf2.
Proof.
  exact (conj d_owned (conj d_hist_distinct (conj d_hist_nochoice (lookup_sound _ _ _ d_owned d_after)))).
Qed.

(** C65 fails for a data node in a choice at top level. *)
Theorem C65_choice_refuted : exists l path s, Owned l /\ Data (Current l) path s /\
  (forall s', Data (Current l) path s' -> s' = s) /\
  fst (get_schema_node path (drun l)) = Err ModelMissing.
Proof. exact choice_missing. Qed.
Print Assumptions C65_choice_refuted.
