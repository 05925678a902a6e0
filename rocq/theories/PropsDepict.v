(** C68: the schema tree says what the statements say. *)
From Coq Require Import String Ascii List Bool Arith.
From Verif Require Import Base XmlM TagM TagSpec DepictM DepictSpec DepictP DepictPropsP DepictAttrSpec DepictAttrP.
Import ListNotations.
Open Scope string_scope.
Open Scope list_scope.

(** ** C68
    Full statement: for all modules. It is false for nested actions and for keys between
    line breaks, see below. Proved: a module without nested actions and notifications
    compiles, and its nodes mirror the statements: data first, then rpcs, then
    notifications, each kind in the order of the module. *)
Theorem C68_mirrors_partial : forall ns kids xs, Forall (Named ns) kids ->
  (forall t, In t kids -> is_data t = true -> DataOnly t) ->
  (forall t, In t kids -> Flat t) -> (forall t, In t kids -> InOut t) ->
  compile_nodes ns kids = Ok xs ->
  Forall2 (Mirror ns []) (filter is_data kids ++ filter (is_kw "rpc") kids ++ filter (is_kw "notification") kids) (map read_node xs).
Proof. exact compile_mirrors. Qed.
Print Assumptions C68_mirrors_partial.
Theorem C68_compiles : forall ns kids, Forall (Named ns) kids -> exists xs, compile_nodes ns kids = Ok xs.
Proof. exact compile_total. Qed.
Print Assumptions C68_compiles.
Example C68_case :
  Forall (Named dp_ns) dp_kids /\ (forall t, In t dp_kids -> is_data t = true -> DataOnly t) /\
  (forall t, In t dp_kids -> Flat t) /\ (forall t, In t dp_kids -> InOut t) /\
  exists xs, compile_nodes dp_ns dp_kids = Ok xs /\ map (fun s => stag s) (map read_node xs) = ["{urn:m}top"; "{urn:m}reset"; "{urn:m}event"] /\
    map (fun s => s_keys (si s)) (flat_map skids (map read_node xs)) = [["{urn:m}a"; "{urn:m}b"]; []; []; []; []] /\
    map (fun s => s_access (si s)) (flat_map skids (flat_map skids (map read_node xs))) =
      ["read-write"; "read-write"; "read-only"; "read-write"; "write"; "read-only"].
Proof.
  split; [exact dp_Named |]. split; [exact dp_data_only |]. split; [exact dp_Flat |]. split; [exact dp_InOut |].
  eexists. split; [vm_compute; reflexivity |]. repeat split.
Qed.

(** Whatever the module is, if it compiles: every node has exactly the attributes that its
    statement says, besides [access], each once, and the children of its statement. *)
Theorem C68_attributes : forall ns kids xs, compile_nodes ns kids = Ok xs ->
  Forall2 (Described ns) (filter is_data kids ++ filter (is_kw "rpc") kids ++ filter (is_kw "notification") kids) xs /\
  forall t, is_data t = true <-> DataNode t.
Proof. exact compile_described. Qed.
Print Assumptions C68_attributes.

Example C68_attributes_case : exists xs x, compile_nodes dp_ns dp_kids = Ok xs /\ nth_error xs 0 = Some x /\
  xattrs x = [("access", "read-write"); ("type", "container"); ("presence", "true"); ("{urn:tailf}info", "text"); ("if-feature", "f1 f2")].
Proof. eexists. eexists. split; [vm_compute; reflexivity |]. split; reflexivity. Qed.

(** The nodes of a nested action are not writable: [set_access] knows rpcs only. *)
Theorem C68_action_refuted : exists ns t x, Named ns t /\ is_data t = true /\ compile_nodes ns [t] = Ok [x] /\
  ~ Mirror ns [] t (read_node x).
Proof. exact action_no_mirror. Qed.
Print Assumptions C68_action_refuted.
(** So it is for all modules: below a data node the access is what the config statement says,
    whatever action or notification the node is in. *)
Theorem C68_access : forall ns kids xs, compile_nodes ns kids = Ok xs ->
  exists a b, xs = a ++ b /\ Forall2 ByConfig (filter is_data kids) a.
Proof. exact compile_by_config. Qed.
Print Assumptions C68_access.
Example C68_access_case : exists x y z w, compile_nodes dp_ns [dp_action] = Ok [x] /\ xkids x = [y] /\ xkids y = [z] /\ xkids z = [w] /\
  xtag w = "{urn:m}at" /\ get_attr "access" w = Some "read-only".
Proof. do 4 eexists. split; [vm_compute; reflexivity |]. repeat split. Qed.
(** Two keys with a line break between them: the list has no keys. *)
Theorem C68_key_lines_refuted : exists ns t x a b, Named ns t /\ is_kw "list" t = true /\
  y_key (yi t) = Some (a ++ String newline "" ++ b)%string /\
  Identifier a /\ Identifier b /\ (exists c, In c (ykids t) /\ y_arg (yi c) = a) /\ (exists c, In c (ykids t) /\ y_arg (yi c) = b) /\
  compile_nodes ns [t] = Ok [x] /\ s_keys (si (read_node x)) = [].
Proof. exact lines_no_keys. Qed.
Print Assumptions C68_key_lines_refuted.
(** An extension as a node: compile raises TypeError, so the branch of [set_access] for
    tailf:action is never of use. *)
Theorem C68_extension_raises : forall ns m i ks u a b, assoc String.eqb (y_module i) ns = Some u -> y_kw i = KwExt a b ->
  depict ns m (YStmt i ks) = Err TypeError.
Proof. exact extension_raises. Qed.
Print Assumptions C68_extension_raises.
Example C68_extension_case : compile_nodes dp_ns [dp_tailf] = Err TypeError.
Proof. reflexivity. Qed.
