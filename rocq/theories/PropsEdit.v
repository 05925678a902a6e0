(** C12, C13, C57, C59: merging configs and applying edits. *)
From Coq Require Import String Ascii List Bool Arith ZArith Lia Permutation.
From Verif Require Import Base XmlM CalcM NetconfM ConfigM DataSpec DeltaSpec ConfigSpec TrimSpec EditSpec ListP DataP CompatP EditP EditSemP MergeP MergeCfgP EditPropsP OrderEditP ExampleM.
Import ListNotations.
Open Scope string_scope.
Open Scope list_scope.

(** ** C12
    Merging two valid trees always succeeds, and the result holds exactly the
    instances of either, with the value of the second where it has one. *)
Theorem C12_merge : forall s x d, wfs s = true -> ~ Leafy s -> valid s x = true -> valid s d = true ->
  exists r, nc_add s x d = Ok r /\ valid s r = true /\ forall p v, Holds s r p v <-> Union s x d p v.
Proof.
  intros s x d W N VX VD. destruct (merge_spec s x d W N VX VD) as (r & H1 & H2 & _ & H4). exact (ex_intro _ r (conj H1 (conj H2 H4))).
Qed.
Print Assumptions C12_merge.

(** The sum of two configs. Full statement: [Holds s r p v <-> Union s a b p v] for all
    schemas; it fails for leaf-lists with defaults, see [C12_leaf_list_refuted]. The
    general part says that the sum is the union after removal of defaults. *)
Theorem C12_config_partial : forall s a b, wfs s = true -> keys_plain s = true -> sty s = TRoot -> IsConfig s a -> IsConfig s b ->
  exists r0 r, config_add s a b = Ok r /\ valid s r0 = true /\ (forall p v, Holds s r0 p v <-> Union s a b p v) /\
    TrimOf s r0 r /\ (no_ll_default s = true -> forall p v, Holds s r p v <-> Union s a b p v).
Proof. exact config_sum. Qed.
Print Assumptions C12_config_partial.

Example C12_case : wfs ex_schema = true /\ valid ex_schema ex_a = true /\ valid ex_schema ex_b = true /\
  keys_plain ex_schema = true /\ sty ex_schema = TRoot /\ trim ex_schema ex_a = Ok ex_a /\ trim ex_schema ex_b = Ok ex_b /\
  config_add ex_schema ex_a ex_b = Ok (e_config
    [ e_node "sys"
        [ e_leaf "host" "r2"; e_leaf "tcp-port" "22";
          e_leaf "dns" "8.8.8.8"; e_leaf "dns" "1.1.1.1"; e_leaf "dns" "9.9.9.9"; e_leaf "ntp" "n1"; e_leaf "ntp" "n2";
          ex_user "ann" "op"; ex_user "bob" "admin"; ex_user "eve" "op";
          ex_rule "10" "permit"; ex_rule "20" "deny"; ex_rule "5" "deny"; ex_rule "15" "permit"; e_leaf "mtu" "9000" ];
      e_leaf "label" "x"; e_leaf "banner" "hello" ]).
Proof. repeat split; vm_compute; reflexivity. Qed.

(** The same schema without the leaf-list default. *)
Definition ex_plain_schema : snode :=
  s_root [ s_cont "sys" [ s_leaf "host"; s_leaf_def "mtu" "1500"; s_ll "ntp" false; s_list "user" false ["name"] [ s_key "name"; s_leaf "role" ] ];
           s_leaf "banner"; s_ll "label" false ].
Example C12_plain_case : wfs ex_plain_schema = true /\ keys_plain ex_plain_schema = true /\ no_ll_default ex_plain_schema = true /\
  IsConfig ex_plain_schema (e_config [ e_node "sys" [ e_leaf "host" "r1"; ex_user "ann" "op" ] ]).
Proof. repeat split; vm_compute; reflexivity. Qed.

(** Two configs with one leaf-list entry each: the union equals the schema defaults
    ([ntp] has defaults a and b) and the sum is empty. *)
Definition ex_ntp (v : string) : xml := e_config [ e_node "sys" [ e_leaf "ntp" v ] ].
Theorem C12_leaf_list_refuted : exists s a b r p v, wfs s = true /\ keys_plain s = true /\ sty s = TRoot /\ IsConfig s a /\ IsConfig s b /\
  config_add s a b = Ok r /\ Union s a b p v /\ ~ Holds s r p v.
Proof.
  exists ex_schema, (ex_ntp "a"), (ex_ntp "b"), (e_config []), [("sys", KNone)], None.
  do 3 (split; [vm_compute; reflexivity |]). do 2 (split; [repeat split; vm_compute; reflexivity |]). split; [vm_compute; reflexivity |]. split.
  - left. apply get_holds; vm_compute; reflexivity.
  - intro H. destruct H as (s' & n & H & _). inversion H as [| ? ? ? ? ? ? ? ? I]. destruct I.
Qed.
Print Assumptions C12_leaf_list_refuted.

(** ** C13
    Wherever the edit has an operation that RFC 6241 forbids at that place, the whole
    edit fails with ConfigDeltaError. *)
Theorem C13_errors : forall s x d s' x' d', wfs s = true -> valid s x = true -> edit_ok s d = true -> refs_ok d = true ->
  Visited edit_op s x d s' x' d' -> Forbidden edit_op s' x' d' -> nc_add s x d = Err ConfigDeltaError.
Proof. exact forbidden_error. Qed.
Print Assumptions C13_errors.

(** For any trees whatsoever it does not succeed. *)
Theorem C13_never_succeeds : forall s x d s' x' d' r, wfs s = true ->
  Visited edit_op s x d s' x' d' -> Forbidden edit_op s' x' d' -> nc_add s x d <> Ok r.
Proof. exact forbidden_any. Qed.
Print Assumptions C13_never_succeeds.

(** When it succeeds, the result is what the RFC prescribes: every instance of the
    result is in [Edited], and every instance of [Edited] is in the result unless it
    is a non-presence container (those may be left out when empty). *)
Theorem C13_effect : forall s x d r, wfs s = true -> ~ Leafy s -> valid s x = true -> edit_ok s d = true ->
  nc_add s x d = Ok r -> forall p v,
  (Holds s r p v -> Edited edit_op s x d p v) /\
  (Edited edit_op s x d p v -> (forall c, Target s p c -> np_container c = false) -> Holds s r p v).
Proof. exact edit_effect. Qed.
Print Assumptions C13_effect.

(** Replace makes the node exactly the given one; so does create. *)
Theorem C13_replace : forall s x d r u cs c, wfs s = true -> valid s x = true -> edit_ok s d = true ->
  nc_add s x d = Ok r -> Child s d u cs c -> edit_op c = OpReplace \/ edit_op c = OpCreate ->
  forall p v, Holds s r (u :: p) v <-> Holds cs c p v.
Proof. exact replaced_exactly. Qed.
Print Assumptions C13_replace.

(** Removing what is not there changes nothing. *)
Theorem C13_remove_missing : forall s x d, valid s x = true -> is_ok (index_kids s (xkids d)) = true ->
  (forall c, In c (xkids d) -> edit_op c = OpRemove) -> (forall u cs c, Child s d u cs c -> NoChild s x u) ->
  nc_add s x d = Ok x.
Proof. exact remove_missing_valid. Qed.
Print Assumptions C13_remove_missing.

Definition e_op (o : string) (x : xml) : xml := set_attr operation_tag o x.
Definition ex_edit : xml :=
  e_config [ e_node "sys" [ e_op "replace" (ex_user "ann" "admin"); e_op "delete" (ex_user "bob" "op");
                            e_op "remove" (e_leaf "mtu" "9000"); e_op "create" (e_leaf "dns" "9.9.9.9"); e_leaf "host" "r3";
                            set_attr insert_tag "first" (e_op "create" (ex_rule "1" "deny")) ];
             e_op "delete" (e_leaf "label" "x") ].
Example C13_case : edit_ok ex_schema ex_edit = true /\ refs_ok ex_edit = true /\
  nc_add ex_schema ex_a ex_edit = Ok (e_config
    [ e_node "sys"
        [ e_leaf "host" "r3"; e_leaf "tcp-port" "22";
          e_leaf "dns" "8.8.8.8"; e_leaf "dns" "1.1.1.1"; e_leaf "dns" "9.9.9.9"; e_leaf "ntp" "n1";
          ex_user "ann" "admin";
          ex_rule "1" "deny"; ex_rule "10" "permit"; ex_rule "20" "deny" ] ]).
Proof. repeat split; vm_compute; reflexivity. Qed.

(** Deleting a user that is not there, two levels down. *)
Definition ex_bad_edit : xml := e_config [ e_node "sys" [ e_op "delete" (ex_user "eve" "op") ] ].
Example C13_error_case : edit_ok ex_schema ex_bad_edit = true /\ refs_ok ex_bad_edit = true /\
  exists s' x' d', Visited edit_op ex_schema ex_a ex_bad_edit s' x' d' /\ Forbidden edit_op s' x' d'.
Proof. exact bad_edit_visited. Qed.
Example C13_remove_case : valid ex_schema ex_a = true /\ is_ok (index_kids ex_schema [e_op "remove" (e_leaf "banner" "hi")]) = true /\
  nc_add ex_schema ex_a (e_config [e_op "remove" (e_leaf "banner" "hi")]) = Ok ex_a.
Proof. repeat split; vm_compute; reflexivity. Qed.

(** The condition on the insert attribute is needed: an unknown value makes a new
    leaf-list entry disappear (netconf.py:643-650) without an error. *)
Theorem C13_unknown_insert_refuted : exists s x d r u cs c, wfs s = true /\ valid s x = true /\
  nc_add s x d = Ok r /\ Child s d u cs c /\ edit_op c = OpCreate /\ NoChild s r u.
Proof. exact unknown_insert. Qed.
Print Assumptions C13_unknown_insert_refuted.

(** So does a node of another type, such as anyxml. *)
Theorem C13_other_type_refuted : exists s x d r u cs c, wfs s = true /\ valid s x = true /\
  nc_add s x d = Ok r /\ Child s d u cs c /\ edit_op c = OpCreate /\ NoChild s r u.
Proof. exact other_type. Qed.
Print Assumptions C13_other_type_refuted.

(** ** C57
    For all trees: every attribute of the result was in the datastore before. *)
Theorem C57_no_markers : forall s x d r, nc_add s x d = Ok r -> incl (all_attrs r) (all_attrs x).
Proof. intros s x d r H. exact (add_attrs _ _ _ _ _ H). Qed.
Print Assumptions C57_no_markers.

Theorem C57_config : forall s x d r, config_add s x d = Ok r -> incl (all_attrs r) (all_attrs x).
Proof. exact config_add_attrs. Qed.
Print Assumptions C57_config.

Theorem C57_delta : forall s a d r, IsConfig s a -> config_add_delta s a d = Ok r -> all_attrs r = [].
Proof. exact delta_attrs. Qed.
Print Assumptions C57_delta.

Example C57_case : length (all_attrs ex_edit) = 7 /\ exists r, nc_add ex_schema ex_a ex_edit = Ok r /\ all_attrs r = [].
Proof. split; [vm_compute; reflexivity | eexists; split; vm_compute; reflexivity]. Qed.

(** ** C59
    Where an edit has one entry of a list or leaf-list, at any depth, the insert,
    value and key attributes put it where RFC 7950 section 7.8.6 says, and the
    other entries keep their order. A deleted entry is taken out of the order. *)
Theorem C59_position : forall s x d r p s' x' d' u cs c, wfs s = true -> edit_ok s d = true -> nc_add s x d = Ok r ->
  Inside edit_op s x d p s' x' d' -> Child s' d' u cs c -> sty cs = TList \/ sty cs = TLeafList ->
  (forall c', In c' (xkids d') -> xtag c' = xtag c -> c' = c) ->
  exists L L', Order s' (xtag c) (xkids x') L /\ Reordered edit_op s' x' cs c u L L' /\
    (forall r', At s r p s' r' -> Order s' (xtag c) (xkids r') L') /\ (L' <> [] -> exists r', At s r p s' r').
Proof. exact order_inside. Qed.
Print Assumptions C59_position.

(** Lists the edit does not mention keep their order. *)
Theorem C59_untouched : forall s x d r p s' x' d' t, wfs s = true -> edit_ok s d = true -> nc_add s x d = Ok r ->
  Inside edit_op s x d p s' x' d' -> (forall c, In c (xkids d') -> xtag c <> t) ->
  exists L, Order s' t (xkids x') L /\ (forall r', At s r p s' r' -> Order s' t (xkids r') L) /\ (L <> [] -> exists r', At s r p s' r').
Proof. exact order_untouched. Qed.
Print Assumptions C59_untouched.

(** Rule 15 goes between rules 10 and 20. *)
Definition ex_insert : xml :=
  e_config [ e_node "sys" [ set_attr insert_tag "before" (set_attr key_tag "[id='20']" (ex_rule "15" "deny")) ] ].
Example C59_case : edit_ok ex_schema ex_insert = true /\
  nc_add ex_schema ex_a ex_insert = Ok (e_config
    [ e_node "sys"
        [ e_leaf "host" "r1"; e_leaf "tcp-port" "22";
          e_leaf "dns" "8.8.8.8"; e_leaf "dns" "1.1.1.1"; e_leaf "ntp" "n1";
          ex_user "ann" "op"; ex_user "bob" "op";
          ex_rule "10" "permit"; ex_rule "15" "deny"; ex_rule "20" "deny" ];
      e_leaf "label" "x" ]) /\
  exists s' x' d' u cs c, Inside edit_op ex_schema ex_a ex_insert [("sys", KNone)] s' x' d' /\ Child s' d' u cs c /\ sty cs = TList /\ s_user (si cs) = true.
Proof. exact insert_case. Qed.
