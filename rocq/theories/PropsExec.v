(** C72: what is sent to the device is what the caller asked for. *)
From Coq Require Import String List Bool.
From Verif Require Import Base XmlM TagM MDiffM DataSpec CalcM DepictM DepictP DepictPropsP CompatM CompatSpec CompatPropsP ExecM ExecSpec ExecP ExecArgsP ExecPropsP.
Import ListNotations.
Open Scope string_scope.
Open Scope list_scope.

(** [get]: the filter holds exactly the roots of the named models that can be read, once each.
    Names that are not loaded are refused, and so are models with nothing to read. *)
Theorem C72_get : forall ops caps d args kw, Fine d -> OneTop d ->
  exists out, Asks d ["read-write"; "read-only"] kw out /\
  execute ops caps d (inr Get) args kw = match out with Ok kw' => Ok (Get, args, kw') | Err e => Err e end.
Proof. exact exec_get. Qed.
Print Assumptions C72_get.
Example C72_get_case : Fine ex_d /\ OneTop ex_d /\
  execute ex_ops [] ex_d (inl "get") [] [("models", AList ["x"; "m"])] = Ok (Get, [], [("filter", AFilter ["{urn:m}top"; "{urn:m}event"; "{u}sys"])]) /\
  execute ex_ops [] ex_d (inl "get") [] [("models", AStr "e")] = Err ValueError /\
  execute ex_ops [] ex_d (inl "get") [] [("models", AList ["m"; "none"])] = Err ModelMissing.
Proof. split; [exact ex_fine |]. split; [exact ex_one |]. repeat split; vm_compute; reflexivity. Qed.

(** [get_config]: only roots that can be written; the source is the running datastore unless
    given. *)
Theorem C72_get_config : forall ops caps d args kw, Fine d -> OneTop d ->
  exists out args', Asks d ["read-write"] kw out /\
  (args = [] -> kw_get "source" kw = None -> args' = [AStr "running"]) /\
  (args <> [] \/ kw_get "source" kw <> None -> args' = args) /\
  execute ops caps d (inr GetConfig) args kw = match out with Ok kw' => Ok (GetConfig, args', kw') | Err e => Err e end.
Proof. exact exec_get_config. Qed.
Print Assumptions C72_get_config.
Example C72_get_config_case : 
  execute ex_ops [] ex_d (inl "get_config") [] [("models", AList ["x"; "m"])] = Ok (GetConfig, [AStr "running"], [("filter", AFilter ["{urn:m}top"; "{u}sys"])]) /\
  execute ex_ops [] ex_d (inr GetConfig) [] [("source", AStr "startup"); ("models", AStr "x")] = Ok (GetConfig, [], [("source", AStr "startup"); ("filter", AFilter ["{u}sys"])]).
Proof. split; vm_compute; reflexivity. Qed.

(** Over a compiled module the filter of [get_config] names the configuration at its top, and
    that of [get] the data and the notifications. *)
Theorem C72_module : forall ns kids l d n t, compile_nodes ns kids = Ok l -> Fine d -> Loads d n t -> xkids t = l ->
  (forall r, RootOf d [n] ["read-write"] r <-> exists s, In s kids /\ Names ns s r /\ is_data s = true /\ y_config (yi s) = Some true) /\
  (forall r, RootOf d [n] ["read-write"; "read-only"] r <->
    exists s, In s kids /\ Names ns s r /\ (is_data s = true \/ is_kw "notification" s = true)).
Proof. exact compiled_asked. Qed.
Print Assumptions C72_module.
Example C72_module_case : compile_nodes dp_ns dp_kids = Ok ex_nodes /\ Fine ex_d /\ Loads ex_d "m" ex_m /\ xkids ex_m = ex_nodes /\
  Names dp_ns dp_data "{urn:m}top" /\ is_data dp_data = true /\ y_config (yi dp_data) = Some true /\ In dp_data dp_kids.
Proof. split; [exact ex_compiled |]. split; [exact ex_fine |]. split; [exact ex_loads |]. split; [reflexivity |]. split; [exists "urn:m"; split; reflexivity |]. repeat split. cbn. auto. Qed.

(** [edit_config]: a Config is replaced by its element, and the target becomes the running
    datastore exactly if none is named and only that one can be written. *)
Theorem C72_edit : forall ops caps d args kw,
  exists args' kw', execute ops caps d (inr EditConfig) args kw = Ok (EditConfig, args', kw') /\
  (forall x r, args = ACfg x :: r -> args' = AEle x :: r) /\
  ((forall x r, args <> ACfg x :: r) -> args' = args) /\
  Unchanged ["target"] kw kw' /\
  (kw_get "target" kw = None -> ~ In "urn:ietf:params:netconf:capability:candidate:1.0" caps -> In "urn:ietf:params:netconf:capability:writable-running:1.0" caps -> kw_get "target" kw' = Some (AStr "running")) /\
  (kw_get "target" kw <> None \/ In "urn:ietf:params:netconf:capability:candidate:1.0" caps \/ ~ In "urn:ietf:params:netconf:capability:writable-running:1.0" caps -> kw_get "target" kw' = kw_get "target" kw).
Proof. exact exec_edit. Qed.
Print Assumptions C72_edit.
Example C72_edit_case : execute ex_ops [cap_running] ex_d (inl "edit_config") [ACfg cx_a] [] = Ok (EditConfig, [AEle cx_a], [("target", AStr "running")]).
Proof. vm_compute. reflexivity. Qed.

(** An operation is given by its name or by its class; unknown names are refused. *)
Theorem C72_name : forall ops caps d s args kw,
  (assoc String.eqb s ops = None -> execute ops caps d (inl s) args kw = Err ValueError) /\
  (forall c, assoc String.eqb s ops = Some c -> execute ops caps d (inl s) args kw = execute ops caps d (inr c) args kw).
Proof. exact exec_name. Qed.
Print Assumptions C72_name.
Example C72_name_case : execute ex_ops [] ex_d (inl "loc") [] [] = Err ValueError /\ execute ex_ops [] ex_d (inl "lock") [AStr "running"] [] = Ok (OtherOp 0, [AStr "running"], []).
Proof. split; vm_compute; reflexivity. Qed.

(** The edit-config request for a Config holds its element, one target and exactly the
    options given, or is refused because the device lacks a capability that an option needs. *)
Theorem C72_edit_sent : forall ops caps has d x kw args' kw' b,
  Options kw -> kw_get "format" kw = None \/ kw_get "format" kw = Some (AStr "xml") ->
  execute ops caps d (inr EditConfig) [ACfg x] kw = Ok (EditConfig, args', kw') -> bind_args edit_params args' kw' = Ok b ->
  (exists l, edit_request has b = Ok l /\ NoDup (map rank l) /\
    (forall a, In (PConfig a) l <-> a = AEle x) /\ (forall a, ~ In (PText a) l) /\
    (forall a, In (PTarget a) l <-> a = match kw_get "target" kw with Some a => a | None =>
       if negb (mem String.eqb cap_candidate caps) && mem String.eqb cap_running caps then AStr "running" else AStr "candidate" end) /\
    (forall a, In (PDefault a) l <-> kw_get "default_operation" kw = Some a /\ a <> ANone) /\
    (forall a, In (PTest a) l <-> kw_get "test_option" kw = Some a /\ a <> ANone) /\
    (forall a, In (PError a) l <-> kw_get "error_option" kw = Some a /\ a <> ANone)) \/
  (edit_request has b = Err ConfigError /\
    ((exists a, kw_get "test_option" kw = Some a /\ a <> ANone /\ has ":validate" = false) \/
     (kw_get "error_option" kw = Some (AStr "rollback-on-error") /\ has ":rollback-on-error" = false))).
Proof. exact edit_sent. Qed.
Print Assumptions C72_edit_sent.
Example C72_edit_sent_case : Options ex_kw /\
  (let! p := execute ex_ops [cap_running] ex_d (inr EditConfig) [ACfg cx_a] ex_kw in
   let! b := bind_args edit_params (snd (fst p)) (snd p) in edit_request (fun _ => true) b) =
  Ok [PTarget (AStr "running"); PTest (AStr "set"); PDefault (AStr "merge"); PConfig (AEle cx_a)].
Proof. split; [exact ex_options | vm_compute; reflexivity]. Qed.

(** The class called is the one asked for. Only reading operations change models and filter,
    only edit-config changes the target, and nothing else is changed; operations that are none
    of the three get exactly the arguments of the caller. *)
Theorem C72_passes : forall ops caps d o args kw c args' kw', execute ops caps d o args kw = Ok (c, args', kw') ->
  (o = inr c \/ exists s, o = inl s /\ assoc String.eqb s ops = Some c) /\
  Unchanged ["models"; "filter"; "target"] kw kw' /\
  (c <> EditConfig -> kw_get "target" kw' = kw_get "target" kw) /\
  (c <> Get -> c <> GetConfig -> kw_get "models" kw' = kw_get "models" kw /\ kw_get "filter" kw' = kw_get "filter" kw) /\
  tl args' = tl args /\ (args <> [] -> c <> EditConfig -> args' = args) /\
  (c <> Get -> c <> GetConfig -> c <> EditConfig -> args' = args /\ kw' = kw).
Proof. exact execute_passes. Qed.
Print Assumptions C72_passes.
Example C72_passes_case : execute ex_ops [cap_running] ex_d (inl "lock") [AStr "running"; ANone] [("models", AStr "zz"); ("x", AStr "y")] =
  Ok (OtherOp 0, [AStr "running"; ANone], [("models", AStr "zz"); ("x", AStr "y")]).
Proof. vm_compute. reflexivity. Qed.

(** What the request carries: the config as an element for the format xml, as text for text. *)
Theorem C72_carries : forall has b l, edit_request has b = Ok l ->
  exists c, kw_get "config" b = Some c /\
  (forall a, In (PConfig a) l <-> a = c /\ (kw_get "format" b = None \/ kw_get "format" b = Some (AStr "xml"))) /\
  (forall a, In (PText a) l <-> a = c /\ kw_get "format" b = Some (AStr "text")).
Proof. exact request_carries. Qed.
Print Assumptions C72_carries.
Example C72_carries_case : edit_request (fun _ => true) [("config", AStr "set a b"); ("format", AStr "text")] = Ok [PTarget (AStr "candidate"); PText (AStr "set a b")].
Proof. reflexivity. Qed.

(** A Config given by keyword is not replaced by its element, whatever the device. *)
Theorem C72_keyword_config_refuted : forall ops caps d has x, exists args' kw' b l,
  execute ops caps d (inr EditConfig) [] [("config", ACfg x)] = Ok (EditConfig, args', kw') /\
  bind_args edit_params args' kw' = Ok b /\ edit_request has b = Ok l /\
  In (PConfig (ACfg x)) l /\ ~ In (PConfig (AEle x)) l.
Proof. exact keyword_config. Qed.
Print Assumptions C72_keyword_config_refuted.

(** The target is only looked for among the keywords: given by position on a device without
    candidate it is given twice, and the call fails. *)
Theorem C72_positional_target_refuted : forall ops caps d x f t kw, In cap_running caps -> ~ In cap_candidate caps -> kw_get "target" kw = None ->
  exists args' kw', execute ops caps d (inr EditConfig) [ACfg x; f; t] kw = Ok (EditConfig, args', kw') /\ bind_args edit_params args' kw' = Err TypeError /\
  kw_get "target" kw' = Some (AStr "running").
Proof. exact positional_target. Qed.
Print Assumptions C72_positional_target_refuted.

(** The options are not sent in the order that RFC 6241 section 7.2 gives. *)
Theorem C72_order_refuted : exists has b l, edit_request has b = Ok l /\ ~ InOrder l.
Proof. exact order_wrong. Qed.
Print Assumptions C72_order_refuted.

(** With a format other than xml and text the request carries no config, without an error. *)
Theorem C72_format_refuted : forall has c s b, s <> "xml" -> s <> "text" -> kw_get "config" b = Some c -> kw_get "format" b = Some (AStr s) ->
  forall l, edit_request has b = Ok l -> forall a, ~ In (PConfig a) l /\ ~ In (PText a) l.
Proof. exact format_lost. Qed.
Print Assumptions C72_format_refuted.
Example C72_format_case : edit_request (fun _ => true) [("config", AEle cx_a); ("format", AStr "json")] = Ok [PTarget (AStr "candidate")].
Proof. reflexivity. Qed.

(** The filter of [get] names the notifications of a module, which are no data. *)
Theorem C72_notification_refuted : forall ns kids l d n t s r, compile_nodes ns kids = Ok l -> Fine d -> Loads d n t -> xkids t = l ->
  In s kids -> is_kw "notification" s = true -> Names ns s r -> RootOf d [n] ["read-write"; "read-only"] r.
Proof. exact notification_asked. Qed.
Print Assumptions C72_notification_refuted.
Example C72_notification_case : In dp_note dp_kids /\ is_kw "notification" dp_note = true /\ Names dp_ns dp_note "{urn:m}event".
Proof. split; [left; reflexivity |]. split; [reflexivity |]. exists "urn:m". split; reflexivity. Qed.

(** For a choice at the top of a module the filter names the choice, which no data has, and
    not the data in its cases. *)
Theorem C72_choice_refuted : exists ns kids l d n t kw out roots,
  compile_nodes ns kids = Ok l /\ Fine d /\ OneTop d /\ Loads d n t /\ xkids t = l /\ Given kw [n] /\
  execute [] [] d (inr GetConfig) [] kw = Ok (GetConfig, [AStr "running"], out) /\ kw_get "filter" out = Some (AFilter roots) /\
  (exists k s, In k l /\ Through (read_node k) s /\ stag s = "{urn:m}host") /\ ~ In "{urn:m}host" roots /\
  In "{urn:m}how" roots /\ forall k s, In k l -> Through (read_node k) s -> stag s <> "{urn:m}how".
Proof. exact choice_asked. Qed.
Print Assumptions C72_choice_refuted.
