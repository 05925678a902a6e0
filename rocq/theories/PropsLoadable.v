(** C73: which models a device is said to offer. *)
From Coq Require Import String Ascii List Bool Arith Permutation.
From Verif Require Import Base XmlM TagM LoadableM LoadableSpec LoadableP LoadablePropsP.
Import ListNotations.
Open Scope string_scope.
Open Scope list_scope.

(** With monitoring the names are the identifiers of all schemas of the reply, sorted. *)
Theorem C73_schemas : forall sv l, Offers sv ncm -> Forall Leaves l -> sv_answer sv AskMonitoring = Replied (schemas_reply l) ->
  exists names, models_loadable sv None = (map Some names, [AskMonitoring], Some (map Some names)) /\ SortedOf names (map sc_id l).
Proof. exact loadable_schemas. Qed.
Print Assumptions C73_schemas.
Example C73_schemas_case : Offers lo_full ncm /\ Forall Leaves lo_schemas /\ sv_answer lo_full AskMonitoring = Replied (schemas_reply lo_schemas) /\
  models_loadable lo_full None = (map Some ["acl"; "ietf-system"; "ietf-system"], [AskMonitoring], Some (map Some ["acl"; "ietf-system"; "ietf-system"])).
Proof. split; [exact lo_offers |]. split; [exact lo_leaves |]. split; [reflexivity |]. vm_compute. reflexivity. Qed.

(** The three ways are tried in order, a way only if the device offers it and the ones before
    failed; the last one reads the capabilities. Each device is asked at most once each way. *)
Theorem C73_order : forall sv,
  (forall x, Offers sv ncm -> sv_answer sv AskMonitoring = Replied x -> Texts x schemas_path ->
    exists l, Lists x schemas_path l /\ models_loadable sv None = (map Some l, [AskMonitoring], Some (map Some l))) /\
  ((Offers sv ncm -> Failed (sv_answer sv AskMonitoring) schemas_path) ->
    exists q, (In AskMonitoring q <-> Offers sv ncm) /\ (In AskLibrary q <-> Offers sv lib_cap) /\ NoDup q /\
    (forall x, Offers sv lib_cap -> sv_answer sv AskLibrary = Replied x -> Texts x lib_path ->
      exists l, Lists x lib_path l /\ models_loadable sv None = (map Some l, q, Some (map Some l))) /\
    ((Offers sv lib_cap -> Failed (sv_answer sv AskLibrary) lib_path) -> forall ms, Forall2 Tells (sv_caps sv) ms ->
      exists l, SortedOf l (flat_map (fun o => match o with Some m => [m] | None => [] end) ms) /\
      models_loadable sv None = (map Some l, q, Some (map Some l)))).
Proof. exact loadable_order. Qed.
Print Assumptions C73_order.
Example C73_order_case : Forall2 Tells (sv_caps lo_plain) [None; Some "ietf-system"; Some "acl"] /\
  models_loadable lo_plain None = ([Some "acl"; Some "ietf-system"], [], Some [Some "acl"; Some "ietf-system"]).
Proof. split; [exact lo_tells | vm_compute; reflexivity]. Qed.

Example C73_order_mixed_case : Failed (sv_answer lo_mixed AskMonitoring) schemas_path /\
  models_loadable lo_mixed None = ([Some "acl"; Some "ietf-netconf-monitoring"; Some "ietf-system"], [AskMonitoring], Some [Some "acl"; Some "ietf-netconf-monitoring"; Some "ietf-system"]).
Proof. split; [exact lo_mixed_failed | vm_compute; reflexivity]. Qed.

(** No other replies: all the elements reached have a text, or one of several has none, which
    counts as a failure, or the only one has none. *)
Theorem C73_replies : forall ps x, ps <> [] -> Texts x ps \/ Mixed x ps \/ Alone x ps.
Proof. exact reply_kinds. Qed.
Print Assumptions C73_replies.
Example C73_replies_case : Texts (schemas_reply lo_schemas) schemas_path /\ Mixed lo_mixed_reply schemas_path /\ Alone lo_alone_reply schemas_path.
Proof. exact lo_kinds. Qed.

(** An only identifier without text is listed: the list is [[None]], the other ways are not
    tried. *)
Theorem C73_nameless_refuted : forall sv x,
  (Offers sv ncm -> sv_answer sv AskMonitoring = Replied x -> Alone x schemas_path ->
    models_loadable sv None = ([None], [AskMonitoring], Some [None])) /\
  ((Offers sv ncm -> Failed (sv_answer sv AskMonitoring) schemas_path) ->
    Offers sv lib_cap -> sv_answer sv AskLibrary = Replied x -> Alone x lib_path -> exists q, models_loadable sv None = ([None], q, Some [None])).
Proof. exact loadable_alone. Qed.
Print Assumptions C73_nameless_refuted.
Example C73_nameless_case : Offers lo_alone ncm /\ sv_answer lo_alone AskMonitoring = Replied lo_alone_reply /\ Alone lo_alone_reply schemas_path.
Proof. split; [exists "?module=ietf-netconf-monitoring"; left; reflexivity |]. split; [reflexivity | apply lo_kinds]. Qed.

(** The answer is kept: later calls give it again and ask nothing. *)
Theorem C73_kept : forall sv kept l q k, models_loadable sv kept = (l, q, k) ->
  k = Some l /\ (kept <> None -> kept = Some l /\ q = []) /\ forall sv', models_loadable sv' k = (l, [], k).
Proof. exact loadable_kept. Qed.
Print Assumptions C73_kept.

(** A conformant reply of the YANG library gives no model at all, because the URN of the
    capability is taken for the namespace; and that is kept. *)
Theorem C73_library_refuted : forall sv l, ~ Offers sv ncm -> Offers sv lib_cap -> sv_answer sv AskLibrary = Replied (library_reply l) ->
  models_loadable sv None = ([], [AskLibrary], Some []).
Proof. exact library_empty. Qed.
Print Assumptions C73_library_refuted.
Example C73_library_case : Offers lo_lib lib_cap /\ sv_answer lo_lib AskLibrary = Replied (library_reply ["acl"; "ietf-system"]) /\
  models_loadable lo_lib None = ([], [AskLibrary], Some []) /\ from_caps (sv_caps lo_lib) = ["acl"; "ietf-system"].
Proof. split; [exists "?revision=2016-04-09&module-set-id=1"; left; reflexivity |]. repeat split; vm_compute; reflexivity. Qed.

(** In capabilities names are cut at characters such as '_' and '.', which RFC 7950 section 14
    allows in identifiers. *)
Theorem C73_cut_refuted : forall uri before a c b after, a <> "" -> Plain a -> ~ PlainChar c -> ~ Within "module=" (capability uri (before ++ [""])) ->
  module_in (capability uri (before ++ ("module=" ++ a ++ String c b)%string :: after)) = Some a.
Proof. exact name_cut. Qed.
Print Assumptions C73_cut_refuted.
Example C73_cut_case : from_caps [capability "urn:t" ["module=tailf_aaa"; "revision=1"]; capability "urn:t" ["module=tailf.acl"]] = ["tailf"; "tailf"].
Proof. vm_compute. reflexivity. Qed.

(** A model offered in two versions or formats is listed twice. *)
Theorem C73_twice_refuted : forall sv l, Offers sv ncm -> Forall Leaves l -> sv_answer sv AskMonitoring = Replied (schemas_reply l) ->
  ~ NoDup (map sc_id l) -> ~ NoDup (fst (fst (models_loadable sv None))).
Proof. exact listed_twice. Qed.
Print Assumptions C73_twice_refuted.

(** A name taken from the capabilities is never empty: it stands after [module=] in one of them,
    up to the end or a character that is no letter, digit or hyphen. *)
Theorem C73_caps_sound : forall caps n, In n (from_caps caps) -> n <> "" /\ Plain n /\ exists c a r, In c caps /\ c = (a ++ "module=" ++ n ++ r)%string /\ Stop r.
Proof. exact caps_sound. Qed.
Print Assumptions C73_caps_sound.
Example C73_caps_sound_case : In "acl" (from_caps (sv_caps lo_plain)) /\ from_caps ["urn:t?module="; "urn:t?module=&module=b"] = ["b"].
Proof. split; vm_compute; auto. Qed.
