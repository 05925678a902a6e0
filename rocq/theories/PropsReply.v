(** C100: replies and notifications come with their namespaces. *)
From Coq Require Import String Ascii List Bool.
From Verif Require Import Base TagM TagSpec TagP RefPropsP ReplyM ReplySpec ReplyP.
Import ListNotations.
Open Scope string_scope.
Open Scope list_scope.

(** After [scan_models]: a path without namespaces is evaluated with a prefix for every
    namespace of the reply, the one of its module if there is one; given namespaces are used
    as they are. Prefixes must differ, see C39. *)
Theorem C100_paths_partial : forall notify T r, Named notify r -> PrefixesDistinct T -> NoNumbered T -> NoDup (r_urls r) ->
  exists r' n, received notify (Some T) r = Ok r' /\ r_kind r' = r_kind r /\ r_urls r' = r_urls r /\
  xpath_namespaces None r' = Ok n /\ (forall g, xpath_namespaces (Some g) r' = Ok g) /\
  map snd n = r_urls r /\ NoDup (map fst n) /\
  forall p u, In (p, u) n -> forall e, In e (T ++ specials) -> e_url e = u ->
    exists e', In e' (T ++ specials) /\ e_url e' = u /\ e_prefix e' = p.
Proof. exact reply_paths. Qed.
Print Assumptions C100_paths_partial.
Definition ex_notice : answer := Answer KNotification ex_urls None.
Example C100_paths_case : Named true ex_notice /\ PrefixesDistinct ex_table /\ NoNumbered ex_table /\ NoDup (r_urls ex_notice) /\
  (let! r := received true (Some ex_table) ex_notice in xpath_namespaces None r) =
  Ok [("nc", nc_url); ("oc-if", e_url ex_if); ("ns00", "urn:other:1"); ("ns01", "urn:other:2")].
Proof.
  split; [right; split; reflexivity |]. split; [exact (proj1 ex_distinct) |]. split; [exact (proj2 ex_distinct) |].
  split; [exact (proj2 ex_get_ns) | vm_compute; reflexivity].
Qed.

(** Full statement: every answer can be received. Before [scan_models] it is false: [execute]
    raises, after the device has done its work, exactly if the reply has a namespace other than
    the built-in ones. *)
Theorem C100_unscanned_refuted : forall notify r,
  (received notify None r = Err ValueError <-> Named notify r /\ exists u, In u (r_urls r) /\ ~ BuiltIn u) /\
  (forall e, received notify None r = Err e -> e = ValueError).
Proof. exact reply_unscanned. Qed.
Print Assumptions C100_unscanned_refuted.
Example C100_unscanned_case : 
  received true None (Answer KReply ["urn:ietf:params:xml:ns:netconf:base:1.0"; "urn:m"] None) = Err ValueError /\
  received true None (Answer KReply ["urn:ietf:params:xml:ns:netconf:base:1.0"] None) =
    Ok (Answer KReply ["urn:ietf:params:xml:ns:netconf:base:1.0"] (Some [("nc", "urn:ietf:params:xml:ns:netconf:base:1.0")])).
Proof. split; vm_compute; reflexivity. Qed.

(** What is neither a reply nor a notification, as in asynchronous mode, is passed on without
    namespaces, and so paths need them from the caller. *)
Theorem C100_other_refuted : forall notify T r, ~ Named notify r -> r_ns r = None ->
  received notify T r = Ok r /\ xpath_namespaces None r = Err AttributeError.
Proof. exact reply_other. Qed.
Print Assumptions C100_other_refuted.
Example C100_other_case : ~ Named true (Answer KOther ["urn:m"] None) /\ ~ Named false ex_notice.
Proof. split; intros [X | [X Y]]; discriminate. Qed.
