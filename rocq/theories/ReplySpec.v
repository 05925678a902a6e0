(** Specification: answers of the device that get namespaces. *)
From Coq Require Import String List Bool.
From Verif Require Import Base TagM ReplyM.
Import ListNotations.
Open Scope string_scope.
Open Scope list_scope.

(** An RPCReply, or a Notification if ncclient has these *)
Definition Named (notify : bool) (r : answer) : Prop := r_kind r = KReply \/ r_kind r = KNotification /\ notify = true.
(** Namespaces known without modules: NETCONF, its events, YANG and tail-f *)
Definition BuiltIn (u : string) : Prop :=
  In u ["urn:ietf:params:xml:ns:netconf:base:1.0"; "urn:ietf:params:xml:ns:yang:1";
        "http://tail-f.com/ns/netconf/params/1.1"; "urn:ietf:params:xml:ns:netconf:notification:1.0"].
