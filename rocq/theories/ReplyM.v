(** The namespaces of replies and notifications: the end of [execute] and [take_notification],
    /repo/src/ncdiff/manager.py:435-441 and 472-478, [_get_ns], manager.py:972-1009, before and
    after [scan_models], and [xpath] of replies, /repo/src/ncdiff/__init__.py:65-78. No proofs
    in this file. *)
From Coq Require Import String List Bool.
From Verif Require Import Base TagM.
Import ListNotations.
Open Scope string_scope.
Open Scope list_scope.

(** What ncclient returns: an RPCReply, a Notification, or something else: None if there is no
    notification in time, and in asynchronous mode the RPC itself, whose reply comes later. *)
Inductive answer_kind := KReply | KNotification | KOther.
(** An answer: the URLs of its namespaces in the order in which Python iterates over the set,
    and its attribute [ns] if it has one. *)
Record answer := Answer { r_kind : answer_kind; r_urls : list string; r_ns : option (list (string * string)) }.

(** [get_prefix], manager.py:990-996, with the property [namespaces], manager.py:114-129; [T] is
    None before [scan_models]. *)
Definition prefix_of (T : option table) (url : string) : res (option string) :=
  match find (fun e => String.eqb (e_url e) url) specials with
  | Some e => Ok (Some (e_prefix e))
  | None => match T with
            | None => Err ValueError
            | Some t => Ok (option_map e_prefix (find (fun e => String.eqb url (e_url e)) t))
            end
  end.
(** [_get_ns], manager.py:998-1009 *)
Definition namespaces_of (T : option table) (urls : list string) : res (list (string * string)) :=
  let! ps := mapM (fun u => let! p := prefix_of T u in Ok (u, p)) urls in
  Ok (fold_left (fun d '(u, p) => dset String.eqb p u d) (number 0 ps) []).

(** manager.py:436-441 and 473-478; [notify]: does ncclient have notifications. *)
Definition received (notify : bool) (T : option table) (r : answer) : res answer :=
  match r_kind r with
  | KReply => let! n := namespaces_of T (r_urls r) in Ok (Answer (r_kind r) (r_urls r) (Some n))
  | KNotification =>
      if notify then let! n := namespaces_of T (r_urls r) in Ok (Answer (r_kind r) (r_urls r) (Some n)) else Ok r
  | KOther => Ok r
  end.

(** [xpath], __init__.py:65-78: the namespaces with which lxml evaluates the path; [given] is the
    argument of the caller. *)
Definition xpath_namespaces (given : option (list (string * string))) (r : answer) : res (list (string * string)) :=
  match given with
  | Some n => Ok n
  | None => match r_ns r with Some n => Ok n | None => Err AttributeError end
  end.
