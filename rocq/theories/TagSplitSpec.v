(** How a tag splits into two parts, stated without the functions of TagM.v. *)
From Coq Require Import String Ascii List Bool Arith.
From Verif Require Import Base TagM TagSpec.
Import ListNotations.
Open Scope string_scope.
Open Scope list_scope.
Open Scope nat_scope.

(** [t] is the text on one line: [s], or [s] without the newline at its end. *)
Definition OneLine (s t : string) : Prop := (s = t \/ s = (t ++ String newline "")%string) /\ ~ In newline (chars t).

(** A tag of two parts, in braces or with a colon. *)
Definition tag_form (st : style) (ns name : string) : string :=
  match st with Brace => etree ns name | Colon => (ns ++ ":" ++ name)%string end.

(** The line has the two parts [ns] and [name], and it cannot be split further to the right. *)
Definition Splits (st : style) (s ns name : string) : Prop :=
  exists t, OneLine s t /\ ns <> "" /\ name <> "" /\ t = tag_form st ns name /\
    forall ns' name', ns' <> "" -> name' <> "" -> t = tag_form st ns' name' -> String.length ns' <= String.length ns.

(** The namespaces that need no module, with the prefixes that the package gives them
    (manager.py:17-28). *)
Definition built_in : list (string * string) :=
  [("nc", "urn:ietf:params:xml:ns:netconf:base:1.0"); ("yang", "urn:ietf:params:xml:ns:yang:1");
   ("tailf", "http://tail-f.com/ns/netconf/params/1.1"); ("ncEvent", "urn:ietf:params:xml:ns:netconf:notification:1.0")].
