(** Specification: the names of the models that a device offers. *)
From Coq Require Import String Ascii List Bool Arith Permutation Sorted.
From Verif Require Import Base XmlM TagM LoadableM.
Import ListNotations.
Open Scope string_scope.
Open Scope list_scope.

(** An element below [x] reached by the names in the list; the first is that of [x]. *)
Inductive Reached : xml -> list string -> xml -> Prop :=
| re_here : forall x, Reached x [xtag x] x
| re_below : forall x k ps y, In k (xkids x) -> Reached k ps y -> Reached x (xtag x :: ps) y.

Definition Ascending (l : list string) : Prop := StronglySorted (fun a b => String.leb a b = true) l.
(** [l] lists the same names as [l'], in order *)
Definition SortedOf (l l' : list string) : Prop := Permutation l l' /\ Ascending l.

Definition named (u n : string) (t : option string) (ks : list xml) : xml := Elem ("{" ++ u ++ "}" ++ n)%string t [] ks.
Definition nc := "urn:ietf:params:xml:ns:netconf:base:1.0".
Definition ncm := "urn:ietf:params:xml:ns:yang:ietf-netconf-monitoring".
Definition yl := "urn:ietf:params:xml:ns:yang:ietf-yang-library".

(** The reply to a request for the schemas, RFC 6022 section 2.1.3: each schema has one
    identifier, and other leaves. *)
Record schema := Schema { sc_before : list xml; sc_id : string; sc_after : list xml }.
Definition Leaves (s : schema) : Prop := forall x, In x (sc_before s ++ sc_after s) -> xtag x <> ("{" ++ ncm ++ "}identifier")%string.
Definition schema_xml (s : schema) : xml :=
  named ncm "schema" None (sc_before s ++ named ncm "identifier" (Some (sc_id s)) [] :: sc_after s).
Definition schemas_reply (l : list schema) : xml :=
  named nc "rpc-reply" None [named nc "data" None [named ncm "netconf-state" None [named ncm "schemas" None (map schema_xml l)]]].
(** The reply of the YANG library, RFC 7895 section 2.2 *)
Definition library_reply (l : list string) : xml :=
  named nc "rpc-reply" None [named nc "data" None [named yl "modules-state" None
    (map (fun n => named yl "module" None [named yl "name" (Some n) []]) l)]].

(** A capability that tells of a module, RFC 6020 section 5.6.4: the namespace and parameters. *)
Fixpoint params (l : list string) : string :=
  match l with [] => "" | [p] => p | p :: r => (p ++ "&" ++ params r)%string end.
Definition capability (uri : string) (l : list string) : string := (uri ++ "?" ++ params l)%string.
Definition Within (p s : string) : Prop := exists a b, s = (a ++ p ++ b)%string.
(** The letters of a YANG identifier, RFC 7950 section 14, apart from '_' and '.' *)
Definition PlainChar (c : ascii) : Prop :=
  let n := nat_of_ascii c in 97 <= n <= 122 \/ 65 <= n <= 90 \/ 48 <= n <= 57 \/ n = 45.
Fixpoint Plain (s : string) : Prop := match s with EmptyString => True | String c r => PlainChar c /\ Plain r end.
(** A name ends here. *)
Definition Stop (s : string) : Prop := match s with EmptyString => True | String c _ => ~ PlainChar c end.

(** What a capability tells: a module, or nothing. *)
Inductive Tells : string -> option string -> Prop :=
| tl_module : forall uri before m after, m <> "" -> Plain m -> ~ Within "module=" (capability uri (before ++ [""])) ->
    Tells (capability uri (before ++ ("module=" ++ m)%string :: after)) (Some m)
| tl_none : forall c, ~ Within "module=" c -> Tells c None.

(** A capability with parameters, if any *)
Definition Offers (sv : server) (p : string) : Prop := exists r, In (p ++ r)%string (sv_caps sv).
Definition lib_cap := "urn:ietf:params:netconf:capability:yang-library:1.0".
(** The element at a position: the numbers of the children on the way, and their names *)
Inductive At : xml -> list nat -> list string -> xml -> Prop :=
| at_here : forall x, At x [] [xtag x] x
| at_below : forall x i k is ps y, nth_error (xkids x) i = Some k -> At k is ps y -> At x (i :: is) (xtag x :: ps) y.
(** Two elements with these names, one of them without text: such a list of texts cannot be
    sorted. *)
Definition Mixed (x : xml) (ps : list string) : Prop :=
  exists i j y z, i <> j /\ At x i ps y /\ At x j ps z /\ xtext y = None.
(** The only element with these names has no text. *)
Definition Alone (x : xml) (ps : list string) : Prop :=
  exists i y, At x i ps y /\ xtext y = None /\ forall j z, At x j ps z -> j = i.
(** A way of no use: an exception, a reply that is not ok, or one that cannot be sorted *)
Definition Failed (a : answer) (ps : list string) : Prop := a = Raised \/ a = NotOk \/ exists x, a = Replied x /\ Mixed x ps.
Definition Texts (x : xml) (ps : list string) : Prop := forall y, Reached x ps y -> xtext y <> None.
(** [l] are the texts of the elements reached *)
Definition Lists (x : xml) (ps : list string) (l : list string) : Prop :=
  Ascending l /\ forall s, In s l <-> exists y, Reached x ps y /\ xtext y = Some s.
Definition tag (u n : string) : string := ("{" ++ u ++ "}" ++ n)%string.
Definition schemas_path : list string := [tag nc "rpc-reply"; tag nc "data"; tag ncm "netconf-state"; tag ncm "schemas"; tag ncm "schema"; tag ncm "identifier"].
(** As in the code; RFC 7895 has [yl] for the namespace, see C73_library_refuted. *)
Definition code_yl := "urn:ietf:params:netconf:capability:yang-library".
Definition lib_path : list string := [tag nc "rpc-reply"; tag nc "data"; tag code_yl "modules-state"; tag code_yl "module"; tag code_yl "name"].
