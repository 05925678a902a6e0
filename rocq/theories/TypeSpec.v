(** Specification: the values that a type names, RFC 7950 section 9. *)
From Coq Require Import String Ascii List Bool.
From Verif Require Import Base XmlM CompileM CompileSpec TypeM.
Import ListNotations.
Open Scope string_scope.
Open Scope list_scope.

(** [I m b]: the identities derived from [b] as written in module [m], with prefixes. A type
    that refers to a typedef may keep only some of its enums, section 9.6.3. *)
Inductive Admits (I : mstmt -> string -> list string) : ytype -> string -> Prop :=
| ad_bool : forall d en b p ms m v, v = "true" \/ v = "false" -> Admits I (YType "boolean" d None en b p ms m) v
| ad_enum : forall d en b p ms m v, In v en -> Admits I (YType "enumeration" d None en b p ms m) v
| ad_union : forall d en b p ms m t v, In t ms -> Admits I t v -> Admits I (YType "union" d None en b p ms m) v
| ad_identity : forall d en b p ms m v, In v (I m b) -> Admits I (YType "identityref" d None en (Some b) p ms m) v
| ad_typedef : forall a d en b p ms m t v, Admits I t v -> (en = [] \/ In v en) -> Admits I (YType a d (Some (Some t)) en b p ms m) v.

(** As pyang leaves types: a type has a typedef iff its name is not built in, the typedef has
    a type, and a type that keeps some enums is [i_is_derived]. [ok] may demand more. *)
Definition value_types : list string := ["boolean"; "union"; "enumeration"; "identityref"].
Inductive Typed (ok : ytype -> Prop) : ytype -> Prop :=
| ty_builtin : forall a d en b p ms m, (forall t, In t ms -> Typed ok t) -> ok (YType a d None en b p ms m) -> Typed ok (YType a d None en b p ms m)
| ty_typedef : forall a d t en b p ms m, ~ In a value_types -> Typed ok t -> (d = false -> en = []) ->
    ok (YType a d (Some (Some t)) en b p ms m) -> Typed ok (YType a d (Some (Some t)) en b p ms m).

(** A type that restricts a typedef names nothing. *)
Definition Unrestricted (I : mstmt -> string -> list string) (t : ytype) : Prop :=
  forall a td en b p ms m, t = YType a true (Some td) en b p ms m -> forall v, ~ Admits I t v.
(** The names can be told apart in a text with bars. *)
Definition Plain (v : string) : Prop := v <> "" /\ Without "|" v.

(** [v] is one of the items of a text with bars. *)
Definition Item (v s : string) : Prop :=
  Plain v /\ exists p q, s = (p ++ v ++ q)%string /\ (p = "" \/ exists p', p = (p' ++ "|")%string) /\ (q = "" \/ exists q', q = ("|" ++ q')%string).
