(** The type of a leaf: [set_leaf_datatype_value], [type_values], [type_union_values],
    [type_identityref_values], /repo/src/ncdiff/model.py:1233-1326. No proofs in this file. *)
From Coq Require Import String Ascii List Bool.
From Verif Require Import Base XmlM ConfigM CompileM.
Import ListNotations.
Open Scope string_scope.
Open Scope list_scope.

(** A validated type statement of pyang: its argument, [i_is_derived] (it restricts a type or
    is built in and lists its own values), the type of [i_typedef] (None: no typedef; Some None:
    a typedef without a type), the arguments of [enum], [base] and [path], the types in a
    union, and the module it is written in. *)
Inductive ytype :=
  YType (arg : string) (derived : bool) (typedef : option (option ytype)) (enums : list string)
        (base path : option string) (members : list ytype) (m : mstmt).
Definition t_arg (t : ytype) := let '(YType a _ _ _ _ _ _ _) := t in a.
Definition t_base (t : ytype) := let '(YType _ _ _ _ b _ _ _) := t in b.
Definition t_path (t : ytype) := let '(YType _ _ _ _ _ p _ _) := t in p.
Definition t_members (t : ytype) := let '(YType _ _ _ _ _ _ l _) := t in l.

(** ['|'.join(l)] *)
Definition join_bar : list string -> string := String.concat "|".

(** [type_values], model.py:1275-1292, with [type_union_values] and
    [type_identityref_values], 1294-1326. Only the first base is read. *)
Fixpoint type_values (ids : iddeps) (prefixes : list (string * string)) (t : ytype) : res string :=
  let '(YType a d td en b _ ms m) := t in
  match d, td with
  | false, Some (Some t') => type_values ids prefixes t'
  | false, Some None => Ok ""
  | _, _ =>
      if String.eqb a "boolean" then Ok "true|false"
      else if String.eqb a "union" then
        let! vs := (fix go (l : list ytype) : res (list string) :=
                      match l with
                      | [] => Ok []
                      | x :: r => let! v := type_values ids prefixes x in
                                  let! vs := go r in
                                  Ok (if String.eqb v "" then vs else v :: vs)
                      end) ms in
        Ok (join_bar vs)
      else if String.eqb a "enumeration" then Ok (join_bar en)
      else if String.eqb a "identityref" then
        match b with
        | None => Ok ""
        | Some b => let! l := identityref_values ids prefixes m b in Ok (join_bar l)
        end
      else Ok ""
  end.

(** The datatype, model.py:1234-1262; [local] is the prefix of the module of the leaf. An
    identityref without base has no [arg] to read. *)
Definition datatype (local : string) (t : ytype) : res string :=
  if String.eqb (t_arg t) "leafref" then
    match t_path t with Some p => Ok ("-> " ++ compact_path local p)%string | None => Ok (t_arg t) end
  else if String.eqb (t_arg t) "identityref" then
    match t_base t with Some b => Ok (t_arg t ++ ":" ++ b)%string | None => Err AttributeError end
  else Ok (t_arg t).

(** [set_leaf_datatype_value], model.py:1233-1273, as the triple that DepictM.v writes *)
Definition leaf_type (ids : iddeps) (prefixes : list (string * string)) (local : string) (o : option ytype)
  : res (option (string * string * option string)) :=
  match o with
  | None => Ok None
  | Some t =>
      let! d := datatype local t in
      let! v := type_values ids prefixes t in
      Ok (Some (d, v, if String.eqb (t_arg t) "union" then Some (join_bar (map t_arg (t_members t))) else None))
  end.
