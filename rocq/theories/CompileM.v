(** Helpers of the model compiler, /repo/src/ncdiff/model.py:559-566,1091-1326, and the
    copy of an rpc into its envelope, /repo/src/ncdiff/__init__.py:99-116.
    Statements of pyang are records with the fields the code reads. *)
From Coq Require Import String Ascii List Bool Arith Lia.
From Verif Require Import Base XmlM ConfigM.
Import ListNotations.
Open Scope string_scope.
Open Scope list_scope.
Open Scope nat_scope.

(** ** The newest revision *)

(** [a > b] for Python strings of ASCII characters. *)
Definition str_gt (a b : string) : bool :=
  match String.compare a b with Gt => true | _ => false end.

(** [_get_latest_revision], model.py:559-566. [mods] are the keys of [self.modules], pairs
    of a module name and a revision. pyang uses ["unknown"] for a module without a
    revision statement. *)
Definition latest_revision (mods : list (string * string)) (name : string) : option string :=
  fold_left (fun latest '(n, r) =>
    if String.eqb n name && match latest with None => true | Some l => str_gt r l end
    then Some r else latest) mods None.

(** ** Identities *)

(** An identity statement: its name and the arguments of its base statements, as they are
    written. *)
Record identity := Identity { id_name : string; id_bases : list string }.

(** A loaded module: [i_modulename] (the same as [arg]), [i_prefix], [i_prefixes] with
    module names only, [i_identities] in order. *)
Record mstmt := MStmt {
  ms_module : bool;             (* keyword == 'module' *)
  ms_name : string;
  ms_prefix : string;
  ms_prefixes : list (string * string);
  ms_ids : list identity }.

(** [self.identity_deps]. *)
Definition iddeps := list (string * list string).

(** The key of a base, model.py:1102-1111; [module] is the name of the module being
    compiled. *)
Definition base_key (module : string) (m : mstmt) (b : string) : string :=
  match str_split ":" b with
  | p :: n :: _ =>
      match assoc String.eqb p (ms_prefixes m) with
      | None => n
      | Some mn => (mn ++ ":" ++ n)%string
      end
  | _ => (module ++ ":" ++ b)%string
  end.

(** One identity, model.py:1096-1115. [search_one("base")] is the first base. *)
Definition add_identity (module : string) (m : mstmt) (d : iddeps) (i : identity) : iddeps :=
  let curr := (ms_name m ++ ":" ++ id_name i)%string in
  match id_bases i with
  | [] => match assoc String.eqb curr d with
          | None => dset String.eqb curr [] d
          | Some _ => d
          end
  | b :: _ =>
      let k := base_key module m b in
      match assoc String.eqb k d with
      | None => dset String.eqb k [] d
      | Some l => dset String.eqb k (l ++ [curr]) d
      end
  end.

Definition add_module (module : string) (d : iddeps) (m : mstmt) : iddeps :=
  if ms_module m then fold_left (add_identity module m) (ms_ids m) d else d.

(** The loop over the loaded modules, model.py:1078-1115. *)
Definition identity_deps (module : string) (ms : list mstmt) (d : iddeps) : iddeps :=
  fold_left (add_module module) ms d.

(** [self.module_prefixes], model.py:1091-1093. *)
Definition module_prefixes (ms : list mstmt) (d : list (string * string)) : list (string * string) :=
  fold_left (fun d m => if ms_module m then dset String.eqb (ms_name m) (ms_prefix m) d else d) ms d.

(** [type_identityref_values], model.py:1302-1326, before the values are joined by ['|'];
    [m] is the module of the type statement, [b] the argument of its base. *)
Definition identityref_values (deps : iddeps) (prefixes : list (string * string)) (m : mstmt) (b : string)
  : res (list string) :=
  let key := match str_split ":" b with
             | p :: n :: _ => match assoc String.eqb p (ms_prefixes m) with
                              | None => None
                              | Some mn => Some (mn ++ ":" ++ n)%string
                              end
             | _ => Some (ms_name m ++ ":" ++ b)%string
             end in
  match key with
  | None => Ok []
  | Some k =>
      mapM (fun v => match str_split ":" v with
                     | mn :: n :: _ => match assoc String.eqb mn prefixes with
                                       | Some p => Ok (p ++ ":" ++ n)%string
                                       | None => Err KeyError
                                       end
                     | _ => Err IndexError
                     end)
        match assoc String.eqb k deps with Some l => l | None => [] end
  end.

(** ** Leafref paths *)

(** [s.split(':', 1)] if there is a colon. *)
Fixpoint split_colon (s : string) : option (string * string) :=
  match s with
  | EmptyString => None
  | String c r =>
      if Ascii.eqb c ":" then Some ("", r)
      else match split_colon r with
           | Some (a, b) => Some (String c a, b)
           | None => None
           end
  end.

(** The loop of [set_leaf_datatype_value], model.py:1246-1254. *)
Fixpoint compact_parts (cur : string) (l : list string) : list string :=
  match l with
  | [] => []
  | name :: r =>
      let '(prefix, name) := match split_colon name with
                             | None => (cur, name)
                             | Some (p, n) => (p, n)
                             end in
      if String.eqb prefix cur then name :: compact_parts cur r
      else (prefix ++ ":" ++ name)%string :: compact_parts prefix r
  end.

(** The datatype of a leafref without the leading arrow, model.py:1244-1255; [local] is
    [leaf_statement.i_module.i_prefix]. *)
Definition compact_path (local path : string) : string :=
  String.concat "/" (compact_parts local (str_split "/" path)).

(** ** The envelope of an rpc *)

(** An lxml node with the namespace declarations on it; [NComment] is a comment. *)
Inductive nnode :=
| NElem (tag : string) (text : option string) (attrs : list (string * string))
        (decls : list (option string * string)) (kids : list nnode)
| NComment (text : option string).

(** [element.nsmap]: declarations in scope, inner ones win. *)
Definition scope (outer decls : list (option string * string)) : list (option string * string) :=
  fold_left (fun d '(p, u) => dset ostr_eqb p u d) decls outer.

(** [recreate] and the two [SubElement] calls of [_append], __init__.py:99-116, for one
    element whose namespace map is [outer] plus its own declarations. [out] is the map in
    scope at the new parent. lxml adds a declaration to the new element for every
    entry of [nsmap] that is not in scope already (etree.SubElement). A comment has a
    function for a tag, which [SubElement] refuses. *)
Fixpoint append_copy (outer out : list (option string * string)) (x : nnode) : res nnode :=
  match x with
  | NComment _ => Err TypeError
  | NElem t tx a d k =>
      let here := scope outer d in
      let new := filter (fun '(p, u) => negb (opt_eqb String.eqb (assoc ostr_eqb p out) (Some u))) here in
      let! k' := (fix go (l : list nnode) : res (list nnode) :=
                    match l with
                    | [] => Ok []
                    | c :: r => let! c' := append_copy here (scope out new) c in
                                let! r' := go r in Ok (c' :: r')
                    end) k in
      Ok (NElem t tx a new k')
  end.
