(** XPaths of nodes: /repo/src/ncdiff/composer.py:98-226 ([Composer]), and the statement
    that is looked up with such a path: /repo/src/ncdiff/manager.py:660-741 and
    /repo/src/ncdiff/model.py:568-614. No proofs in this file. *)
From Coq Require Import String Ascii List Bool Arith.
From Verif Require Import Base XmlM CalcM NetconfM TagM.
Import ListNotations.
Open Scope string_scope.
Open Scope list_scope.

Definition dq : string := String (ascii_of_nat 34) "".

(** ['{}'.format(node.text)] *)
Definition py_str (t : option string) : string := match t with Some v => v | None => "None" end.

(** [Composer.schema_node] of the nodes from the one below the root to the one at position
    [pos], composer.py:136-143 and manager.py:530-630. Simplified: the schema nodes of the
    path are looked up level by level. *)
Fixpoint trail (s : snode) (x : xml) (pos : list nat) : res (list (snode * xml)) :=
  match pos with
  | [] => Ok []
  | i :: r =>
      match nth_error (xkids x) i with
      | None => Err IndexError
      | Some c =>
          let! cs := schema_child s (xtag c) in
          let! t := trail cs c r in
          Ok ((cs, c) :: t)
      end
  end.

(** The predicates of one node, composer.py:202-218. [s_keys] is [Composer.keys]. *)
Definition node_preds (T : table) (dst : notation) (ns : string) (cs : snode) (x : xml) : res string :=
  match sty cs with
  | TLeafList => Ok ("[text()=" ++ dq ++ py_str (xtext x) ++ dq ++ "]")%string
  | TList =>
      let! l := mapM (fun k =>
                  let! c := convert_tag T ns k LXML_ETREE dst in
                  match find_kid k (xkids x) with
                  | None => Ok ""
                  | Some kn => Ok ("[" ++ snd c ++ "=" ++ dq ++ py_str (xtext kn) ++ dq ++ "]")%string
                  end) (s_keys (si cs)) in
      Ok (String.concat "" l)
  | _ => Ok ""
  end.

(** [convert], composer.py:196-219, for a config node and a notation other than YTOOL. *)
Fixpoint steps (T : table) (dst : notation) (instance : bool) (ns : string)
    (l : list (snode * xml)) : res string :=
  match l with
  | [] => Ok ""
  | (cs, x) :: r =>
      let! c := convert_tag T ns (xtag x) LXML_ETREE dst in
      let! p := if instance || match r with [] => false | _ => true end
                then node_preds T dst (fst c) cs x else Ok "" in
      let! q := steps T dst instance (fst c) r in
      Ok ("/" ++ snd c ++ p ++ q)%string
  end.

(** [get_xpath] of a config node, composer.py:169-226. [is_config] takes the last of the
    ancestors, which fails for the root. *)
Definition get_xpath (T : table) (dst : notation) (instance : bool) (s : snode) (x : xml)
    (pos : list nat) : res string :=
  match pos with
  | [] => Err IndexError
  | _ => let! l := trail s x pos in steps T dst instance "" l
  end.

(** [convert] without predicates, composer.py:196-200: for schema nodes, and for YTOOL. *)
Fixpoint tag_steps (T : table) (dst : notation) (ns : string) (tags : list string) : res string :=
  match tags with
  | [] => Ok ""
  | t :: r =>
      let! c := convert_tag T ns t LXML_ETREE dst in
      let! q := tag_steps T dst (fst c) r in
      Ok ("/" ++ snd c ++ q)%string
  end.

(** [get_xpath] of a schema node, given the tags below the module; and for YTOOL, given
    the model's name and URL, composer.py:221-226. *)
Definition get_schema_xpath (T : table) (dst : notation) (tags : list string) : res string :=
  tag_steps T dst "" tags.
Definition get_ytool (T : table) (model url : string) (tags : list string) : res string :=
  let! q := tag_steps T YTOOL url tags in Ok (model ++ q)%string.

(** ** Statements *)

(** A pyang statement: its name, the prefix of its module and its [i_children]. *)
Inductive stmt := Stmt (arg pre : string) (kids : list stmt).
Definition st_arg (t : stmt) : string := let '(Stmt a _ _) := t in a.
Definition st_pre (t : stmt) : string := let '(Stmt _ p _) := t in p.
Definition st_kids (t : stmt) : list stmt := let '(Stmt _ _ k) := t in k.

(** [str.split(c)]: the parts are never none *)
Fixpoint split_at (c : ascii) (s : string) : string * list string :=
  match s with
  | EmptyString => ("", [])
  | String a r =>
      let '(h, t) := split_at c r in
      if Ascii.eqb a c then ("", h :: t) else (String a h, t)
  end.

(** [get_child], model.py:600-614 *)
Definition get_child (root_prefix : string) (parent : stmt) (id : string) : option stmt :=
  match split_at ":" id with
  | (a, []) => find (fun c => String.eqb (st_arg c) a && String.eqb (st_pre c) root_prefix) (st_kids parent)
  | (a, b :: _) => find (fun c => String.eqb (st_arg c) b && String.eqb (st_pre c) a) (st_kids parent)
  end.
Fixpoint get_descendant (root_prefix : string) (parent : stmt) (ids : list string) : option stmt :=
  match ids with
  | [] => Some parent
  | i :: r => match get_child root_prefix parent i with
              | None => None
              | Some c => get_descendant root_prefix c r
              end
  end.

(** [get_statement] with an xpath, model.py:568-598, given the statement of the latest
    revision of the module, which is validated. *)
Definition get_statement (m : stmt) (xpath : string) : option stmt :=
  match split_at "/" xpath with
  | ("", x :: r) => match x with
                    | "" => None
                    | _ => get_descendant (st_pre m) m (x :: r)
                    end
  | _ => None
  end.

(** [ModelDevice.get_statement], manager.py:703-741, of a config node and of a schema
    node. *)
Definition config_statement (T : table) (m : stmt) (s : snode) (x : xml) (pos : list nat) : res (option stmt) :=
  let! p := get_xpath T LXML_XPATH false s x pos in Ok (get_statement m p).
Definition schema_statement (T : table) (m : stmt) (tags : list string) : res (option stmt) :=
  let! p := get_schema_xpath T LXML_XPATH tags in Ok (get_statement m p).
