(** From statements to the schema tree: [depict_a_schema_node] and [set_access],
    /repo/src/ncdiff/model.py:1117-1231; [Model.__init__], model.py:90-104; what is read from
    a schema node, [Composer.keys], /repo/src/ncdiff/composer.py:145-167. No proofs in this
    file. *)
From Coq Require Import String Ascii List Bool Arith.
From Verif Require Import Base XmlM TagM.
Import ListNotations.
Open Scope string_scope.
Open Scope list_scope.

(** [keyword]: a string, or a pair for an extension. *)
Inductive kword := Kw (k : string) | KwExt (module k : string).

(** A validated pyang statement, with what the code reads of it. *)
Record yinfo := YInfo {
  y_kw : kword;
  y_arg : string;
  y_module : string;                       (* i_module.i_modulename *)
  y_config : option bool;                  (* i_config, None if there is none *)
  y_status : option string;
  y_defaults : list string;
  y_key : option string;
  y_ordered : option string;
  y_presence : option string;
  y_mandatory : option string;
  y_cases : list string;
  y_is_key : bool;                         (* hasattr i_is_key *)
  y_type : option (string * string * option string); (* datatype, values, member types *)
  y_ext : list (kword * option string);    (* substatements that are extensions *)
  y_features : list string;
  y_augment : option (list string) }.      (* features of i_augment *)
Inductive ystmt := YStmt (i : yinfo) (kids : list ystmt).
Definition yi (t : ystmt) := let '(YStmt i _) := t in i.
Definition ykids (t : ystmt) := let '(YStmt _ k) := t in k.
Definition is_kw (k : string) (t : ystmt) : bool :=
  match y_kw (yi t) with Kw w => String.eqb w k | KwExt _ _ => false end.

Inductive mode := MNone | MRpc | MInput | MOutput | MNotification.

(** [set_access], model.py:1213-1231 *)
Definition access (m : mode) (i : yinfo) : string :=
  let rpc := match m with MInput | MRpc => true | _ => false end ||
             match y_kw i with Kw k => String.eqb k "rpc"
                             | KwExt a b => String.eqb a "tailf-common" && String.eqb b "action" end in
  let ro := match m with MOutput | MNotification => true | _ => false end ||
            match y_kw i with Kw k => String.eqb k "notification" | _ => false end in
  if rpc then "write"
  else if ro then "read-only"
  else match y_config i with Some true => "read-write" | _ => "read-only" end.

Definition eq_opt (v : string) (o : option string) : bool :=
  match o with Some w => String.eqb w v | None => false end.

(** The attributes set between model.py:1137 and 1173, in this order. *)
Definition opt_attr (k : string) (o : option string) : list (string * string) :=
  match o with Some v => [(k, v)] | None => [] end.
Definition if_attr (b : bool) (k v : string) : list (string * string) := if b then [(k, v)] else [].
Definition plain_attrs (k : string) (m : mode) (i : yinfo) : list (string * string) :=
  [("access", access m i); ("type", k)] ++
  match y_status i with
  | Some s => if_attr (String.eqb s "deprecated" || String.eqb s "obsolete") "status" s
  | None => []
  end ++
  match y_defaults i with [] => [] | l => [("default", String.concat "," l)] end ++
  (if String.eqb k "list" then
     opt_attr "key" (y_key i) ++ if_attr (eq_opt "user" (y_ordered i)) "ordered-by" "user"
   else if String.eqb k "container" then
     match y_presence i with Some _ => [("presence", "true")] | None => [] end
   else if String.eqb k "choice" then
     if_attr (eq_opt "true" (y_mandatory i)) "mandatory" "true" ++
     match y_cases i with [] => [] | l => [("values", String.concat "|" l)] end
   else if String.eqb k "leaf" || String.eqb k "leaf-list" then
     match y_type i with
     | None => []
     | Some (d, v, u) => ("datatype", d) :: if_attr (negb (String.eqb v "")) "values" v ++ opt_attr "unionmembertypes" u
     end ++
     if_attr (eq_opt "true" (y_mandatory i) || y_is_key i) "mandatory" "true" ++
     if_attr (y_is_key i) "is_key" "true" ++
     if_attr (String.eqb k "leaf-list" && eq_opt "user" (y_ordered i)) "ordered-by" "user"
   else []).

(** ['tailf' in s] *)
Fixpoint contains (w s : string) : bool :=
  String.prefix w s || match s with EmptyString => false | String _ r => contains w r end.

(** The annotations, model.py:1175-1193. [ns] is [module_namespaces]. *)
Definition ext_attrs (ns : list (string * string)) (i : yinfo) : list (string * string) :=
  flat_map (fun '(k, a) =>
    match k with
    | KwExt m w =>
        if contains "tailf" m then
          match assoc String.eqb m ns with
          | Some u => [("{" ++ u ++ "}" ++ w, match a with Some v => v | None => "" end)%string]
          | None => []
          end
        else []
    | Kw _ => []
    end) (y_ext i).

(** The features, model.py:1195-1202 *)
Definition feature_attrs (i : yinfo) : list (string * string) :=
  let l := y_features i ++
           match y_augment i with
           | Some a => filter (fun f => negb (mem String.eqb f (y_features i))) a
           | None => []
           end in
  match l with [] => [] | _ => [("if-feature", String.concat " " l)] end.

Definition set_all (l : list (string * string)) : list (string * string) :=
  fold_left (fun d '(k, v) => dset String.eqb k v d) l [].

(** The mode of a child, model.py:1206-1211 *)
Definition child_mode (m : mode) (c : ystmt) : mode :=
  match m with
  | MRpc => if is_kw "input" c then MInput else if is_kw "output" c then MOutput else m
  | _ => m
  end.

(** [depict_a_schema_node], model.py:1131-1211. The type of an extension statement is a pair,
    which lxml refuses. *)
Fixpoint depict (ns : list (string * string)) (m : mode) (t : ystmt) : res xml :=
  let '(YStmt i ks) := t in
  match assoc String.eqb (y_module i) ns with
  | None => Err KeyError
  | Some u =>
      match y_kw i with
      | KwExt _ _ => Err TypeError
      | Kw k =>
          let! l := (fix go (l : list ystmt) : res (list xml) :=
                       match l with
                       | [] => Ok []
                       | c :: r => let! x := depict ns (child_mode m c) c in
                                   let! y := go r in Ok (x :: y)
                       end) ks in
          Ok (Elem ("{" ++ u ++ "}" ++ y_arg i)%string None
                (set_all (plain_attrs k m i ++ ext_attrs ns i ++ feature_attrs i)) l)
      end
  end.

(** The nodes of a module, model.py:1117-1125; [data_definition_keywords] of pyang. *)
Definition data_keywords : list string :=
  ["container"; "leaf"; "leaf-list"; "list"; "choice"; "anyxml"; "anydata"; "uses"; "augment"].
Definition is_data (t : ystmt) : bool := existsb (fun k => is_kw k t) data_keywords.
Definition compile_nodes (ns : list (string * string)) (kids : list ystmt) : res (list xml) :=
  let! a := mapM (depict ns MNone) (filter is_data kids) in
  let! b := mapM (depict ns MRpc) (filter (is_kw "rpc") kids) in
  let! c := mapM (depict ns MNotification) (filter (is_kw "notification") kids) in
  Ok (a ++ b ++ c).

(** [Model.__init__], model.py:90-104: the namespaces are pairs of prefix and URL.
    The result is [prefixes], [url] and [urls]. *)
Definition model_ns (prefix : string) (l : list (string * string))
  : res (list (string * string) * string * list (string * string)) :=
  let ps := fold_left (fun d '(p, u) => dset String.eqb p u d) l [] in
  match assoc String.eqb prefix ps with
  | None => Err KeyError
  | Some u => Ok (ps, u, fold_left (fun d '(p, u) => dset String.eqb u p d) ps [])
  end.

(** ** Reading *)

(** [re.split(' +', s)]: the first piece and the others; [run] says that blanks were just
    read. *)
Fixpoint split_blanks (run : bool) (s : string) : string * list string :=
  match s with
  | EmptyString => ("", [])
  | String a r =>
      if Ascii.eqb a " " then
        if run then split_blanks true r
        else let '(h, t) := split_blanks true r in ("", h :: t)
      else let '(h, t) := split_blanks false r in (String a h, t)
  end.

(** [Composer.keys], composer.py:145-167 *)
Definition find_key_tag (kids : list xml) (n : string) : option string :=
  option_map xtag (find (fun c => String.eqb (snd (split_tag Brace (xtag c))) n) kids).
Definition composer_keys (x : xml) : list string :=
  if eq_opt "list" (get_attr "type" x) then
    match get_attr "key" x with
    | None => []
    | Some k =>
        let '(h, t) := split_blanks false k in
        flat_map (fun i => match find_key_tag (xkids x) (snd (split_tag Colon i)) with
                           | Some g => [g] | None => [] end) (h :: t)
    end
  else [].

(** The schema node that XmlM.v uses: the attributes as the code reads them. *)
Definition read_type (o : option string) : stype :=
  match o with
  | Some k =>
      if String.eqb k "leaf" then TLeaf else if String.eqb k "leaf-list" then TLeafList
      else if String.eqb k "container" then TContainer else if String.eqb k "list" then TList
      else if String.eqb k "choice" then TChoice else if String.eqb k "case" then TCase else TOther
  | None => TOther
  end.
Fixpoint read_node (x : xml) : snode :=
  let '(Elem _ _ _ ks) := x in
  SNode (SInfo (xtag x) (read_type (get_attr "type" x)) (eq_opt "true" (get_attr "presence" x))
          (eq_opt "user" (get_attr "ordered-by" x)) (get_attr "default" x)
          (match get_attr "is_key" x with Some v => negb (String.eqb v "") | None => false end)
          (composer_keys x) (match get_attr "status" x with Some v => v | None => "" end)
          (match get_attr "access" x with Some v => v | None => "" end))
        (map read_node ks).
