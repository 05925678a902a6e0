(** Model of /repo/src/ncdiff/config.py: Config and ConfigDelta. *)
From Coq Require Import String Ascii List Bool Arith ZArith Lia.
From Verif Require Import Base XmlM CalcM NetconfM.
Import ListNotations.
Open Scope string_scope.
Open Scope list_scope.

(** [str.split(c)] for a one-character separator. *)
Fixpoint str_split (c : ascii) (s : string) : list string :=
  match s with
  | EmptyString => [""]
  | String d r =>
      if Ascii.eqb d c then "" :: str_split c r
      else match str_split c r with
           | [] => [String d ""]
           | w :: ws => String d w :: ws
           end
  end.

(** Python's [set(a) == set(b)] *)
Definition set_eqb {A} (eqb : A -> A -> bool) (a b : list A) : bool :=
  forallb (fun x => mem eqb x b) a && forallb (fun x => mem eqb x a) b.

(** The test on the values of a leaf-list, config.py:420-430 *)
Definition ll_is_default (cs : snode) (values : list (option string)) : bool :=
  match s_default (si cs) with
  | None => false
  | Some d =>
      let defaults := map Some (str_split "," d) in
      if s_user (si cs) then list_eqb ostr_eqb values defaults
      else set_eqb ostr_eqb values defaults
  end.

Definition no_kids (x : xml) : bool := match xkids x with [] => true | _ => false end.

(** Whether a child is removed by [_trim_defaults], config.py:382-436. [all] are the
    children of the node before trimming; leaf-list entries are only removed at the
    end, so the values looked at are those of [all]. *)
Definition trim_drops (cs : snode) (all : list xml) (c : xml) : bool :=
  match sty cs with
  | TContainer => no_kids c && negb (s_presence (si cs))
  | TList => no_kids c
  | TLeaf => match s_default (si cs) with
             | None => false
             | Some d => ostr_eqb (xtext c) (Some d)
             end
  | TLeafList => ll_is_default cs (map xtext (kids_tagged (xtag c) all))
  | _ => false
  end.

(** [_trim_defaults], config.py:351-436. The guard [len(child) > 0] is left out:
    trimming a node without children changes nothing. *)
Fixpoint trim (s : snode) (x : xml) : res xml :=
  let '(Elem t tx a ks) := x in
  let! ks' :=
    (fix go (l : list xml) : res (list xml) :=
       match l with
       | [] => Ok []
       | c :: r =>
           let! cs := schema_child s (xtag c) in
           let! c' := trim cs c in
           let! r' := go r in
           Ok (if trim_drops cs ks c' then r' else c' :: r')
       end) ks in
  Ok (Elem t tx a ks').

(** The children that [_validate_node] removes, config.py:488-514. *)
Definition validate_drops (rd : bool) (cs : snode) (c : xml) : bool :=
  (no_kids c && np_container cs) || (no_kids c && stype_eqb (sty cs) TList) ||
  String.eqb (s_status (si cs)) "obsolete" ||
  (String.eqb (s_status (si cs)) "deprecated" && rd).

(** [if node.get(tag)]: present and not empty *)
Definition has_attr (n : string) (x : xml) : bool :=
  match get_attr n x with None => false | Some v => negb (String.eqb v "") end.

(** The checks on the node itself, config.py:458-475 *)
Definition validate_own (s : snode) (x : xml) : bool :=
  match sty s with
  | TRoot => true
  | _ =>
      (match sty s with
       | TList => forallb (fun k => match find_kid k (xkids x) with Some _ => true | None => false end)
                          (s_keys (si s))
       | _ => true
       end) &&
      forallb (fun t => negb (has_attr t x)) [operation_tag; insert_tag; value_tag; key_tag]
  end.

(** [_validate_node], config.py:438-514; [rd] is [remove_deprecated]. *)
Fixpoint validate (rd : bool) (s : snode) (x : xml) : res xml :=
  let '(Elem t tx a ks) := x in
  if negb (validate_own s x) then Err ConfigError else
  let! ks' :=
    (fix go (l : list xml) : res (list xml) :=
       match l with
       | [] => Ok []
       | c :: r =>
           let! cs := schema_child s (xtag c) in
           let! c' := match xkids c with [] => Ok c | _ => validate rd cs c end in
           let! r' := go r in
           Ok (if validate_drops rd cs c' then r' else c' :: r')
       end) ks in
  Ok (Elem t tx a ks').

(** [element.xpath('/a/b/*')] for an element that is the root of its tree. *)
Fixpoint xp (path : list string) (x : xml) : list xml :=
  match path with
  | [] => []
  | t :: p => if String.eqb (xtag x) t
              then match p with [] => xkids x | _ => flat_map (xp p) (xkids x) end
              else []
  end.
Definition nc_name (n : string) : string := ("{urn:ietf:params:xml:ns:netconf:base:1.0}" ++ n)%string.

(** [NetconfParser.retrieve_config], /repo/src/ncdiff/netconf.py:81-113 *)
Definition retrieve (x : xml) : xml :=
  Elem config_tag None []
    (xp [nc_name "rpc-reply"; nc_name "data"] x ++ xp [nc_name "data"] x ++
     xp [nc_name "config"] x ++
     xp [nc_name "rpc"; nc_name "edit-config"; nc_name "config"] x ++
     xp [nc_name "edit-config"; nc_name "config"] x).

Definition empty_config : xml := Elem config_tag None [] [].

(** [Config.__init__] on an element, config.py:62-88. Simplified: the checks of
    [roots] are those of the schema lookup of the top-level nodes. *)
Definition config_new (check rd : bool) (s : snode) (x : xml) : res xml :=
  let! e := trim s (retrieve x) in
  if check then validate rd s e else Ok e.

(** [Config.__bool__], config.py:103-108 *)
Definition config_bool (s : snode) (x : xml) : res bool := rnot (cmp_eq s x empty_config).

(** [Config.__add__] of an element, config.py:123-128 (also 110-122 once the
    operand is turned into an element). Simplified: one device, so
    [ConfigCompatibility] holds. *)
Definition config_add (s : snode) (x y : xml) : res xml :=
  let! r := nc_add s x y in config_new false false s r.

(** ConfigDelta, config.py:650-715 without the random options (see ReorderM.v). *)
Record delta := Delta { d_src : xml; d_dst : xml; d_opts : opts }.

(** [ConfigDelta.nc], config.py:722-735 *)
Definition delta_nc (s : snode) (d : delta) : res xml := nc_sub (d_opts d) s (d_dst d) (d_src d).

(** [Config.__sub__] of a Config, config.py:132-134 *)
Definition config_sub (dst src : xml) : delta := Delta src dst default_opts.

(** [ConfigDelta.__neg__], config.py:774-776: the options are not kept. *)
Definition delta_neg (d : delta) : delta := Delta (d_dst d) (d_src d) default_opts.

(** [Config.__add__] of a ConfigDelta, config.py:118-122 *)
Definition config_add_delta (s : snode) (x : xml) (d : delta) : res xml :=
  let! e := delta_nc s d in config_add s x e.

(** [Config.__sub__] of a ConfigDelta, config.py:135-136 *)
Definition config_sub_delta (s : snode) (x : xml) (d : delta) : res xml :=
  config_add_delta s x (delta_neg d).

(** [ConfigDelta.__bool__], config.py:781-785 *)
Definition delta_bool (s : snode) (d : delta) : res bool := rnot (cmp_eq s (d_src d) (d_dst d)).
