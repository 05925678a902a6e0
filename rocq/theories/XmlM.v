(** Data trees, schema trees and the schema lookup. *)
From Coq Require Import String Ascii List Bool Arith ZArith Lia.
From Verif Require Import Base.
Import ListNotations.
Open Scope string_scope.
Open Scope list_scope.

(** ** Data trees *)

(** An lxml element: tag in [{url}name] notation, text, attributes, children.
    Simplified: no tail and no namespace map. Tails are dropped whenever a Config
    is built (/repo/src/ncdiff/netconf.py:37-49, [_copy_element]); prefixes
    only matter for identityref and instance-identifier values, which are
    modelled in RefM.v. *)
Inductive xml := Elem (tag : string) (text : option string)
                      (attrs : list (string * string)) (kids : list xml).

Definition xtag (x : xml) := let '(Elem t _ _ _) := x in t.
Definition xtext (x : xml) := let '(Elem _ t _ _) := x in t.
Definition xattrs (x : xml) := let '(Elem _ _ a _) := x in a.
Definition xkids (x : xml) := let '(Elem _ _ _ k) := x in k.

Definition set_kids (k : list xml) (x : xml) : xml :=
  let '(Elem t tx a _) := x in Elem t tx a k.
Definition set_text (tx : option string) (x : xml) : xml :=
  let '(Elem t _ a k) := x in Elem t tx a k.
(** [element.set(name, value)] *)
Definition set_attr (n v : string) (x : xml) : xml :=
  let '(Elem t tx a k) := x in Elem t tx (dset String.eqb n v a) k.
(** [element.get(name)] *)
Definition get_attr (n : string) (x : xml) : option string := assoc String.eqb n (xattrs x).
(** [element.attrib.pop(name)] *)
Definition pop_attr (n : string) (x : xml) : xml :=
  let '(Elem t tx a k) := x in Elem t tx (filter (fun p => negb (String.eqb n (fst p))) a) k.

Fixpoint height (x : xml) : nat :=
  let '(Elem _ _ _ k) := x in S (fold_right (fun c n => Nat.max (height c) n) 0 k).

(** Attribute names, /repo/src/ncdiff/netconf.py:14-21. *)
Definition operation_tag := "{urn:ietf:params:xml:ns:netconf:base:1.0}operation".
Definition insert_tag := "{urn:ietf:params:xml:ns:yang:1}insert".
Definition value_tag := "{urn:ietf:params:xml:ns:yang:1}value".
Definition key_tag := "{urn:ietf:params:xml:ns:yang:1}key".
Definition config_tag := "{urn:ietf:params:xml:ns:netconf:base:1.0}config".

(** ** Schema trees *)

(** The [type] attribute of a compiled schema node. [TRoot] is the virtual parent
    of all model roots; [TOther] stands for every type the calculators do not
    support (anyxml, anydata, rpc, ...). *)
Inductive stype := TLeaf | TLeafList | TContainer | TList | TChoice | TCase | TRoot | TOther.

Definition stype_eqb (a b : stype) : bool :=
  match a, b with
  | TLeaf, TLeaf | TLeafList, TLeafList | TContainer, TContainer | TList, TList
  | TChoice, TChoice | TCase, TCase | TRoot, TRoot | TOther, TOther => true
  | _, _ => false
  end.

(** Attributes of a compiled schema node
    (/repo/src/ncdiff/model.py:1131-1214, [depict_a_schema_node]).
    [s_keys] is the list of key tags as computed by [Composer.keys]
    (/repo/src/ncdiff/composer.py:145-167), already resolved to child tags.
    [s_default] of a choice is the full tag of the default case. *)
Record sinfo := SInfo {
  s_tag : string;
  s_type : stype;
  s_presence : bool;          (* presence == 'true' *)
  s_user : bool;              (* ordered-by == 'user' *)
  s_default : option string;
  s_is_key : bool;            (* is_key == 'true' *)
  s_keys : list string;
  s_status : string;          (* '' if absent *)
  s_access : string }.

Inductive snode := SNode (i : sinfo) (kids : list snode).
Definition si (s : snode) := let '(SNode i _) := s in i.
Definition skids (s : snode) := let '(SNode _ k) := s in k.
Definition sty (s : snode) := s_type (si s).
Definition stag (s : snode) := s_tag (si s).

Definition is_choice_or_case (t : stype) : bool :=
  match t with TChoice | TCase => true | _ => false end.

(** A data node definition found below a schema node, with its position: the list
    of child indices leading to it, first index last. [ce_case] tells whether its
    schema parent is a case. *)
Record centry := CEntry { ce_pos : list nat; ce_case : bool; ce_node : snode }.

(** Data node definitions that are children of a schema node once choices and cases
    are looked through: the candidates of [get_child]/[is_parent],
    /repo/src/ncdiff/manager.py:576-605. *)
Fixpoint flat_node (pos : list nat) (incase : bool) (s : snode) : list centry :=
  let '(SNode i k) := s in
  if is_choice_or_case (s_type i) then
    (fix go (n : nat) (l : list snode) : list centry :=
       match l with
       | [] => []
       | c :: r => flat_node (n :: pos) (stype_eqb (s_type i) TCase) c ++ go (S n) r
       end) 0 k
  else [CEntry pos incase s].

Fixpoint flat_list (pos : list nat) (incase : bool) (n : nat) (l : list snode) : list centry :=
  match l with
  | [] => []
  | c :: r => flat_node (n :: pos) incase c ++ flat_list pos incase (S n) r
  end.

Definition flat (s : snode) : list centry := flat_list [] false 0 (skids s).

(** [ModelDevice.get_schema_node], /repo/src/ncdiff/manager.py:530-630, one step of
    the descent: the schema node of a child of a data node whose schema node is
    [s]. Simplified: the roots of all loaded models are the children of one
    [TRoot] node; the path cache is modelled in DeviceM.v. A data node inside a
    choice at the top level is found here, whereas Python raises ModelMissing: see
    C65 in PropsDevice.v. *)
Definition schema_entry (s : snode) (t : string) : res centry :=
  match filter (fun c => String.eqb (stag (ce_node c)) t) (flat s) with
  | [c] => Ok c
  | [] => Err (match sty s with TRoot => ModelMissing | _ => ConfigError end)
  | _ => Err ModelError
  end.

Definition schema_child (s : snode) (t : string) : res snode :=
  let! c := schema_entry s t in Ok (ce_node c).
