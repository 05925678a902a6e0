(** Specification: all attributes of a schema node, for C68. *)
From Coq Require Import String Ascii List Bool Arith.
From Verif Require Import Base XmlM TagM TagSpec DepictM.
Import ListNotations.
Open Scope string_scope.
Open Scope list_scope.

Definition Leafy (k : string) : Prop := k = "leaf" \/ k = "leaf-list".

(** Of the second list those that are not in the first. *)
Inductive Others (own : list string) : list string -> list string -> Prop :=
| o_nil : Others own [] []
| o_keep : forall f r l, ~ In f own -> Others own r l -> Others own (f :: r) (f :: l)
| o_drop : forall f r l, In f own -> Others own r l -> Others own (f :: r) l.
(** The features of a statement: its own and, of the augment that it is from, those that are
    not its own. *)
Inductive Features (i : yinfo) : list string -> Prop :=
| f_own : y_augment i = None -> Features i (y_features i)
| f_both : forall a l, y_augment i = Some a -> Others (y_features i) a l -> Features i (y_features i ++ l).

(** An extension statement of a module of tail-f gives the attribute [n] the value [v]. *)
Definition Annotates (ns : list (string * string)) (e : kword * option string) (n v : string) : Prop :=
  exists a b w u, fst e = KwExt (a ++ "tailf" ++ b)%string w /\ assoc String.eqb (a ++ "tailf" ++ b)%string ns = Some u /\
    n = etree u w /\ v = match snd e with Some t => t | None => "" end.

(** What the attribute [n] of the node of a statement with the keyword [k] is. *)
Inductive Says (ns : list (string * string)) (k : string) (i : yinfo) : string -> string -> Prop :=
| a_type : Says ns k i "type" k
| a_status : forall v, y_status i = Some v -> v = "deprecated" \/ v = "obsolete" -> Says ns k i "status" v
| a_default : forall d l, y_defaults i = d :: l -> Says ns k i "default" (String.concat "," (d :: l))
| a_key : forall v, k = "list" -> y_key i = Some v -> Says ns k i "key" v
| a_ordered : k = "list" \/ k = "leaf-list" -> y_ordered i = Some "user" -> Says ns k i "ordered-by" "user"
| a_presence : k = "container" -> y_presence i <> None -> Says ns k i "presence" "true"
| a_choice : k = "choice" -> y_mandatory i = Some "true" -> Says ns k i "mandatory" "true"
| a_cases : forall c l, k = "choice" -> y_cases i = c :: l -> Says ns k i "values" (String.concat "|" (c :: l))
| a_datatype : forall d v u, Leafy k -> y_type i = Some (d, v, u) -> Says ns k i "datatype" d
| a_values : forall d v u, Leafy k -> y_type i = Some (d, v, u) -> v <> "" -> Says ns k i "values" v
| a_union : forall d v u, Leafy k -> y_type i = Some (d, v, Some u) -> Says ns k i "unionmembertypes" u
| a_mandatory : Leafy k -> y_mandatory i = Some "true" \/ y_is_key i = true -> Says ns k i "mandatory" "true"
| a_is_key : Leafy k -> y_is_key i = true -> Says ns k i "is_key" "true"
| a_feature : forall f l, Features i (f :: l) -> Says ns k i "if-feature" (String.concat " " (f :: l))
| a_ext : forall l e r n v, y_ext i = l ++ e :: r -> Annotates ns e n v ->
    (forall e' v', In e' r -> ~ Annotates ns e' n v') -> Says ns k i n v.

(** The node has the attributes that the statement says and [access], each once, and its
    children are those of the statement. *)
Inductive Described (ns : list (string * string)) : ystmt -> xml -> Prop :=
| described : forall i ks k u attrs xs,
    y_kw i = Kw k -> assoc String.eqb (y_module i) ns = Some u -> NoDup (map fst attrs) ->
    (forall n v, n <> "access" -> (In (n, v) attrs <-> Says ns k i n v)) -> In "access" (map fst attrs) ->
    Forall2 (Described ns) ks xs ->
    Described ns (YStmt i ks) (Elem (etree u (y_arg i)) None attrs xs).

(** The statements at the top of a module that are nodes. *)
Definition DataNode (t : ystmt) : Prop :=
  In (y_kw (yi t)) (map Kw ["container"; "leaf"; "leaf-list"; "list"; "choice"; "anyxml"; "anydata"; "uses"; "augment"]).

(** Access by the config statement alone; only the statements rpc and notification themselves
    are told apart, not what is in an action or a notification. *)
Inductive ByConfig : ystmt -> xml -> Prop :=
| by_config : forall i ks k x, y_kw i = Kw k ->
    get_attr "access" x = Some (if string_dec k "rpc" then "write"
                                else if string_dec k "notification" then "read-only"
                                else match y_config i with Some true => "read-write" | _ => "read-only" end) ->
    Forall2 ByConfig ks (xkids x) -> ByConfig (YStmt i ks) x.
