(** Specification: the schema node of a statement, RFC 7950 sections 7.5.5, 7.7.7, 7.8.2,
    7.14-7.16, 7.21. *)
From Coq Require Import String Ascii List Bool Arith.
From Verif Require Import Base XmlM TagM TagSpec DepictM.
Import ListNotations.
Open Scope string_scope.
Open Scope list_scope.

(** What may be done with a node. [chain] has the keywords of its ancestors, starting at
    the top of the module, and its own. *)
Fixpoint allowed (chain : list string) (config : bool) : string :=
  match chain with
  | [] => if config then "read-write" else "read-only"
  | k :: r =>
      if String.eqb k "rpc" || String.eqb k "action" then
        match r with o :: _ => if String.eqb o "output" then "read-only" else "write" | [] => "write" end
      else if String.eqb k "notification" then "read-only"
      else allowed r config
  end.

Definition type_of (k : string) (t : stype) : Prop :=
  match t with
  | TLeaf => k = "leaf" | TLeafList => k = "leaf-list" | TContainer => k = "container" | TList => k = "list"
  | TChoice => k = "choice" | TCase => k = "case" | TRoot => False
  | TOther => ~ In k ["leaf"; "leaf-list"; "container"; "list"; "choice"; "case"]
  end.

(** The argument of a key statement: node identifiers between blanks. *)
Definition Blanks (s : string) : Prop := Forall (fun c => c = " "%char) (chars s).
Definition Identifier (n : string) : Prop := n <> "" /\ forall c, In c (chars n) -> ~ In c (newline :: chars " :{}").
(** [n] is the name [m] with or without a prefix. *)
Definition Names (n m : string) : Prop :=
  Identifier m /\ (n = m \/ exists p, Identifier p /\ n = (p ++ ":" ++ m)%string).
Inductive KeyText : string -> list string -> Prop :=
| kx_end : forall b, Blanks b -> KeyText b []
| kx_name : forall b n m rest l, Blanks b -> Names n m -> (rest = "" \/ exists r, rest = String " " r) ->
    KeyText rest l -> KeyText (b ++ n ++ rest)%string (m :: l).

(** [g] is the tag of the first of [ks] that is named [m]. *)
Definition KeyTag (ns : list (string * string)) (ks : list ystmt) (m g : string) : Prop :=
  exists l c r u, ks = l ++ c :: r /\ y_arg (yi c) = m /\ (forall c', In c' l -> y_arg (yi c') <> m) /\
    assoc String.eqb (y_module (yi c)) ns = Some u /\ g = etree u m.

(** The schema node [s] says what the statement says. *)
Inductive Mirror (ns : list (string * string)) : list string -> ystmt -> snode -> Prop :=
| mirror : forall chain k i ks s u,
    y_kw i = Kw k ->
    assoc String.eqb (y_module i) ns = Some u -> stag s = etree u (y_arg i) ->
    type_of k (sty s) ->
    (s_presence (si s) = true <-> k = "container" /\ y_presence i <> None) ->
    (s_user (si s) = true <-> (k = "list" \/ k = "leaf-list") /\ y_ordered i = Some "user") ->
    s_default (si s) = match y_defaults i with [] => None | l => Some (String.concat "," l) end ->
    (s_is_key (si s) = true <-> (k = "leaf" \/ k = "leaf-list") /\ y_is_key i = true) ->
    (k <> "list" \/ y_key i = None -> s_keys (si s) = []) ->
    (forall txt l, k = "list" -> y_key i = Some txt -> KeyText txt l ->
       (forall m, In m l -> exists c, In c ks /\ y_arg (yi c) = m) -> Forall2 (KeyTag ns ks) l (s_keys (si s))) ->
    s_status (si s) = match y_status i with
                      | Some v => if String.eqb v "deprecated" || String.eqb v "obsolete" then v else ""
                      | None => "" end ->
    s_access (si s) = allowed (chain ++ [k]) (match y_config i with Some b => b | None => false end) ->
    Forall2 (Mirror ns (chain ++ [k])) ks (skids s) ->
    Mirror ns chain (YStmt i ks) s.

(** Names and URLs that can be written in a tag, modules that are known, no extension as a
    node. *)
Inductive Named (ns : list (string * string)) : ystmt -> Prop :=
| named : forall i ks k u, y_kw i = Kw k -> assoc String.eqb (y_module i) ns = Some u -> Word u -> Identifier (y_arg i) ->
    Forall (Named ns) ks -> Named ns (YStmt i ks).
(** No rpc, action or notification below. *)
Inductive DataOnly : ystmt -> Prop :=
| data_only : forall i ks, ~ In (y_kw i) [Kw "rpc"; Kw "action"; Kw "notification"] -> Forall DataOnly ks -> DataOnly (YStmt i ks).
(** A statement at the top of a module that has no nested actions and notifications *)
Definition Flat (t : ystmt) : Prop := Forall DataOnly (ykids t).
(** Below an rpc: input and output *)
Definition InOut (t : ystmt) : Prop :=
  is_kw "rpc" t = true -> forall c, In c (ykids t) -> is_kw "input" c = true \/ is_kw "output" c = true.
