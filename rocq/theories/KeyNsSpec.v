(** What a name with or without a prefix means in an XML element, and when two elements
    give the names of a namespace the same meaning. Nothing here uses the model of the
    key attribute. *)
From Coq Require Import String Ascii List Bool.
From Verif Require Import Base XmlM TagM TagSpec DepictSpec.
Import ListNotations.
Open Scope string_scope.
Open Scope list_scope.

Definition decls := list (option string * string).

(** A name without prefix: no blank, colon, brace or equals sign, and it does not start
    with a digit. *)
Definition NCName (n : string) : Prop :=
  Identifier n /\ ~ In "="%char (chars n) /\
  match n with EmptyString => False | String a _ => ~ In a (chars "0123456789") end.

(** Declarations in scope of an element: one per prefix; prefixes are names and no URL is
    empty or has a line break. *)
Record Scope (m : decls) : Prop := {
  sc_once : NoDup (map fst m);
  sc_prefix : forall p u, In (Some p, u) m -> NCName p;
  sc_url : forall p u, In (p, u) m -> Word u
}.

(** In the scope [m] the name [s] is the node [n] of the namespace [u]. *)
Inductive Means (m : decls) : string -> string -> string -> Prop :=
| M_prefix : forall p u n, In (Some p, u) m -> Means m (p ++ ":" ++ n)%string u n
| M_default : forall u n, In (None, u) m -> Means m n u n.

(** The prefix (or its absence) that stands for [u] in [m] if declared several times:
    the last one. *)
Definition Chosen (m : decls) (u : string) (p : option string) : Prop :=
  exists l r, m = l ++ (p, u) :: r /\ ~ In u (map snd r).

(** A list entry [e] has the keys of the entry [x]: for each key both have a child of that
    tag with the same text. *)
Definition SameKeys (keys : list string) (x e : xml) : Prop :=
  forall k, In k keys -> exists cx ce v,
    In cx (xkids x) /\ xtag cx = k /\ xtext cx = Some v /\
    In ce (xkids e) /\ xtag ce = k /\ (xtext ce = Some v \/ v = "" /\ xtext ce = None).

(** A key of a list whose namespace is declared at its node, and the prefix chosen there
    means the same for the reader. *)
Definition Known (nm : string -> decls) (m : decls) (k : string) : Prop :=
  exists u n p, k = etree u n /\ NCName n /\ Scope (nm k) /\ Chosen (nm k) u p /\ In (p, u) m.
