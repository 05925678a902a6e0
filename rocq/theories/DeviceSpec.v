(** Specification for C43, C44 and C65: what a schema lookup and the namespace table of
    a device should give, read off the history of calls. *)
From Coq Require Import String List Bool.
From Verif Require Import Base XmlM CalcM DataSpec TagM DeviceM.
Import ListNotations.
Open Scope string_scope.
Open Scope list_scope.

(** [s] is the data node that one of the models defines at a path of tags. *)
Inductive Data (ms : model -> Prop) : list string -> snode -> Prop :=
| data_root : forall m r s, ms m -> Defines (m_tree m) r s -> Data ms [r] s
| data_child : forall p t q s, Data ms p q -> Defines q t s -> Data ms (p ++ [t]) s.

(** The model loaded last under a name. *)
Fixpoint last_load (n : string) (l : list dcall) : option model :=
  match l with
  | [] => None
  | c :: r =>
      match last_load n r with
      | Some m => Some m
      | None => match c with DLoad m => if String.eqb (m_name m) n then Some m else None | _ => None end
      end
  end.
Definition Current (l : list dcall) (m : model) : Prop := last_load (m_name m) l = Some m.

(** [r] is the tag of a top level node of the model. *)
Definition IsRoot (m : model) (r : string) : Prop := exists k, In k (skids (m_tree m)) /\ stag k = r.

(** No root belongs to models of two names. *)
Definition Owned (l : list dcall) : Prop :=
  forall m m' r, In (DLoad m) l -> In (DLoad m') l -> IsRoot m r -> IsRoot m' r -> m_name m = m_name m'.

(** The names of the data nodes of a schema node, seen through choices and cases. *)
Fixpoint data_names (s : snode) : list string :=
  let '(SNode i ks) := s in
  match s_type i with TChoice | TCase => flat_map data_names ks | _ => [s_tag i] end.
Definition child_names (s : snode) : list string := flat_map data_names (skids s).

(** YANG requires distinct names for the data nodes below a node. *)
Definition DistinctNames (ms : model -> Prop) : Prop :=
  (forall m, ms m -> NoDup (child_names (m_tree m))) /\
  (forall p s, Data ms p s -> NoDup (child_names s)).

(** The device with its cache emptied. *)
Definition forget (d : device) : device :=
  Device (d_models d) [] (d_compiler d) (d_namespaces d).

(** The head of the path is a root of a model loaded in the history. *)
Definition RootKnown (l : list dcall) (path : list string) : Prop :=
  exists m r p, path = r :: p /\ Current l m /\ IsRoot m r.

(** A call, made after the history [l], that may read the namespace table. *)
Definition MayRead (l : list dcall) (c : dcall) : Prop :=
  match c with
  | DNamespaces => True
  | DLookup p => ~ RootKnown l p
  | _ => False
  end.

Definition Scanned (l : list dcall) : Prop := exists T, In (DScan T) l.

(** The table was not read between the first scan and the end of [l]. *)
Definition Unread (l : list dcall) : Prop :=
  forall p c q, l = p ++ c :: q -> MayRead p c -> ~ Scanned p.
