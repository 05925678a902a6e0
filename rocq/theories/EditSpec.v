(** Specification: what an edit (a tree with operation attributes) does to a datastore,
    RFC 6241 section 7.2, seen as a set of instances. *)
From Coq Require Import String Ascii List Bool Arith ZArith Lia.
From Verif Require Import Base XmlM CalcM NetconfM DataSpec.
Import ListNotations.
Open Scope string_scope.
Open Scope list_scope.

(** [c] is the child of [x] with identity [u]. *)
Definition Child (s : snode) (x : xml) (u : uid) (cs : snode) (c : xml) : Prop :=
  In c (xkids x) /\ Defines s (xtag c) cs /\ Ident cs c u.
Definition NoChild (s : snode) (x : xml) (u : uid) : Prop := forall cs c, ~ Child s x u cs c.

Definition Leafy (cs : snode) : Prop := sty cs = TLeaf \/ sty cs = TLeafList.
Definition Inner (cs : snode) : Prop := sty cs = TContainer \/ sty cs = TList.

(** The operation an element of an edit asks for, RFC 6241 section 7.2. *)
Definition edit_op (c : xml) : operation :=
  match get_attr operation_tag c with
  | None => OpMerge
  | Some "merge" => OpMerge
  | Some "create" => OpCreate
  | Some "replace" => OpReplace
  | Some "delete" => OpDelete
  | Some "remove" => OpRemove
  | Some _ => OpUnknown
  end.

Section Edit.
Variable op : xml -> operation.

(** The instance at a path exists, with value [v], once the edit [d] has been merged
    into [x]. *)
Inductive Edited : snode -> xml -> xml -> list uid -> option string -> Prop :=
| ed_here : forall s x d, Edited s x d [] None
| ed_old : forall s x d u cs c p v, Child s x u cs c -> NoChild s d u -> Holds cs c p v ->
    Edited s x d (u :: p) v
| ed_set : forall s x d u cs c p v, Child s d u cs c -> op c = OpCreate \/ op c = OpReplace ->
    Holds cs c p v -> Edited s x d (u :: p) v
| ed_leaf : forall s x d u cs c, Child s d u cs c -> op c = OpMerge -> Leafy cs ->
    Edited s x d [u] (xtext c)
| ed_merge : forall s x d u cs cx c p v, Child s x u cs cx -> Child s d u cs c -> op c = OpMerge -> Inner cs ->
    Edited cs cx c p v -> Edited s x d (u :: p) v
| ed_new : forall s x d u cs c p v, NoChild s x u -> Child s d u cs c -> op c = OpMerge -> Inner cs ->
    Edited cs (Elem (xtag c) None [] []) c p v -> Edited s x d (u :: p) v.

(** [y] is a new instance of [cs]: it has a child for each key and no other. *)
Definition Fresh (cs : snode) (y : xml) : Prop :=
  forall t, (exists c, In c (xkids y) /\ xtag c = t) <-> (sty cs = TList /\ In t (s_keys (si cs))).

(** The parts of an edit that are looked at: children of nodes that are merged.
    [x'] and [d'] are the instance and the part of the edit found at one place. *)
Inductive Visited : snode -> xml -> xml -> snode -> xml -> xml -> Prop :=
| vi_here : forall s x d, Visited s x d s x d
| vi_peer : forall s x d u cs cx c s' x' d', Child s x u cs cx -> Child s d u cs c -> op c = OpMerge -> Inner cs ->
    Visited cs cx c s' x' d' -> Visited s x d s' x' d'
| vi_new : forall s x d u cs c y s' x' d', NoChild s x u -> Child s d u cs c -> op c = OpMerge -> Inner cs ->
    Fresh cs y -> Visited cs y c s' x' d' -> Visited s x d s' x' d'.

(** An operation that RFC 6241 forbids at the place where it stands. *)
Inductive Forbidden (s : snode) (x d : xml) : Prop :=
| fb_delete : forall u cs c, Child s d u cs c -> op c = OpDelete -> NoChild s x u -> Forbidden s x d
| fb_create : forall u cs c c', Child s d u cs c -> op c = OpCreate -> Child s x u cs c' ->
    Leafy cs \/ Inner cs -> Forbidden s x d
| fb_unknown : forall u cs c, Child s d u cs c -> op c = OpUnknown ->
    (forall c', ~ Child s x u cs c') \/ Leafy cs \/ Inner cs -> Forbidden s x d.
End Edit.
Arguments ed_here {op}.
Arguments ed_old {op}.
Arguments ed_set {op}.
Arguments ed_leaf {op}.
Arguments ed_merge {op}.
Arguments ed_new {op}.
Arguments vi_here {op}.
Arguments vi_peer {op}.
Arguments vi_new {op}.
Arguments fb_delete {op s x d}.
Arguments fb_create {op s x d}.
Arguments fb_unknown {op s x d}.

(** Edits of the usual form: nodes of the four data types, distinct siblings, keys
    without operation, known values of the insert attribute, nothing below leaves. *)
Definition insert_known (c : xml) : bool :=
  match get_attr insert_tag c with
  | None => true
  | Some v => existsb (String.eqb v) ["first"; "last"; "before"; "after"]
  end.
Fixpoint edit_ok (s : snode) (d : xml) : bool :=
  let '(Elem _ _ _ ks) := d in
  is_ok (index_kids s ks) &&
  forallb (fun c => match schema_child s (xtag c) with
                    | Err _ => false
                    | Ok cs => (match sty cs with
                                | TLeaf | TLeafList => match xkids c with [] => true | _ => false end
                                | TContainer | TList => true
                                | _ => false
                                end) &&
                               (negb (s_is_key (si cs)) || match get_attr operation_tag c with None => true | _ => false end) &&
                               insert_known c && edit_ok cs c
                    end) ks.

(** All attributes in a tree *)
Fixpoint all_attrs (x : xml) : list (string * string) :=
  let '(Elem _ _ a k) := x in a ++ flat_map all_attrs k.

(** Schema node of a path *)
Inductive Target : snode -> list uid -> snode -> Prop :=
| tg_here : forall s, Target s [] s
| tg_down : forall s u p cs c, Defines s (fst u) cs -> Target cs p c -> Target s (u :: p) c.

(** Every key attribute is a sequence of predicates [[name='value']]. *)
Fixpoint refs_ok (d : xml) : bool :=
  let '(Elem _ _ a ks) := d in
  match assoc String.eqb key_tag a with
  | None => true
  | Some p => match parse_preds (String.length p) p with Some _ => true | None => false end
  end && forallb refs_ok ks.

(** No leaf-list has default values. *)
Fixpoint no_ll_default (s : snode) : bool :=
  let '(SNode i ks) := s in
  (negb (stype_eqb (s_type i) TLeafList) || match s_default i with None => true | Some _ => false end) && forallb no_ll_default ks.

(** The instance at [p] with value [v] is in [d], or in [x] and [d] has none at [p]. *)
Definition Union (s : snode) (x d : xml) (p : list uid) (v : option string) : Prop :=
  Holds s d p v \/ (Holds s x p v /\ forall v', ~ Holds s d p v').

(** ** Order of entries *)

(** The identities without [u] *)
Definition without (u : uid) (l : list uid) : list uid := filter (fun v => negb (uid_eqb u v)) l.

(** [[k='v']] for each pair *)
Fixpoint preds_text (ps : list (string * string)) : string :=
  match ps with
  | [] => ""
  | (k, v) :: r => ("[" ++ k ++ "='" ++ v ++ "']" ++ preds_text r)%string
  end.

(** The value or key attribute of [c] names the entry [w] of [x]. *)
Definition Refers (s : snode) (x : xml) (cs : snode) (c : xml) (w : uid) : Prop :=
  exists e, Child s x w cs e /\ xtag e = xtag c /\
    ((sty cs = TLeafList /\ exists v, get_attr value_tag c = Some v /\ xtext e = Some v) \/
     (sty cs = TList /\ exists ps, get_attr key_tag c = Some (preds_text ps) /\
        forall k v, In (k, v) ps -> exists n, In n (xkids e) /\ xtag n = k /\ match xtext n with None => "" | Some t => t end = v)).

(** What the insert attribute [i] of [c] (RFC 7950 section 7.8.6) makes of the entries [l] of a node:
    entry [u] is new in [l] or moved. *)
Inductive Put (ref : uid -> Prop) (i : option string) (u : uid) (l : list uid) : list uid -> Prop :=
| put_first : i = Some "first" -> Put ref i u l (u :: without u l)
| put_last : i = Some "last" -> Put ref i u l (without u l ++ [u])
| put_before : forall w a b, i = Some "before" -> ref w -> w <> u -> without u l = a ++ w :: b ->
    Put ref i u l (a ++ u :: w :: b)
| put_after : forall w a b, i = Some "after" -> ref w -> w <> u -> without u l = a ++ w :: b ->
    Put ref i u l (a ++ w :: u :: b)
| put_self : i = Some "before" \/ i = Some "after" -> ref u -> In u l -> Put ref i u l l
| put_end : i = None -> ~ In u l -> Put ref i u l (l ++ [u])
| put_stay : i = None -> In u l -> Put ref i u l l.

(** What the edit [c] of entry [u] does to the order [l] of the entries of [x] *)
Definition Reordered (op : xml -> operation) (s : snode) (x : xml) (cs : snode) (c : xml) (u : uid) (l l' : list uid) : Prop :=
  match op c with
  | OpDelete | OpRemove => l' = without u l
  | _ => Put (Refers s x cs c) (if s_user (si cs) then get_attr insert_tag c else None) u l l'
  end.

(** At path [p] the edit [d] merges [d'] into [x']. *)
Inductive Inside (op : xml -> operation) : snode -> xml -> xml -> list uid -> snode -> xml -> xml -> Prop :=
| in_here : forall s x d, Inside op s x d [] s x d
| in_down : forall s x d u cs cx c p s' x' d', Child s x u cs cx -> Child s d u cs c -> op c = OpMerge -> Inner cs ->
    Inside op cs cx c p s' x' d' -> Inside op s x d (u :: p) s' x' d'.
