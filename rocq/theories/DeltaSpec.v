(** Specification: hypotheses about schemas and pairs of configs under which the
    properties of deltas are stated. *)
From Coq Require Import String Ascii List Bool Arith ZArith Lia.
From Verif Require Import Base XmlM CalcM NetconfM DataSpec.
Import ListNotations.
Open Scope string_scope.
Open Scope list_scope.

(** ** Schemas *)
Fixpoint has_char (c : ascii) (s : string) : bool :=
  match s with EmptyString => false | String d r => Ascii.eqb c d || has_char c r end.
Fixpoint nodupb (l : list string) : bool :=
  match l with [] => true | x :: r => negb (existsb (String.eqb x) r) && nodupb r end.

(** What YANG guarantees about list keys: distinct leaves of the list, flagged as
    keys, and nothing else is flagged. Names contain no '='. Only the top of a schema
    is a root. *)
Fixpoint wfs (s : snode) : bool :=
  let '(SNode i ks) := s in
  (match s_type i with
   | TList =>
       nodupb (s_keys i) &&
       forallb (fun k => negb (has_char "=" k) &&
                  match schema_child s k with
                  | Ok kc => stype_eqb (sty kc) TLeaf && s_is_key (si kc)
                  | Err _ => false
                  end) (s_keys i)
   | _ => true
   end) &&
  forallb (fun e => (negb (s_is_key (si (ce_node e))) ||
             (stype_eqb (s_type i) TList && stype_eqb (sty (ce_node e)) TLeaf &&
              existsb (String.eqb (stag (ce_node e))) (s_keys i))) &&
             negb (stype_eqb (sty (ce_node e)) TRoot))
          (flat s) &&
  forallb wfs ks.

(** ** Configs *)

(** Entries of user-ordered lists and leaf-lists can be named by the insert
    machinery: they have text or key texts, and these contain no apostrophe. *)
Definition nameable (cs : snode) (c : xml) : bool :=
  match sty cs with
  | TLeafList => match xtext c with Some _ => true | None => false end
  | TList => forallb (fun k => match find_kid k (xkids c) with
                               | Some kn => match xtext kn with
                                            | Some v => negb (has_char "'" v)
                                            | None => false
                                            end
                               | None => false
                               end) (s_keys (si cs))
  | _ => true
  end.
Fixpoint orderable (s : snode) (x : xml) : bool :=
  let '(Elem _ _ _ ks) := x in
  forallb (fun c => match schema_child s (xtag c) with
                    | Ok cs => (negb (s_user (si cs)) || nameable cs c) && orderable cs c
                    | Err _ => true
                    end) ks.

(** Entries of user-ordered leaf-lists have text. *)
Fixpoint texted (s : snode) (x : xml) : bool :=
  let '(Elem _ _ _ ks) := x in
  forallb (fun c => match schema_child s (xtag c) with
                    | Ok cs => (negb (s_user (si cs)) || negb (stype_eqb (sty cs) TLeafList) ||
                                match xtext c with Some _ => true | None => false end) && texted cs c
                    | Err _ => true
                    end) ks.

(** ** Pairs of configs *)

(** [K] holds at all instances that both configs have. *)
Definition Everywhere (K : snode -> xml -> xml -> Prop) (s : snode) (a b : xml) : Prop :=
  forall p s' na nb, At s a p s' na -> At s b p s' nb -> K s' na nb.

Definition Precedes {A} (u v : A) (l : list A) : Prop :=
  exists l1 l2 l3, l = l1 ++ u :: l2 ++ v :: l3.

(** Entries that two user-ordered sequences have in common are in the same relative
    order in both. *)
Definition KeepsOrder : snode -> xml -> xml -> Prop :=
  Everywhere (fun s' na nb => forall t cs us vs,
    Defines s' t cs -> s_user (si cs) = true ->
    Order s' t (xkids na) us -> Order s' t (xkids nb) vs ->
    forall u v, Precedes u v us -> In u vs -> In v vs -> Precedes u v vs).

(** The schema node reached from [s] through choices and cases by child indices,
    last index first. *)
Inductive Locus (s : snode) : list nat -> snode -> Prop :=
| loc_top : forall i c, nth_error (skids s) i = Some c -> Locus s [i] c
| loc_down : forall p k i c, Locus s p k -> sty k = TChoice \/ sty k = TCase ->
    nth_error (skids k) i = Some c -> Locus s (i :: p) c.

(** The two configs do not use two cases of one choice. *)
Definition NoSwitch : snode -> xml -> xml -> Prop :=
  Everywhere (fun s' na nb => forall ca cb da db i j m n q ka kb,
    In ca (xkids na) -> In cb (xkids nb) ->
    Defines s' (xtag ca) da -> Defines s' (xtag cb) db ->
    Locus s' (i :: m :: q) da -> Locus s' (j :: n :: q) db ->
    Locus s' (m :: q) ka -> sty ka = TCase -> Locus s' (n :: q) kb -> sty kb = TCase ->
    m = n).

(** Values of the leaf-list [t] below [x] *)
Definition values_below (t : string) (x : xml) : list (option string) :=
  map xtext (filter (fun c => String.eqb (xtag c) t) (xkids x)).

(** A leaf-list directly below the top of both configs has the same values in both. *)
Definition TopLeafListsAgree (s : snode) (a b : xml) : Prop :=
  forall t cs, Defines s t cs -> sty cs = TLeafList ->
    values_below t a <> [] -> values_below t b <> [] ->
    if s_user (si cs) then values_below t a = values_below t b
    else forall v, In v (values_below t a) <-> In v (values_below t b).

(** Options under which the delta does not put the operation replace on the root
    (where the receiver ignores it): preferred_replace='merge', or diff_type='replace'
    at depth 0, or no difference between leaf-lists directly below the top. *)
Definition RootKept (o : opts) (s : snode) (a b : xml) : Prop :=
  o_replace o = PRMerge \/ (o_type o = DReplace /\ o_depth o = 0%Z) \/ TopLeafListsAgree s a b.

(** ** Nodes of a delta *)

(** There is an instance at path [p]. *)
Definition Present (s : snode) (x : xml) (p : list uid) : Prop := exists s' n, At s x p s' n.

(** [n] is a node of the tree [x], at any depth. *)
Inductive Within : snode -> xml -> snode -> xml -> Prop :=
| wi_here : forall s x, Within s x s x
| wi_down : forall s x c cs s' n, In c (xkids x) -> Defines s (xtag c) cs -> Within cs c s' n -> Within s x s' n.
