(** Specification of the removal of defaults. *)
From Coq Require Import String Ascii List Bool Arith ZArith Lia.
From Verif Require Import Base XmlM CalcM DataSpec.
Import ListNotations.
Open Scope string_scope.
Open Scope list_scope.

(** A comma separated list of values *)
Inductive Joined : list string -> string -> Prop :=
| jo_one : forall w, ~ In ","%char (list_ascii_of_string w) -> Joined [w] w
| jo_more : forall w ws r, ~ In ","%char (list_ascii_of_string w) -> Joined ws r ->
    Joined (w :: ws) (w ++ String ","%char r)%string.

(** The values of the leaf-list [t] below [x] *)
Definition LeafListValues (t : string) (x : xml) (vs : list (option string)) : Prop :=
  exists cs, vs = map xtext cs /\ cs = filter (fun c => String.eqb (xtag c) t) (xkids x).

(** The child [c] of [x], an instance of [cs], says nothing beyond the defaults. *)
Inductive OnlyDefault : snode -> xml -> xml -> Prop :=
| od_leaf : forall cs x c v, sty cs = TLeaf -> s_default (si cs) = Some v -> xtext c = Some v ->
    OnlyDefault cs x c
| od_leaf_list : forall cs x c d ds vs, sty cs = TLeafList -> s_default (si cs) = Some d -> Joined ds d ->
    LeafListValues (xtag c) x vs ->
    (if s_user (si cs) then vs = map Some ds else forall v, In v vs <-> In v (map Some ds)) ->
    OnlyDefault cs x c
| od_container : forall cs x c, sty cs = TContainer -> s_presence (si cs) = false ->
    (forall k ks, In k (xkids c) -> Defines cs (xtag k) ks -> OnlyDefault ks c k) ->
    OnlyDefault cs x c
| od_list : forall cs x c, sty cs = TList ->
    (forall k ks, In k (xkids c) -> Defines cs (xtag k) ks -> OnlyDefault ks c k) ->
    OnlyDefault cs x c.

(** The node found at a path no step of which is made of defaults only. *)
Inductive KeptAt : snode -> xml -> list uid -> snode -> xml -> Prop :=
| ka_here : forall s x, KeptAt s x [] s x
| ka_down : forall s x c cs u p s' n,
    In c (xkids x) -> Defines s (xtag c) cs -> Ident cs c u -> ~ OnlyDefault cs x c ->
    KeptAt cs c p s' n -> KeptAt s x (u :: p) s' n.

(** What is expected of [y], the trimmed [x]. *)
Definition TrimOf (s : snode) (x y : xml) : Prop :=
  (forall p v, Holds s y p v <-> exists s' n, KeptAt s x p s' n /\ value_of s' n = v) /\
  (forall p t us vs, UserOrder s y p t us -> UserOrder s x p t vs -> Subseq us vs).

(** List keys have no default (RFC 7950, 7.8.2: a default of a key leaf is ignored). *)
Fixpoint keys_plain (s : snode) : bool :=
  let '(SNode i ks) := s in
  (negb (s_is_key i) || match s_default i with None => true | Some _ => false end) && forallb keys_plain ks.
