(** Specification: the order of entries when two trees are merged. *)
From Coq Require Import String Ascii List Bool Arith ZArith Lia.
From Verif Require Import Base XmlM CalcM DataSpec DeltaSpec EditSpec.
Import ListNotations.
Open Scope string_scope.
Open Scope list_scope.

(** The first sequence, then what only the second has, in its order *)
Definition joined (us vs : list uid) : list uid := us ++ filter (fun v => negb (existsb (uid_eqb v) us)) vs.

(** The order of the entries [t] at path [p] of two trees taken together *)
Definition JoinedAt (s : snode) (x d : xml) (p : list uid) (t : string) (ws : list uid) : Prop :=
  (exists us vs, UserOrder s x p t us /\ UserOrder s d p t vs /\ ws = joined us vs) \/
  (UserOrder s x p t ws /\ ~ Present s d p) \/ (UserOrder s d p t ws /\ ~ Present s x p).

(** The second config has all that the first has, and its entries begin with those of the
    first. *)
Definition Extends (s : snode) (a b : xml) : Prop :=
  (forall p v, Holds s a p v -> exists v', Holds s b p v') /\
  (forall p t us vs, UserOrder s a p t us -> UserOrder s b p t vs -> exists ws, vs = us ++ ws).
