(** Specification: Config objects and pairs of them. *)
From Coq Require Import String Ascii List Bool Arith ZArith Lia.
From Verif Require Import Base XmlM CalcM NetconfM ConfigM DataSpec DeltaSpec MoveSpec.
Import ListNotations.
Open Scope string_scope.
Open Scope list_scope.

(** [x] is the content of a Config object: a well-formed tree below nc:config from
    which defaults have been removed (the constructor always does so, see C17). *)
Definition IsConfig (s : snode) (x : xml) : Prop :=
  valid s x = true /\ xtag x = config_tag /\ trim s x = Ok x.

(** What the delta machinery handles: entries of user-ordered sequences can be named,
    replaying their moves leads to the order of [b] (see MoveSpec.v; so it does where
    common entries keep their relative order), no choice changes its case. *)
Definition Comparable (s : snode) (a b : xml) : Prop :=
  orderable s a = true /\ orderable s b = true /\ EndsInPlace s a b /\ NoSwitch s a b.

(** The outcome of an operation is a config equal to [b], by content and by [==]. *)
Definition Reaches (s : snode) (r : res xml) (b : xml) : Prop :=
  exists x, r = Ok x /\ IsConfig s x /\ SameData s x b /\ cmp_eq s x b = Ok true.
