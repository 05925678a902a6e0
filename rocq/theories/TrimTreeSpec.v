(** Specification of the removal of defaults, child by child and without paths, so that
    neither keys nor schemas need to be well formed. *)
From Coq Require Import String List Bool.
From Verif Require Import Base XmlM CalcM DataSpec TrimSpec.
Import ListNotations.
Open Scope string_scope.
Open Scope list_scope.

(** [Trimmed s x y]: [y] is [x] without the nodes that say nothing beyond the defaults;
    everything else is there as it was and in its order. *)
Inductive Trimmed : snode -> xml -> xml -> Prop :=
| tr_node : forall s t tx a ks ks', TrimmedKids s (Elem t tx a ks) ks ks' -> Trimmed s (Elem t tx a ks) (Elem t tx a ks')
with TrimmedKids : snode -> xml -> list xml -> list xml -> Prop :=
| tk_nil : forall s x, TrimmedKids s x [] []
| tk_drop : forall s x c cs r r', Defines s (xtag c) cs -> OnlyDefault cs x c -> TrimmedKids s x r r' -> TrimmedKids s x (c :: r) r'
| tk_keep : forall s x c cs c' r r', Defines s (xtag c) cs -> ~ OnlyDefault cs x c -> Trimmed cs c c' -> TrimmedKids s x r r' ->
    TrimmedKids s x (c :: r) (c' :: r').
