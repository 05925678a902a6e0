(** What is claimed of the download phase: executions, reachability in the graph of
    dependencies, counting. *)
From Coq Require Import String List Bool Arith.
Import ListNotations.

(** Executions of any relation. *)
Inductive Steps {S : Type} (step : S -> S -> Prop) : S -> S -> Prop :=
| Steps_refl : forall s, Steps step s s
| Steps_next : forall s t u, Steps step s t -> step t u -> Steps step s u.

Definition Stuck {S : Type} (step : S -> S -> Prop) (s : S) : Prop := forall t, ~ step s t.

Definition Endless {S : Type} (step : S -> S -> Prop) (s : S) : Prop :=
  exists f : nat -> S, f 0 = s /\ forall n, step (f n) (f (Datatypes.S n)).

(** [m] is one of [roots] or is named by a module in reach; [names m d]: [m] was read
    and depends on [d]. *)
Inductive Reach (roots : list string) (names : string -> string -> Prop) : string -> Prop :=
| Reach_root : forall m, In m roots -> Reach roots names m
| Reach_dep : forall m d, Reach roots names m -> names m d -> Reach roots names d.

(** How often [x] is in a list. *)
Definition times (x : string) (l : list string) : nat := count_occ string_dec l x.
