(** Specification: pairs of configs in which entries of user-ordered sequences change
    their places.

    A delta names for each entry of a user-ordered sequence of the destination the
    entry it follows there. Whoever applies the delta first puts in the new entries, in
    the order of the destination, and then moves the old ones, in the order of the
    source, each behind the entry it follows in the destination. This file says in
    terms of the two sequences alone where that ends. *)
From Coq Require Import String Ascii List Bool Arith ZArith Lia.
From Verif Require Import Base XmlM CalcM NetconfM DataSpec DeltaSpec.
Import ListNotations.
Open Scope string_scope.
Open Scope list_scope.

(** The entry that [u] follows in [l]; [prev] stands before [l]. *)
Fixpoint follows (prev : option uid) (u : uid) (l : list uid) : option uid :=
  match l with
  | [] => prev
  | v :: r => if uid_eqb u v then prev else follows (Some v) u r
  end.

(** [u] right behind [p], or in front *)
Definition put (p : option uid) (u : uid) (l : list uid) : list uid :=
  match p with
  | None => u :: l
  | Some v => (fix go (l : list uid) : list uid :=
                 match l with
                 | [] => [u]
                 | w :: r => if uid_eqb v w then w :: u :: r else w :: go r
                 end) l
  end.

Definition without (u : uid) (l : list uid) : list uid := filter (fun w => negb (uid_eqb u w)) l.

(** One entry is put or moved to where it is in [dst], as seen from the one before. *)
Definition place (dst l : list uid) (u : uid) : list uid := put (follows None u dst) u (without u l).

Definition among (l : list uid) (u : uid) : bool := existsb (uid_eqb u) l.

(** Where the entries that stay or come end up *)
Definition replay (src dst : list uid) : list uid :=
  let old := filter (among dst) src in
  let new := filter (fun u => negb (among src u)) dst in
  fold_left (place dst) old (fold_left (place dst) new old).

(** Entries end up where the destination has them. *)
Definition EndsInPlace : snode -> xml -> xml -> Prop :=
  Everywhere (fun s' na nb => forall t cs us vs,
    Defines s' t cs -> s_user (si cs) = true ->
    Order s' t (xkids na) us -> Order s' t (xkids nb) vs -> replay us vs = vs).

(** The destination keeps the order of the source but for one cut: it is [l1 ++ l2],
    each of the two parts keeps the order of the source, and nothing in [l2] is new.
    This covers one entry that is moved anywhere, a block that is moved behind or before
    the rest, and sequences in which no entry moves. *)
Definition Kept (src l : list uid) : Prop :=
  forall u v, Precedes u v src -> In u l -> In v l -> Precedes u v l.
Definition OneCut (src dst : list uid) : Prop :=
  exists l1 l2, dst = l1 ++ l2 /\ Kept src l1 /\ Kept src l2 /\ incl l2 src.
Definition CutsOnce : snode -> xml -> xml -> Prop :=
  Everywhere (fun s' na nb => forall t cs us vs,
    Defines s' t cs -> s_user (si cs) = true ->
    Order s' t (xkids na) us -> Order s' t (xkids nb) vs -> OneCut us vs).
