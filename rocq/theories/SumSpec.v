(** Specification: what the sum of a config and a delta is, for all pairs of configs and
    not only for those in which the sum is the destination of the delta. *)
From Coq Require Import String Ascii List Bool Arith ZArith Lia.
From Verif Require Import Base XmlM CalcM NetconfM DataSpec DeltaSpec MoveSpec.
Import ListNotations.
Open Scope string_scope.
Open Scope list_scope.

(** [ca] and [cb] belong to two cases of one choice. *)
Definition OtherCase (s : snode) (ca cb : xml) : Prop :=
  exists da db i j m n q ka kb, Defines s (xtag ca) da /\ Defines s (xtag cb) db /\
    Locus s (i :: m :: q) da /\ Locus s (j :: n :: q) db /\
    Locus s (m :: q) ka /\ sty ka = TCase /\ Locus s (n :: q) kb /\ sty kb = TCase /\ m <> n.

(** [x] has a child of identity [u]. *)
Definition HasKid (s : snode) (x : xml) (u : uid) : Prop :=
  exists c cs, In c (xkids x) /\ Defines s (xtag c) cs /\ Ident cs c u.

(** ** Nodes that a delta sets as a whole *)

(** diff_type='replace' with this depth: the children of the nodes at depth [n] are set as
    wholes. The root has depth 0. *)
Definition ReplLevel (o : opts) (n : nat) : Prop := o_type o = DReplace /\ o_depth o = Z.of_nat n.

(** The node at depth [n] that is [na] in the source and [nb] in the destination is set as a
    whole: its parent is at the depth of diff_type='replace', or preferred_replace='replace'
    is given and a leaf-list directly below the node has other values. *)
Definition WholeAt (o : opts) (n : nat) (s : snode) (na nb : xml) : Prop :=
  (exists m, n = S m /\ ReplLevel o m) \/ (~ ReplLevel o n /\ o_replace o = PRReplace /\ ~ TopLeafListsAgree s na nb).

(** The node at path [p] is set as a whole, or is below such a node. *)
Definition Whole (o : opts) (s : snode) (a b : xml) (p : list uid) : Prop :=
  exists u q r s' na nb, p = (u :: q) ++ r /\ At s a (u :: q) s' na /\ At s b (u :: q) s' nb /\ WholeAt o (S (length q)) s' na nb.

(** At the nodes that are not set as wholes, the moves of the entries end where the
    destination has them, and no node makes room for another case of its choice. At the
    depth of diff_type='replace' nodes are deleted one by one and a case may change. *)
Definition Fits (o : opts) (s : snode) (a b : xml) : Prop :=
  forall p s' na nb, At s a p s' na -> At s b p s' nb -> ~ Whole o s a b p ->
    (forall t cs us vs, Defines s' t cs -> s_user (si cs) = true ->
       Order s' t (xkids na) us -> Order s' t (xkids nb) vs -> replay us vs = vs) /\
    (~ ReplLevel o (length p) -> forall ca cb, In ca (xkids na) -> In cb (xkids nb) -> ~ OtherCase s' ca cb).

(** ** The sum *)

(** [r] is what becomes of [a] with the delta from [a] to [b]. *)
Record Landing (o : opts) (s : snode) (a b r : xml) : Prop := {
  (** All data of the destination are there. *)
  ld_data : forall p v, Holds s b p v -> Holds s r p v;
  (** Nothing is there that is neither in the destination nor in the source. *)
  ld_only : forall p v, Holds s r p v -> Holds s b p v \/ Holds s a p v;
  (** Nodes that both configs have and that are not set as wholes: the entries of the
      destination are in the order to which replaying their moves leads. *)
  ld_order : forall p s' na nb nr t cs us vs ws, At s a p s' na -> At s b p s' nb -> At s r p s' nr ->
    ~ Whole o s a b p ->
    Defines s' t cs -> s_user (si cs) = true ->
    Order s' t (xkids na) us -> Order s' t (xkids nb) vs -> Order s' t (xkids nr) ws ->
    filter (among vs) ws = replay us vs;
  (** Below new nodes, in that of the destination *)
  ld_new : forall p t us, ~ Present s a p -> UserOrder s b p t us -> UserOrder s r p t us;
  (** What the destination does not have stays, with all below it, exactly if the
      destination has a node of another case of the same choice, and the delta does not
      delete nodes one by one at their depth. *)
  ld_left : forall p s' na nb nr c cs u, At s a p s' na -> At s b p s' nb -> At s r p s' nr ->
    ~ Whole o s a b p -> Defines s' (xtag c) cs -> Ident cs c u -> ~ HasKid s' nb u ->
    (In c (xkids nr) <-> In c (xkids na) /\ ~ ReplLevel o (length p) /\ exists cb, In cb (xkids nb) /\ OtherCase s' c cb);
  (** What is set as a whole is as in the destination. *)
  ld_whole : forall p, Whole o s a b p -> (forall v, Holds s r p v <-> Holds s b p v) /\
    (forall t us, UserOrder s r p t us <-> UserOrder s b p t us)
}.
