(** Specification: trees that settling leaves alone, and histories of API calls. *)
From Coq Require Import String Ascii List Bool Arith ZArith Lia.
From Verif Require Import Base XmlM CalcM NetconfM ConfigM FilterM DataSpec DeltaSpec TrimSpec PruneSpec HeapM.
Import ListNotations.
Open Scope string_scope.
Open Scope list_scope.

(** No node would be removed: none is made of defaults only or removed by validation. *)
Definition Settled (rd : bool) (s : snode) (x : xml) : Prop :=
  forall sm m sn n, Within s x sm m -> In n (xkids m) -> Defines sm (xtag n) sn ->
    ~ Void rd sn n /\ ~ OnlyDefault sn m n.

Definition NoObsolete (s : snode) (x : xml) : Prop :=
  forall sn n, Below s x sn n -> s_status (si sn) <> "obsolete".

(** Calls as a careful user makes them: configs are validated when they are built from
    XML, deprecated nodes are not removed when a Config is built from a Config, and edits
    given as XML do not use obsolete nodes. filter and extract_config are left out. *)
Definition Careful (s : snode) (c : call) : Prop :=
  match c with
  | CNew check _ _ => check = true
  | CFrom _ rd _ => rd = false
  | CAddEle _ d => NoObsolete s d
  | CDeltaEle _ d _ => NoObsolete s (retrieve d)
  | CFilter _ _ | CExtract _ _ => False
  | _ => True
  end.

(** The tree of a Config object, or the source and destination of a ConfigDelta. *)
Definition Sees (h : heap) (i : nat) (l : list xml) : Prop :=
  match nth_error (h_objs h) i with
  | Some (OCfg a) => exists x, nth_error (h_trees h) a = Some x /\ l = [x]
  | Some (ODelta a b _) => exists x y, nth_error (h_trees h) a = Some x /\ nth_error (h_trees h) b = Some y /\ l = [x; y]
  | None => False
  end.

(** What an object holds is changed by one more call. *)
Definition Changed (s : snode) (l : list call) (c : call) (i : nat) : Prop :=
  exists old new, Sees (run s empty_heap l) i old /\ Sees (run s empty_heap (l ++ [c])) i new /\ old <> new.
