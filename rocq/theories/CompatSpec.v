(** Specification: when two configs may be combined. *)
From Coq Require Import String List Bool Permutation.
From Verif Require Import Base XmlM CalcM DataSpec TagM MDiffM MDiffSpec DepictM DeviceM DeviceSpec CompatM.
Import ListNotations.
Open Scope string_scope.
Open Scope list_scope.

(** The schema that lookups see of a model tree *)
Definition read_tree (t : xml) : snode := SNode (SInfo (xtag t) TRoot false false None false [] "" "") (map read_node (xkids t)).

Definition Loads (d : vdev) (n : string) (t : xml) : Prop := In (n, t) (v_models d).
(** [r] is a name at the top of a model. *)
Definition Top (t : xml) (r : string) : Prop :=
  (exists c, In c (xkids t) /\ xtag c = r) \/ exists s, Defines (read_tree t) r s.
(** A device with one model per name and one owner per root *)
Definition Fine (d : vdev) : Prop :=
  NoDup (map fst (v_models d)) /\
  forall n t n' t' r, Loads d n t -> Loads d n' t' -> Top t r -> Top t' r -> n = n'.

(** The configs of an operand, and the models that they use *)
Definition Part (o : operand) (c : vcfg) : Prop :=
  match o with OCfg c' => c = c' | ODelta s d => c = s \/ c = d end.
Definition Uses (o : operand) (n : string) : Prop :=
  exists c r t, Part o c /\ In r (c_tops c) /\ Loads (c_dev c) n t /\ exists k, In k (xkids t) /\ xtag k = r.
(** The prefix and the URL of a model on a device: those of its first entry *)
Definition Entered (d : vdev) (n p u : string) : Prop :=
  exists l e r, v_ns d = Some (l ++ e :: r) /\ (forall e', In e' l -> e_name e' <> n) /\ e_name e = n /\ e_prefix e = p /\ e_url e = u.

Definition AgreeOn (d1 d2 : vdev) (n : string) : Prop :=
  (exists t1 t2, Loads d1 n t1 /\ Loads d2 n t2 /\ SameNodes t1 t2) /\
  (v_id d1 <> v_id d2 -> exists p u, Entered d1 n p u /\ Entered d2 n p u).
Definition Agree (a b : operand) : Prop := forall n, Uses a n \/ Uses b n -> AgreeOn (o_dev a) (o_dev b) n.

(** Objects with the same identity are the same. *)
Definition OneObject (a b : operand) : Prop := v_id (o_dev a) = v_id (o_dev b) -> o_dev a = o_dev b.
Definition AllFine (o : operand) : Prop := forall c, Part o c -> Fine (c_dev c).
(** All roots of the configs are those of loaded models. *)
Definition RootsLoaded (o : operand) : Prop :=
  forall c r, Part o c -> In r (c_tops c) -> exists n t k, Loads (c_dev c) n t /\ In k (xkids t) /\ xtag k = r.
(** The models of a device are under their names; they can be compared. *)
Definition Stored (d : vdev) : Prop := forall n t, Loads d n t -> xtag t = n.
Definition Diffable (d : vdev) : Prop := forall n t, Loads d n t -> DistinctTags t /\ Typed t.

(** Two schema nodes say the same, apart from the keys, and so do their children. *)
Inductive Twin : snode -> snode -> Prop :=
| twin : forall a b l,
    stag a = stag b -> sty a = sty b -> s_presence (si a) = s_presence (si b) -> s_user (si a) = s_user (si b) ->
    s_default (si a) = s_default (si b) -> s_is_key (si a) = s_is_key (si b) -> s_status (si a) = s_status (si b) ->
    s_access (si a) = s_access (si b) ->
    Permutation (skids b) l -> Forall2 Twin (skids a) l -> Twin a b.
(** The models of a device, as lookups see them *)
Definition DevModels (d : vdev) (m : model) : Prop := exists n t, Loads d n t /\ m = Model n (read_tree t).

(** As [Twin], with the same keys. *)
Inductive Twins : snode -> snode -> Prop :=
| twins : forall a b l,
    stag a = stag b -> sty a = sty b -> s_presence (si a) = s_presence (si b) -> s_user (si a) = s_user (si b) ->
    s_default (si a) = s_default (si b) -> s_is_key (si a) = s_is_key (si b) -> s_keys (si a) = s_keys (si b) ->
    s_status (si a) = s_status (si b) -> s_access (si a) = s_access (si b) ->
    Permutation (skids b) l -> Forall2 Twins (skids a) l -> Twins a b.
(** The children of a list have names that differ without their namespaces. *)
Definition local_name (c : xml) : string := snd (split_tag Brace (xtag c)).
Definition OneLocal (d : vdev) : Prop :=
  forall n t p x, Loads d n t -> At t p x -> get_attr "type" x = Some "list" -> NoDup (map local_name (xkids x)).
(** The schema of a device as the calculators see it (see XmlM.v): the roots of all models *)
Definition v_schema (d : vdev) : snode :=
  SNode (SInfo "" TRoot false false None false [] "" "") (flat_map (fun p => map read_node (xkids (snd p))) (v_models d)).
(** The config has this content. *)
Definition Holds (c : vcfg) (x : xml) : Prop := c_tops c = map xtag (xkids x).
