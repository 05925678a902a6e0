(** Specification: requests made from names of models. *)
From Coq Require Import String List Bool.
From Verif Require Import Base XmlM TagM MDiffM CompatM CompatSpec ExecM.
Import ListNotations.
Open Scope string_scope.
Open Scope list_scope.

(** The models named by the caller, one or many *)
Definition Given (kw : kwargs) (ms : list string) : Prop :=
  kw_get "models" kw = Some (AList ms) \/ exists s, kw_get "models" kw = Some (AStr s) /\ ms = [s].
Definition NotGiven (kw : kwargs) : Prop := kw_get "models" kw = None \/ kw_get "models" kw = Some ANone.
(** A root of one of the models, with an access that is wanted *)
Definition RootOf (d : vdev) (ms accs : list string) (r : string) : Prop :=
  exists n t c a, In n ms /\ Loads d n t /\ In c (xkids t) /\ xtag c = r /\ get_attr "access" c = Some a /\ In a accs.
Definition Loaded (d : vdev) (n : string) : Prop := exists t, Loads d n t.
(** YANG distinguishes the nodes at the top of a module by name. *)
Definition OneTop (d : vdev) : Prop := forall n t, Loads d n t -> NoDup (map xtag (xkids t)).
Definition Unchanged (ks : list string) (kw kw' : kwargs) : Prop := forall k, ~ In k ks -> kw_get k kw' = kw_get k kw.

(** What reading operations must do: refuse models that are not loaded, refuse if there is
    nothing to read, otherwise ask for exactly the roots of the models. *)
Definition Asks (d : vdev) (accs : list string) (kw : kwargs) (out : res kwargs) : Prop :=
  (forall ms, Given kw ms ->
    ((exists m, In m ms /\ ~ Loaded d m) -> out = Err ModelMissing) /\
    ((forall m, In m ms -> Loaded d m) -> (forall r, ~ RootOf d ms accs r) -> out = Err ValueError) /\
    ((forall m, In m ms -> Loaded d m) -> (exists r, RootOf d ms accs r) ->
      exists kw' roots, out = Ok kw' /\ kw_get "filter" kw' = Some (AFilter roots) /\ NoDup roots /\
        (forall r, In r roots <-> RootOf d ms accs r) /\ kw_get "models" kw' = None /\ Unchanged ["filter"; "models"] kw kw')) /\
  (NotGiven kw -> exists kw', out = Ok kw' /\ kw_get "models" kw' = None /\ Unchanged ["models"] kw kw').

(** The order of the parameters of edit-config, RFC 6241 section 7.2 *)
Definition rank (p : part) : nat :=
  match p with PTarget _ => 0 | PDefault _ => 1 | PTest _ => 2 | PError _ => 3 | PConfig _ | PText _ => 4 end.
Inductive InOrder : list part -> Prop :=
| io_nil : InOrder []
| io_cons : forall p l, (forall q, In q l -> rank p <= rank q) -> InOrder l -> InOrder (p :: l).
