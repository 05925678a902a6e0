(** Specification: what the operators of configs and deltas are for. *)
From Coq Require Import String List Bool ZArith.
From Verif Require Import Base XmlM CalcM NetconfM DataSpec DeltaSpec MoveSpec ConfigM ConfigSpec TagM MDiffSpec CompatM CompatSpec OperM.
Import ListNotations.
Open Scope string_scope.
Open Scope list_scope.

(** ** Kinds of operands, and of results *)
Inductive kind := KConfig | KDelta | KElement | KElse.
Definition kind_of (v : val) : kind :=
  match v with PCfg _ => KConfig | PDel _ => KDelta | PEle _ => KElement | _ => KElse end.
Inductive Sum : kind -> kind -> kind -> Prop :=
| sum_cc : Sum KConfig KConfig KConfig
| sum_cd : Sum KConfig KDelta KConfig
| sum_ce : Sum KConfig KElement KConfig
| sum_dc : Sum KDelta KConfig KConfig.
Inductive Difference : kind -> kind -> kind -> Prop :=
| dif_cc : Difference KConfig KConfig KDelta
| dif_cd : Difference KConfig KDelta KConfig.

(** ** Two configs that may be combined (see CompatSpec.v): the models that they use say
    the same on their devices. *)
Definition Suited (a b : cfg) : Prop :=
  let da := g_dev a in let db := g_dev b in
  let oa := OCfg (g_tops a) in let ob := OCfg (g_tops b) in
  Fine da /\ Fine db /\ Stored da /\ Stored db /\ OneLocal da /\ OneLocal db /\
  (v_id da = v_id db -> da = db) /\
  RootsLoaded oa /\ RootsLoaded ob /\ Agree oa ob /\
  (v_id da <> v_id db -> Diffable da /\ Diffable db /\
     forall n, Uses oa n \/ Uses ob n -> In n (v_loadable da) /\ In n (v_loadable db)).
Definition Proper (a : cfg) : Prop := wfs (g_schema a) = true /\ IsConfig (g_schema a) (g_ele a).

(** [v] is a config on the device of [a] that equals [b], whoever is asked. *)
Definition IsLike (v : res val) (a b : cfg) : Prop :=
  exists r, v = Ok (PCfg r) /\ g_dev r = g_dev a /\ Proper r /\
    py_cmp CEq (PCfg r) (PCfg b) = Ok true /\ py_cmp CEq (PCfg b) (PCfg r) = Ok true.

(** ** Ways to hand over the children [ks] of a config *)
Definition nc (t : string) : string := ("{urn:ietf:params:xml:ns:netconf:base:1.0}" ++ t)%string.
Inductive Envelope (ks : list xml) : xml -> Prop :=
| env_config : forall tx at_, Envelope ks (Elem (nc "config") tx at_ ks)
| env_data : forall tx at_, Envelope ks (Elem (nc "data") tx at_ ks)
| env_reply : forall tx at_ tx' at' l r,
    (forall c, In c (l ++ r) -> xtag c <> nc "data") ->
    Envelope ks (Elem (nc "rpc-reply") tx at_ (l ++ Elem (nc "data") tx' at' ks :: r))
| env_edit : forall tx at_ tx' at' l r,
    (forall c, In c (l ++ r) -> xtag c <> nc "config") ->
    Envelope ks (Elem (nc "edit-config") tx at_ (l ++ Elem (nc "config") tx' at' ks :: r))
| env_rpc : forall tx at_ e l r, 
    (forall c, In c (l ++ r) -> xtag c <> nc "edit-config") -> xtag e = nc "edit-config" ->
    Envelope ks e -> Envelope ks (Elem (nc "rpc") tx at_ (l ++ e :: r)).

(** ** Options that the documentation of ConfigDelta allows *)
Definition GoodPreferences (o : sopts) : Prop :=
  In (so_create o) ["merge"; "create"; "replace"] /\ In (so_replace o) ["merge"; "replace"] /\ In (so_delete o) ["delete"; "remove"].
Definition GoodType (o : sopts) : Prop := In (so_type o) ["minimum"; "minimum-replace"; "replace"].
Definition GoodDepth (r : rarg) : Prop := r = RNone \/ exists z, r = RInt z /\ (0 <= z)%Z.
(** What the strings mean to the calculation; a type that does not exist means 'minimum'. *)
Definition Reads (s : sopts) (o : opts) : Prop :=
  In (so_create s, o_create o) [("merge", PCMerge); ("create", PCCreate); ("replace", PCReplace)] /\
  In (so_replace s, o_replace o) [("merge", PRMerge); ("replace", PRReplace)] /\
  In (so_delete s, o_delete o) [("delete", PDDelete); ("remove", PDRemove)] /\
  (In (so_type s, o_type o) [("minimum", DMinimum); ("minimum-replace", DMinimumReplace); ("replace", DReplace)] \/
   ~ GoodType s /\ o_type o = DMinimum) /\
  o_depth o = so_depth s.

(** What a comparison of two configs of one device asks *)
Definition Asks (o : cop) (s : snode) (x y : xml) : Prop :=
  match o with
  | CLe => Contained s x y
  | CGe => Contained s y x
  | CLt => Contained s x y /\ ~ Contained s y x
  | CGt => Contained s y x /\ ~ Contained s x y
  | CEq => Contained s x y /\ Contained s y x
  | CNe => ~ (Contained s x y /\ Contained s y x)
  end.
