(** C79: the values of a leaf. *)
From Coq Require Import String Ascii List Bool.
From Verif Require Import Base XmlM CompileM CompileSpec CompileP CompilePropsP TypeM TypeSpec TypeP TypePropsP.
Import ListNotations.
Open Scope string_scope.
Open Scope list_scope.

(** ** C79
    Full statement: the attribute [values] of a leaf lists exactly the names its type admits,
    through typedefs, unions and restrictions. Missing from the proved part: types that keep
    some enums of a typedef, names with a bar, and what C48 says of identities. *)
Theorem C79_values_partial : forall (I : mstmt -> string -> list string) ids pre, (forall m b, identityref_values ids pre m b = Ok (I m b)) ->
  forall t, Typed (Unrestricted I) t -> (forall v, Admits I t v -> Plain v) ->
  exists s, type_values ids pre t = Ok s /\ (forall v, Item v s <-> Admits I t v) /\ (s = "" <-> forall v, ~ Admits I t v).
Proof. exact values_items. Qed.
Print Assumptions C79_values_partial.

Theorem C79_leaf_partial : forall (I : mstmt -> string -> list string) ids pre local, (forall m b, identityref_values ids pre m b = Ok (I m b)) ->
  forall t, Typed (Unrestricted I) t -> (forall v, Admits I t v -> Plain v) -> (t_arg t = "identityref" -> t_base t <> None) ->
  exists d v u, leaf_type ids pre local (Some t) = Ok (Some (d, v, u)) /\
    (forall x, Item x v <-> Admits I t x) /\
    (t_arg t <> "leafref" -> t_arg t <> "identityref" -> d = t_arg t) /\
    (forall b, t_arg t = "identityref" -> t_base t = Some b -> d = ("identityref:" ++ b)%string) /\
    (t_arg t <> "union" -> u = None) /\
    (t_arg t = "union" -> (forall y, In y (t_members t) -> Plain (t_arg y)) ->
       exists w, u = Some w /\ forall x, Item x w <-> exists y, In y (t_members t) /\ t_arg y = x).
Proof. exact leaf_told. Qed.
Print Assumptions C79_leaf_partial.

Example C79_case : (forall m b, identityref_values ty_ids ty_pre m b = Ok (ty_I m b)) /\ Typed (Unrestricted ty_I) ty_all /\
  (forall v, Admits ty_I ty_all v -> Plain v) /\
  leaf_type ty_ids ty_pre "up" (Some ty_all) =
    Ok (Some ("union", "red|blue|dark green|true|false|up:dog|up:cat", Some "color|boolean|identityref|string")).
Proof. split; [exact ty_identities |]. split; [exact ty_all_ok |]. split; [exact ty_all_plain | vm_compute; reflexivity]. Qed.

(** A leafref: the datatype is an arrow and a path with the meaning of the one written. *)
Theorem C79_leafref_partial : forall local p t, t_arg t = "leafref" -> t_path t = Some (show p) ->
  psteps p <> [] -> Forall SimpleStep (psteps p) -> Steady local local (psteps p) ->
  exists q, datatype local t = Ok ("-> " ++ show q)%string /\ absolute q = absolute p /\
    compact_meaning local (psteps q) = map (yang_meaning local) (psteps p).
Proof.
  intros local p t A B N S T. destruct (compact_keeps local p N S T) as (q & E & AB & _ & M & _).
  exists q. unfold datatype. rewrite A, B, E. auto.
Qed.
Print Assumptions C79_leafref_partial.
Example C79_leafref_case : datatype "m" (YType "leafref" true None [] None (Some (show ex_path)) [] ex_u) = Ok "-> ../../a/b/if:c/d/m:e".
Proof. vm_compute. reflexivity. Qed.

(** A type that keeps some enums of a typedef has no values at all. *)
Theorem C79_restricted : forall ids pre a td en b p ms m, ~ In a value_types -> type_values ids pre (YType a true (Some td) en b p ms m) = Ok "".
Proof. exact restricted_lost. Qed.
Print Assumptions C79_restricted.
Theorem C79_restricted_refuted : exists t v, Typed (fun _ => True) t /\ (forall I, Admits I t v) /\ Plain v /\ type_values ty_ids ty_pre t = Ok "".
Proof.
  exists ty_some, "red". split.
  - apply ty_typedef; [simpl; intuition discriminate | | discriminate | exact I]. apply ty_builtin; [intros t [] | exact I].
  - split; [intro I; apply ad_typedef; [apply ad_enum; simpl; auto | right; simpl; auto] |].
    split; [split; [discriminate | simpl; repeat split; discriminate] | vm_compute; reflexivity].
Qed.
Print Assumptions C79_restricted_refuted.

(** A name with a bar is taken for two names. *)
Theorem C79_bar_refuted : exists t s, Typed (fun _ => True) t /\ type_values ty_ids ty_pre t = Ok s /\
  Item "b" s /\ forall I, ~ Admits I t "b".
Proof.
  exists ty_bar, "a|b|c". split; [apply ty_builtin; [intros t [] | exact I] |]. split; [vm_compute; reflexivity |]. split.
  - split; [split; [discriminate | simpl; repeat split; discriminate] |]. exists "a|", "|c". split; [reflexivity |].
    split; [right; exists "a"; reflexivity | right; exists "c"; reflexivity].
  - intros I A. inversion A; subst. simpl in *. intuition discriminate.
Qed.
Print Assumptions C79_bar_refuted.
