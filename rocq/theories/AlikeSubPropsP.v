(** Proofs of the properties of differences of equal operands. *)
From Coq Require Import String Ascii List Bool Arith ZArith Lia Permutation.
From Verif Require Import Base BaseP XmlM CalcM CalcP NetconfM ConfigM DataSpec DataP CompareP DeltaSpec DeltaR ConfigSpec ConfigP CompatP DeltaPropsP ExampleM ExampleDelta
  AlikeSpec AlikeP AlikeSumP AlikeDataP AlikeCheckP AlikePropsP AlikeDeltaP.
Import ListNotations.
Open Scope string_scope.
Open Scope list_scope.

Theorem delta_alike : forall o s a a' b b', wfs s = true -> IsConfig s a -> IsConfig s a' -> SameData s a a' -> IsConfig s b -> IsConfig s b' -> SameData s b b' ->
  NoSwitch s b b -> Alikewise (Alike s) (delta_nc s (Delta a b o)) (delta_nc s (Delta a' b' o)).
Proof.
  intros o s a a' b b' W Ca Ca' Da Cb Cb' Db N. unfold delta_nc. simpl. apply nc_sub_alike; auto using config_data_alike; [destruct Ca; auto | destruct Cb; auto].
Qed.

Theorem step_agree : forall o s x x' a a' b b', wfs s = true -> IsConfig s x -> IsConfig s x' -> SameData s x x' ->
  IsConfig s a -> IsConfig s a' -> SameData s a a' -> IsConfig s b -> IsConfig s b' -> SameData s b b' -> NoSwitch s b b ->
  Agree s (config_add_delta s x (Delta a b o)) (config_add_delta s x' (Delta a' b' o)).
Proof.
  intros o s x x' a a' b b' W Cx Cx' Dx Ca Ca' Da Cb Cb' Db N. apply agree. unfold config_add_delta.
  apply (aw_bind (Alike s)); [apply delta_alike; auto |]. intros d d' D.
  apply config_add_alike; auto; [destruct Cx as (_ & T & _); auto | apply config_data_alike; auto].
Qed.

(** ** Examples *)
Lemma ex_eq_data : forall x y, valid ex_schema x = true -> valid ex_schema y = true -> xtag x = xtag y -> cmp_eq ex_schema x y = Ok true -> SameData ex_schema x y.
Proof.
  intros x y V1 V2 T E. destruct (cmp_eq_iff ex_schema x y V1 V2 T) as (e & B1 & B2). apply B2. congruence.
Qed.

Definition ex_b' : xml :=
  e_config
    [ e_leaf "banner" "hello";
      e_node "sys"
        [ ex_rule "5" "deny"; ex_rule "10" "permit"; ex_rule "15" "permit";
          ex_user "eve" "op"; e_leaf "mtu" "9000"; e_leaf "tcp-port" "22"; ex_user "bob" "admin";
          e_leaf "dns" "9.9.9.9"; e_leaf "dns" "8.8.8.8"; e_leaf "dns" "1.1.1.1"; e_leaf "host" "r2";
          e_leaf "ntp" "n2" ];
      e_leaf "label" "x" ].

Lemma delta_case : wfs ex_schema = true /\ IsConfig ex_schema ex_a /\ IsConfig ex_schema ex_a' /\ SameData ex_schema ex_a ex_a' /\
  IsConfig ex_schema ex_b /\ IsConfig ex_schema ex_b' /\ SameData ex_schema ex_b ex_b' /\ NoSwitch ex_schema ex_b ex_b /\
  exists d d', delta_nc ex_schema (Delta ex_a ex_b default_opts) = Ok d /\ delta_nc ex_schema (Delta ex_a' ex_b' default_opts) = Ok d' /\ d <> d' /\ length (xkids d) = 2.
Proof.
  split; [vm_compute; reflexivity |]. split; [repeat split; vm_compute; reflexivity |]. split; [repeat split; vm_compute; reflexivity |].
  split; [apply ex_eq_data; vm_compute; reflexivity |]. split; [repeat split; vm_compute; reflexivity |]. split; [repeat split; vm_compute; reflexivity |].
  split; [apply ex_eq_data; vm_compute; reflexivity |]. split; [apply (compat_NoSwitch false); vm_compute; reflexivity |].
  do 2 eexists. split; [vm_compute; reflexivity |]. split; [vm_compute; reflexivity |]. split; [discriminate | reflexivity].
Qed.

(** A destination with both cases of a choice, written in two ways *)
Definition ex_opt : xml := e_config [ e_node "sys" [ e_leaf "host" "r1"; e_leaf "udp-opt" "1" ] ].
Definition ex_both : xml := e_config [ e_node "sys" [ e_leaf "host" "r1"; e_leaf "tcp-port" "22"; e_leaf "udp-port" "69" ] ].
Definition ex_both' : xml := e_config [ e_node "sys" [ e_leaf "host" "r1"; e_leaf "udp-port" "69"; e_leaf "tcp-port" "22" ] ].

Lemma delta_refuted : exists s a b b' r r', wfs s = true /\ IsConfig s a /\ IsConfig s b /\ IsConfig s b' /\ SameData s b b' /\
  config_add_delta s a (Delta a b default_opts) = Ok r /\ config_add_delta s a (Delta a b' default_opts) = Ok r' /\
  valid s r = true /\ valid s r' = true /\ ~ SameData s r r' /\ cmp_eq s r r' = Ok false.
Proof.
  exists ex_schema, ex_opt, ex_both, ex_both'. do 2 eexists.
  split; [vm_compute; reflexivity |]. split; [repeat split; vm_compute; reflexivity |]. split; [repeat split; vm_compute; reflexivity |].
  split; [repeat split; vm_compute; reflexivity |]. split; [apply ex_eq_data; vm_compute; reflexivity |].
  split; [vm_compute; reflexivity |]. split; [vm_compute; reflexivity |]. split; [vm_compute; reflexivity |]. split; [vm_compute; reflexivity |].
  split; [| vm_compute; reflexivity]. intro D.
  match type of D with SameData _ ?r ?r' => destruct (cmp_eq_iff ex_schema r r') as (e & E1 & E2); [vm_compute; reflexivity | vm_compute; reflexivity | reflexivity |] end.
  apply E2 in D. subst e. vm_compute in E1. discriminate.
Qed.
