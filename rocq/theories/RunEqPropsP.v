(** Examples for the comparison of running-config diffs. *)
From Coq Require Import String Ascii List Bool Arith.
From Verif Require Import Base BaseP RunningM RunSpec RunAllP RunEqM RunEqSpec RunEqP.
Import ListNotations.
Open Scope string_scope.
Open Scope list_scope.

Theorem running_eq_same : forall t1 t2 t3 t4 d d', Forall one_line_text (t1 ++ t2 ++ t3 ++ t4) -> get_diff false t1 t2 = Ok d -> get_diff false t3 t4 = Ok d' ->
  Filled d -> Filled d' -> running_eq (t1, t2) (t3, t4) = Ok true -> d = d' /\ get_cli false t1 t2 = get_cli false t3 t4.
Proof.
  intros t1 t2 t3 t4 d d' U D D' F F' E. apply (running_eq_alike t1 t2 t3 t4 d d' U D D') in E. assert (X := alike_filled _ _ E F F'). subst d'. split; auto.
  unfold get_cli. rewrite D, D'. auto.
Qed.
Lemma running_eq_total : forall a b, exists r, running_eq a b = Ok r.
Proof.
  intros [t1 t2] [t3 t4]. unfold running_eq, running_text. cbn [fst snd]. destruct (running_total t1 t2 false) as (_ & _ & (s & E) & _). destruct (running_total t3 t4 false) as (_ & _ & (s' & E') & _).
  rewrite E, E'. cbn [bind]. eauto.
Qed.
Theorem running_eq_bool : forall t1 t2 t3 t4, Forall one_line_text (t1 ++ t2 ++ t3 ++ t4) -> running_bool t3 t4 = Ok false ->
  (running_eq (t1, t2) (t3, t4) = Ok true <-> running_bool t1 t2 = Ok false).
Proof.
  intros t1 t2 t3 t4 U B. destruct (get_diff_script t1 t2) as (s1 & s2 & d & d1 & _ & D & _). destruct (get_diff_script t3 t4) as (s3 & s4 & d3 & d4 & _ & D3 & _).
  unfold running_bool in *. rewrite D3 in B. cbn [bind] in B. destruct d3; [| discriminate].
  rewrite (running_eq_alike _ _ _ _ _ _ U D D3). rewrite D. cbn [bind]. split; intro H.
  - inversion H; subst. auto.
  - destruct d; [constructor | discriminate].
Qed.
Fixpoint one_b (s : string) : bool := match s with EmptyString => true | String c r => negb (Ascii.eqb c nl) && one_b r end.
Lemma one_ok : forall s, one_b s = true -> one_line_text s.
Proof. induction s as [| c s IH]; cbn; auto. intro H. apply andb_true_iff in H. destruct H as [A B]. split; auto. intro E. subst c. discriminate. Qed.
Lemma one_all : forall l, forallb one_b l = true -> Forall one_line_text l.
Proof. intros l H. rewrite forallb_forall in H. apply Forall_forall. intros x X. apply one_ok. auto. Qed.

(** Other configs with the same differences *)
Definition eq1 : list string := ["hostname r1"; "interface Gi1"; " mtu 1500"; " shutdown"; "ntp server 1.1.1.1"].
Definition eq2 : list string := ["hostname r1"; "interface Gi1"; " mtu 9000"; " shutdown"; "snmp-server contact a"].
Definition eq3 : list string := ["interface Gi1"; " description x"; " mtu 1500"; "ntp server 1.1.1.1"; "ip http server"].
Definition eq4 : list string := ["interface Gi1"; " description x"; " mtu 9000"; "snmp-server contact a"; "ip http server"].
Definition eq_diff : list item :=
  [It "interface Gi1" (Some [It "mtu 1500" None IMinus; It "mtu 9000" None IPlus]) ISame; It "ntp server 1.1.1.1" None IMinus; It "snmp-server contact a" None IPlus].
Lemma ex_same : Forall one_line_text (eq1 ++ eq2 ++ eq3 ++ eq4) /\ get_diff false eq1 eq2 = Ok eq_diff /\ get_diff false eq3 eq4 = Ok eq_diff /\ Filled eq_diff /\
  running_eq (eq1, eq2) (eq3, eq4) = Ok true /\ running_eq (eq1, eq2) (eq2, eq1) = Ok false.
Proof.
  split; [apply one_all; vm_compute; reflexivity |]. do 2 (split; [vm_compute; reflexivity |]). split; [repeat constructor; discriminate |]. split; vm_compute; reflexivity.
Qed.
Lemma ex_empty : exists t1 t2 t3 d d', running_eq (t1, t2) (t3, t2) = Ok true /\ get_diff false t1 t2 = Ok d /\ get_diff false t3 t2 = Ok d' /\ d <> d' /\
  get_cli false t1 t2 = Ok ["aaa new-model"] /\ get_cli false t3 t2 = Ok ["no aaa"; "!"; "aaa new-model"].
Proof.
  exists ["aaa"], ["aaa new-model"], ["aaa"; " Building configuration..."]. do 2 eexists. split; [vm_compute; reflexivity |]. split; [vm_compute; reflexivity |]. split; [vm_compute; reflexivity |].
  split; [discriminate |]. split; vm_compute; reflexivity.
Qed.
Lemma ex_reverse : exists t1 t2 t3 t4 d, get_diff false t1 t2 = Ok d /\ get_diff false t3 t4 = Ok d /\ running_eq (t1, t2) (t3, t4) = Ok true /\
  get_cli true t1 t2 = Ok ["no vlan 2"; "!"; "vlan 2"; "  name a"; "  state b"] /\ get_cli true t3 t4 = Ok ["no vlan 2"; "!"; "vlan 2"; "  name a"].
Proof.
  exists ["aaa"; "vlan 2"; " name a"; " state b"], ["vlan 2"; " name c"; " state b"; "aaa"], ["aaa"; "vlan 2"; " name a"], ["vlan 2"; " name c"; "aaa"]. eexists. repeat split; vm_compute; reflexivity.
Qed.
