(** Parts of the theorems about sums, and examples. *)
From Coq Require Import String Ascii List Bool Arith ZArith Lia.
From Verif Require Import Base BaseP XmlM CalcM CalcP NetconfM ConfigM DataSpec DataP CompareP DeltaSpec MoveSpec ConfigSpec SumSpec CompatP DeltaPropsP ExampleM ExampleDelta SumP.
Import ListNotations.
Open Scope string_scope.
Open Scope list_scope.

Theorem order_exactly : forall o s a b,
  wfs s = true -> sty s = TRoot -> IsConfig s a -> IsConfig s b -> orderable s a = true -> orderable s b = true ->
  NoSwitch s a a -> NoSwitch s b b -> RootKept o s a b ->
  exists d r, delta_nc s (Delta a b o) = Ok d /\ nc_add s a d = Ok r /\
    forall p s' na nb nr t cs us vs ws, At s a p s' na -> At s b p s' nb -> At s r p s' nr -> ~ Whole o s a b p ->
      Defines s' t cs -> s_user (si cs) = true ->
      Order s' t (xkids na) us -> Order s' t (xkids nb) vs -> Order s' t (xkids nr) ws ->
      filter (among vs) ws = replay us vs.
Proof.
  intros. destruct (landing o s a b) as (d & r & D & R & _ & L & _); auto. exists d, r. split; auto. split; auto. exact (ld_order o s a b r L).
Qed.

Theorem stays_exactly : forall o s a b,
  wfs s = true -> sty s = TRoot -> IsConfig s a -> IsConfig s b -> orderable s a = true -> orderable s b = true ->
  NoSwitch s a a -> NoSwitch s b b -> RootKept o s a b ->
  exists d r, delta_nc s (Delta a b o) = Ok d /\ nc_add s a d = Ok r /\
    forall p s' na nb nr c cs u, At s a p s' na -> At s b p s' nb -> At s r p s' nr -> ~ Whole o s a b p ->
      Defines s' (xtag c) cs -> Ident cs c u -> ~ HasKid s' nb u ->
      (In c (xkids nr) <-> In c (xkids na) /\ ~ ReplLevel o (length p) /\ exists cb, In cb (xkids nb) /\ OtherCase s' c cb).
Proof.
  intros. destruct (landing o s a b) as (d & r & D & R & _ & L & _); auto. exists d, r. split; auto. split; auto. exact (ld_left o s a b r L).
Qed.

Theorem whole_exactly : forall o s a b,
  wfs s = true -> sty s = TRoot -> IsConfig s a -> IsConfig s b -> orderable s a = true -> orderable s b = true ->
  NoSwitch s a a -> NoSwitch s b b -> RootKept o s a b ->
  exists d r, delta_nc s (Delta a b o) = Ok d /\ nc_add s a d = Ok r /\
    forall p, Whole o s a b p ->
      (forall v, Holds s r p v <-> Holds s b p v) /\ (forall t us, UserOrder s r p t us <-> UserOrder s b p t us).
Proof.
  intros. destruct (landing o s a b) as (d & r & D & R & _ & L & _); auto. exists d, r. split; auto. split; auto. exact (ld_whole o s a b r L).
Qed.

Theorem types_exactly : forall c r d n s a b,
  wfs s = true -> sty s = TRoot -> IsConfig s a -> IsConfig s b -> orderable s a = true -> orderable s b = true ->
  NoSwitch s a a -> NoSwitch s b b -> (r = PRMerge \/ TopLeafListsAgree s a b) ->
  (Reaches s (config_add_delta s a (Delta a b (Opts c r d DReplace n))) b <-> Fits (Opts c r d DReplace n) s a b) /\
  (Reaches s (config_add_delta s a (Delta a b (Opts c r d DMinimumReplace n))) b <-> Fits (Opts c r d DMinimumReplace n) s a b).
Proof. intros. split; apply reaches_fits; auto; unfold RootKept; cbn [o_replace]; tauto. Qed.

Theorem switch_never : forall o s a b,
  wfs s = true -> sty s = TRoot -> IsConfig s a -> IsConfig s b -> orderable s a = true -> orderable s b = true ->
  NoSwitch s a a -> NoSwitch s b b -> o_replace o = PRMerge -> o_type o <> DReplace -> ~ NoSwitch s a b ->
  ~ Reaches s (config_add_delta s a (Delta a b o)) b.
Proof. intros o s a b W R Ca Cb Oa Ob Sa Sb HR HT N X. apply N. apply (reaches_exactly o s a b) in X; auto. tauto. Qed.

Lemma four_configs : IsConfig ex_schema ex_abc /\ IsConfig ex_schema ex_cba /\ IsConfig ex_schema ex_tcp /\ IsConfig ex_schema ex_udp /\
  (forall x, In x [ex_abc; ex_cba; ex_tcp; ex_udp] -> orderable ex_schema x = true /\ NoSwitch ex_schema x x).
Proof.
  repeat (split; [repeat split; vm_compute; reflexivity |]).
  intros x [H | [H | [H | [H | []]]]]; subst x; (split; [vm_compute; reflexivity | apply (compat_NoSwitch false); vm_compute; reflexivity]).
Qed.

Lemma exactly_case : ~ EndsInPlace ex_schema ex_abc ex_cba /\ ~ NoSwitch ex_schema ex_tcp ex_udp /\ EndsInPlace ex_schema ex_abc ex_cbxa.
Proof.
  destruct four_configs as (C1 & C2 & C3 & C4 & H).
  assert (O : forall x, In x [ex_abc; ex_cba; ex_tcp; ex_udp] -> orderable ex_schema x = true) by (intros x Hx; apply H; auto).
  assert (S : forall x, In x [ex_abc; ex_cba; ex_tcp; ex_udp] -> NoSwitch ex_schema x x) by (intros x Hx; apply H; auto).
  assert (NR : forall a b r, config_add_delta ex_schema a (config_sub b a) = Ok r -> cmp_eq ex_schema r b = Ok false ->
            ~ Reaches ex_schema (config_add_delta ex_schema a (config_sub b a)) b).
  { intros a b r E1 E2 (x & X1 & _ & _ & X2). congruence. }
  assert (W : wfs ex_schema = true) by (vm_compute; reflexivity). assert (R : sty ex_schema = TRoot) by reflexivity.
  split; [| split].
  - intro E. eapply (NR ex_abc ex_cba); [vm_compute; reflexivity | vm_compute; reflexivity |].
    apply (reaches_exactly default_opts ex_schema ex_abc ex_cba); auto; try (apply O; simpl; tauto); try (apply S; simpl; tauto); [discriminate |].
    split; auto. apply (compat_NoSwitch false); vm_compute; reflexivity.
  - intro N. eapply (NR ex_tcp ex_udp); [vm_compute; reflexivity | vm_compute; reflexivity |].
    apply (reaches_exactly default_opts ex_schema ex_tcp ex_udp); auto; try (apply O; simpl; tauto); try (apply S; simpl; tauto); [discriminate |].
    split; auto. apply inplace_Ends; vm_compute; reflexivity.
  - apply inplace_Ends; vm_compute; reflexivity.
Qed.

Lemma reversed_case : exists a b c, NoDup [a; b; c] /\ replay [a; b; c] [c; b; a] <> [c; b; a] /\ replay [a; b; c] [c; b; a] <> [a; b; c].
Proof.
  exists ("a", KNone), ("b", KNone), ("c", KNone). split; [| split; vm_compute; discriminate].
  repeat constructor; simpl; intuition discriminate.
Qed.

Definition sys_schema : snode := match skids ex_schema with k :: _ => k | [] => ex_schema end.
Definition sys_of (x : xml) : xml := match xkids x with k :: _ => k | [] => x end.
Definition kid2 (x : xml) : xml := match xkids x with _ :: k :: _ => k | _ => x end.

Lemma stays_case : exists s' na nb c cb, At ex_schema ex_tcp [("sys", KNone)] s' na /\ At ex_schema ex_udp [("sys", KNone)] s' nb /\
  In c (xkids na) /\ In cb (xkids nb) /\ OtherCase s' c cb /\ ~ HasKid s' nb ("tcp-port", KNone).
Proof.
  destruct four_configs as (_ & _ & C3 & C4 & _).
  exists sys_schema, (sys_of ex_tcp), (sys_of ex_udp), (kid2 (sys_of ex_tcp)), (kid2 (sys_of ex_udp)).
  assert (A1 : At ex_schema ex_tcp [("sys", KNone)] sys_schema (sys_of ex_tcp)) by (apply get_at_iff; [apply C3 | vm_compute; reflexivity]).
  assert (A2 : At ex_schema ex_udp [("sys", KNone)] sys_schema (sys_of ex_udp)) by (apply get_at_iff; [apply C4 | vm_compute; reflexivity]).
  split; auto. split; auto. split; [simpl; tauto |]. split; [simpl; tauto |]. split.
  - exists (s_leaf "tcp-port"), (s_leaf "udp-port"), 0, 0, 0, 1, [2],
      (s_case "tcp" [ s_leaf "tcp-port" ]), (s_case "udp" [ s_leaf "udp-port"; s_leaf "udp-opt" ]).
    assert (L0 : Locus sys_schema [2] (s_choice "transport" [ s_case "tcp" [ s_leaf "tcp-port" ]; s_case "udp" [ s_leaf "udp-port"; s_leaf "udp-opt" ] ]))
      by (constructor; reflexivity).
    assert (L1 : Locus sys_schema [0; 2] (s_case "tcp" [ s_leaf "tcp-port" ])) by (eapply loc_down; [exact L0 | left; reflexivity | reflexivity]).
    assert (L2 : Locus sys_schema [1; 2] (s_case "udp" [ s_leaf "udp-port"; s_leaf "udp-opt" ]))
      by (eapply loc_down; [exact L0 | left; reflexivity | reflexivity]).
    split; [apply schema_child_Defines; vm_compute; reflexivity |]. split; [apply schema_child_Defines; vm_compute; reflexivity |].
    split; [eapply loc_down; [exact L1 | right; reflexivity | reflexivity] |].
    split; [eapply loc_down; [exact L2 | right; reflexivity | reflexivity] |].
    auto.
  - intros (c & cs & H1 & H2 & H3).
    assert (G : At sys_schema (sys_of ex_udp) [("tcp-port", KNone)] cs c) by (eapply at_down; eauto; constructor).
    apply get_at_iff in G; [vm_compute in G; discriminate | vm_compute; reflexivity].
Qed.

(** Swapped entries where a third one is taken away: ex_ba against ex_abc. *)
Definition ex_ba : xml := e_config [e_node "sys" [ex_rule "2" "permit"; ex_rule "1" "permit"]].

Lemma undo_exactly : forall o s a b,
  wfs s = true -> sty s = TRoot -> IsConfig s a -> IsConfig s b -> orderable s a = true -> orderable s b = true ->
  NoSwitch s a a -> NoSwitch s b b ->
  (Reaches s (config_sub_delta s b (Delta a b o)) a <-> EndsInPlace s b a /\ NoSwitch s b a).
Proof.
  intros o s a b W R Ca Cb Oa Ob Na Nb.
  exact (reaches_exactly default_opts s b a W R Cb Ca Ob Oa Nb Na eq_refl (fun H => ltac:(discriminate H))).
Qed.

Lemma one_way : exists s a b r,
  wfs s = true /\ sty s = TRoot /\ IsConfig s a /\ IsConfig s b /\ orderable s a = true /\ orderable s b = true /\
  NoSwitch s a b /\ Reaches s (config_add_delta s a (config_sub b a)) b /\
  config_sub_delta s b (config_sub b a) = Ok r /\ cmp_eq s r a = Ok false.
Proof.
  exists ex_schema, ex_abc, ex_ba. eexists. split; [vm_compute; reflexivity |]. split; [vm_compute; reflexivity |].
  split; [repeat split; vm_compute; reflexivity |]. split; [repeat split; vm_compute; reflexivity |].
  split; [vm_compute; reflexivity |]. split; [vm_compute; reflexivity |].
  split; [apply (compat_NoSwitch false); vm_compute; reflexivity |].
  split; [| split; vm_compute; reflexivity].
  apply (reaches_exactly default_opts ex_schema ex_abc ex_ba); try (vm_compute; reflexivity); try (repeat split; vm_compute; reflexivity);
    try (apply (compat_NoSwitch false); vm_compute; reflexivity); [discriminate |].
  split; [apply inplace_Ends; vm_compute; reflexivity | apply (compat_NoSwitch false); vm_compute; reflexivity].
Qed.

Lemma undo_case : EndsInPlace ex_schema ex_abc ex_ba /\ ~ EndsInPlace ex_schema ex_ba ex_abc /\ NoSwitch ex_schema ex_ba ex_abc /\
  EndsInPlace ex_schema ex_cbxa ex_abc.
Proof.
  assert (S : NoSwitch ex_schema ex_ba ex_abc) by (apply (compat_NoSwitch false); vm_compute; reflexivity).
  split; [apply inplace_Ends; vm_compute; reflexivity |]. split; [| split; [exact S | apply inplace_Ends; vm_compute; reflexivity]].
  intro E. assert (X : Reaches ex_schema (config_sub_delta ex_schema ex_ba (config_sub ex_ba ex_abc)) ex_abc).
  { apply (undo_exactly default_opts ex_schema ex_abc ex_ba); auto; try (vm_compute; reflexivity);
      try (repeat split; vm_compute; reflexivity); apply (compat_NoSwitch false); vm_compute; reflexivity. }
  destruct X as (x & X1 & _ & _ & X2). vm_compute in X1. injection X1 as X1. subst x. vm_compute in X2. discriminate.
Qed.

(** ** Options that replace *)
Definition at_depth (n : Z) : opts := Opts PCMerge PRMerge PDDelete DReplace n.
Definition by_replace : opts := Opts PCMerge PRReplace PDDelete DMinimum 0%Z.
(** Reordered rules beside a leaf-list that changes, and beside one that does not *)
Definition ex_abc_dns : xml := e_config [e_node "sys" [ex_rule "1" "permit"; ex_rule "2" "permit"; ex_rule "3" "deny"; e_leaf "dns" "8.8.8.8"]].
Definition ex_cba_dns : xml := e_config [e_node "sys" [ex_rule "3" "deny"; ex_rule "2" "permit"; ex_rule "1" "permit"; e_leaf "dns" "9.9.9.9"]].

Definition six_pairs : list (opts * (xml * xml)) :=
  [ (at_depth 0, (ex_abc, ex_cba)); (at_depth 1, (ex_tcp, ex_udp)); (by_replace, (ex_abc_dns, ex_cba_dns));
    (at_depth 1, (ex_abc, ex_cba)); (at_depth 2, (ex_tcp, ex_udp)); (by_replace, (ex_abc, ex_cba)) ].

Definition ready (p : opts * (xml * xml)) : Prop := let '(o, (a, b)) := p in
  IsConfig ex_schema a /\ IsConfig ex_schema b /\ orderable ex_schema a = true /\ orderable ex_schema b = true /\
  NoSwitch ex_schema a a /\ NoSwitch ex_schema b b /\ RootKept o ex_schema a b.

Lemma six_ready : forall p, In p six_pairs -> ready p.
Proof.
  intros p H. unfold six_pairs in H. repeat (destruct H as [<- | H]; [
    repeat (split; [first [repeat split; vm_compute; reflexivity | apply (compat_NoSwitch false); vm_compute; reflexivity] |]);
    right; right; apply differ_iff; vm_compute; reflexivity |]). destruct H.
Qed.

Lemma fits_yes : forall o a b r, ready (o, (a, b)) -> config_add_delta ex_schema a (Delta a b o) = Ok r -> IsConfig ex_schema r ->
  cmp_eq ex_schema r b = Ok true -> Fits o ex_schema a b.
Proof.
  intros o a b r (Ca & Cb & Oa & Ob & Na & Nb & K) R C E. apply (reaches_fits o ex_schema a b); auto.
  exists r. split; auto. split; auto. split; auto. destruct C as (C1 & C2 & _), Cb as (Cb1 & Cb2 & _).
  destruct (cmp_eq_iff ex_schema r b C1 Cb1) as (e & E1 & E2); [congruence |]. apply E2. congruence.
Qed.

Lemma fits_no : forall o a b r, ready (o, (a, b)) -> config_add_delta ex_schema a (Delta a b o) = Ok r ->
  cmp_eq ex_schema r b = Ok false -> ~ Fits o ex_schema a b.
Proof.
  intros o a b r (Ca & Cb & Oa & Ob & Na & Nb & K) R E F. apply (reaches_fits o ex_schema a b) in F; auto.
  destruct F as (x & X1 & _ & _ & X2). congruence.
Qed.

Lemma fits_case : Fits (at_depth 0) ex_schema ex_abc ex_cba /\ Fits (at_depth 1) ex_schema ex_tcp ex_udp /\
  Fits by_replace ex_schema ex_abc_dns ex_cba_dns /\
  ~ Fits (at_depth 1) ex_schema ex_abc ex_cba /\ ~ Fits (at_depth 2) ex_schema ex_tcp ex_udp /\ ~ Fits by_replace ex_schema ex_abc ex_cba.
Proof.
  assert (Y : forall o a b, In (o, (a, b)) six_pairs -> forall r, config_add_delta ex_schema a (Delta a b o) = Ok r -> IsConfig ex_schema r ->
    cmp_eq ex_schema r b = Ok true -> Fits o ex_schema a b) by (intros o a b H r; apply fits_yes; apply six_ready; auto).
  assert (N : forall o a b, In (o, (a, b)) six_pairs -> forall r, config_add_delta ex_schema a (Delta a b o) = Ok r ->
    cmp_eq ex_schema r b = Ok false -> ~ Fits o ex_schema a b) by (intros o a b H r; apply fits_no; apply six_ready; auto).
  repeat (split; [first [eapply Y; [simpl; tauto | vm_compute; reflexivity | repeat split; vm_compute; reflexivity | vm_compute; reflexivity]
    | eapply N; [simpl; tauto | vm_compute; reflexivity | vm_compute; reflexivity]] |]).
  eapply N; [simpl; tauto | vm_compute; reflexivity | vm_compute; reflexivity].
Qed.

Lemma whole_case : Whole (at_depth 0) ex_schema ex_abc ex_cba [("sys", KNone)] /\
  Whole by_replace ex_schema ex_abc_dns ex_cba_dns [("sys", KNone)] /\ ~ Whole by_replace ex_schema ex_abc ex_cba [("sys", KNone)].
Proof.
  assert (A : forall x, valid ex_schema x = true -> get_at ex_schema x [("sys", KNone)] = Some (sys_schema, sys_of x) ->
    At ex_schema x [("sys", KNone)] sys_schema (sys_of x)) by (intros x V G; apply get_at_iff; auto).
  split; [| split].
  - exists ("sys", KNone), [], [], sys_schema, (sys_of ex_abc), (sys_of ex_cba). split; auto.
    split; [apply A; vm_compute; reflexivity |]. split; [apply A; vm_compute; reflexivity |].
    left. exists 0. repeat split.
  - exists ("sys", KNone), [], [], sys_schema, (sys_of ex_abc_dns), (sys_of ex_cba_dns). split; auto.
    split; [apply A; vm_compute; reflexivity |]. split; [apply A; vm_compute; reflexivity |].
    right. split; [intros [X _]; discriminate |]. split; auto. apply differ_iff; vm_compute; reflexivity.
  - intros (u & q & r & s' & na & nb & E & A1 & A2 & X). destruct q as [| v q]; [| discriminate E]. injection E as E1 E2. subst u.
    destruct X as [(m & E & (X & _)) | (_ & _ & X)]; [discriminate |].
    apply get_at_iff in A1; [| vm_compute; reflexivity]. apply get_at_iff in A2; [| vm_compute; reflexivity].
    vm_compute in A1, A2. injection A1 as B1 B2. injection A2 as B3 B4. apply X. subst s' na nb. apply differ_iff; vm_compute; reflexivity.
Qed.
