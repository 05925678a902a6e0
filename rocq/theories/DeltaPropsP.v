(** Proofs of the properties of deltas from the round-trip theorems. *)
From Coq Require Import String Ascii List Bool Arith ZArith Lia Permutation.
From Verif Require Import Base BaseP XmlM CalcM CalcP NetconfM ConfigM ListP DataSpec DataP CompareP DeltaSpec MoveSpec MoveP ConfigSpec DeltaR AddP
  NameP RoundP TrimSpec TrimP ConfigP CompatP ExampleM ExampleDelta.
Import ListNotations.
Open Scope string_scope.
Open Scope list_scope.

Lemma reaches_of : forall o s a b, wfs s = true -> sty s = TRoot -> IsConfig s a -> IsConfig s b ->
  (exists d r, nc_sub o s b a = Ok d /\ xtag d = xtag b /\ nc_add s a d = Ok r /\ xtag r = xtag a /\ valid s r = true /\ Same s r b) ->
  Reaches s (config_add_delta s a (Delta a b o)) b.
Proof.
  intros o s a b W R (Va & Ta & Na) (Vb & Tb & Nb) (d & r & D1 & D2 & R1 & R2 & R3 & R4).
  assert (Tr' : trim s r = Ok r) by (apply (trimmed_same r s b); auto).
  unfold config_add_delta, delta_nc, config_add, config_new. cbn [d_opts d_dst d_src]. rewrite D1. cbn [bind]. rewrite R1. cbn [bind].
  rewrite (retrieve_valid s r R R3) by congruence. rewrite Tr'. cbn [bind].
  exists r. split; auto. split; [split; auto; split; auto; congruence |].
  assert (S : SameData s r b) by (apply Same_SameData; auto). split; auto.
  destruct (cmp_eq_iff s r b R3 Vb) as (e & E1 & E2); [congruence |]. rewrite E1. f_equal. apply E2. auto.
Qed.

Theorem reaches : forall o s a b, wfs s = true -> sty s = TRoot -> IsConfig s a -> IsConfig s b ->
  Comparable s a b -> RootKept o s a b -> Reaches s (config_add_delta s a (Delta a b o)) b.
Proof.
  intros o s a b W R Ca Cb (Oa & Ob & HK & HN) RK. apply reaches_of; auto.
  destruct Ca as (Va & Ta & Na). destruct Cb as (Vb & Tb & Nb). apply round_trip; auto. congruence.
Qed.

Theorem reaches_default : forall s a b, wfs s = true -> sty s = TRoot -> IsConfig s a -> IsConfig s b ->
  Comparable s a b -> Reaches s (config_add_delta s a (config_sub b a)) b.
Proof. intros. apply reaches; auto. left. reflexivity. Qed.

(** Pairs with at most one cut in each sequence are comparable, so are pairs without. *)
Theorem cuts_comparable : forall s a b, valid s a = true -> valid s b = true -> orderable s a = true -> orderable s b = true ->
  CutsOnce s a b -> NoSwitch s a b -> Comparable s a b.
Proof. intros. split; auto. split; auto. split; auto. apply cuts_end; auto. Qed.

Theorem kept_comparable : forall s a b, valid s a = true -> valid s b = true -> orderable s a = true -> orderable s b = true ->
  KeepsOrder s a b -> NoSwitch s a b -> Comparable s a b /\ Comparable s b a.
Proof.
  intros s a b Va Vb Oa Ob K N. split; apply cuts_comparable; auto using kept_cuts, NoSwitch_sym.
  apply kept_cuts. apply KeepsOrder_sym; auto.
Qed.

Lemma compat_comparable : forall s a b, valid s a = true -> valid s b = true -> orderable s a = true -> orderable s b = true ->
  compat true true s a b = true -> Comparable s a b /\ Comparable s b a.
Proof. intros. apply kept_comparable; auto; [apply (compat_KeepsOrder true) | apply (compat_NoSwitch true)]; auto. Qed.

Theorem undo : forall o s a b, wfs s = true -> sty s = TRoot -> IsConfig s a -> IsConfig s b -> Comparable s b a ->
  Reaches s (config_sub_delta s b (Delta a b o)) a /\
  Reaches s (config_add_delta s b (delta_neg (Delta a b o))) a /\
  d_src (delta_neg (delta_neg (Delta a b o))) = a /\ d_dst (delta_neg (delta_neg (Delta a b o))) = b.
Proof.
  intros o s a b W R Ca Cb Cm.
  assert (G := reaches_default s b a W R Cb Ca Cm). repeat split; auto.
Qed.

Theorem equal_change_nothing : forall o s a b, wfs s = true -> sty s = TRoot -> IsConfig s a -> IsConfig s b ->
  orderable s a = true -> orderable s b = true -> cmp_eq s a b = Ok true ->
  (exists d, delta_nc s (Delta a b o) = Ok d /\
     forall c, In c (xkids d) -> exists cs, Defines s (xtag c) cs /\ s_user (si cs) = true /\ (sty cs = TLeafList \/ sty cs = TList)) /\
  Reaches s (config_add_delta s a (Delta a b o)) a.
Proof.
  intros o s a b W R Ca Cb Oa Ob E. assert (Ca' := Ca). assert (Cb' := Cb). destruct Ca' as (Va & Ta & Na). destruct Cb' as (Vb & Tb & Nb).
  assert (TT : xtag a = xtag b) by congruence.
  destruct (cmp_eq_iff s a b Va Vb TT) as (e & E1 & E2). assert (e = true) by congruence. subst e.
  assert (SD : SameData s a b) by (apply E2; auto).
  assert (SM : Same s a b) by (apply SameData_Same; auto).
  assert (RK : RootKept o s a b) by (right; right; apply Same_leaf_lists; auto).
  destruct (round_trip_same o s a b W R Va Vb SM Oa Ob RK) as (d & r & D).
  split.
  - destruct D as (D & _). exists d. split; [exact D |]. intros c Hc.
    destruct (valid_inv s a Va) as (_ & (la & Ia) & _). destruct (valid_inv s b Vb) as (_ & (lb & Ib) & _).
    destruct (equal_delta o s a b la lb W R Va Vb SM Ia Ib d D c Hc) as (cs & C1 & C2).
    exists cs. split; [apply schema_child_Defines; auto |]. unfold is_user_seq in C2.
    apply andb_true_iff in C2. destruct C2 as [C2 C3]. destruct (sty cs); auto; discriminate.
  - destruct (reaches_of o s a b W R Ca Cb (ex_intro _ d (ex_intro _ r D))) as (x & X1 & X2 & X3 & X4).
    exists x. split; auto. split; auto. assert (X2' := X2). destruct X2' as (Vx & Tx & _).
    assert (SX : SameData s x a).
    { apply Same_SameData; auto. apply (Same_trans s x b a); auto.
      - apply SameData_Same; auto. congruence.
      - apply Same_sym; auto. }
    split; auto. destruct (cmp_eq_iff s x a Vx Va) as (e & F1 & F2); [congruence |]. rewrite F1. f_equal. apply F2. auto.
Qed.

Theorem equal_no_node : forall o s a b d, wfs s = true -> sty s = TRoot -> IsConfig s a -> IsConfig s b ->
  cmp_eq s a b = Ok true -> delta_nc s (Delta a b o) = Ok d ->
  forall c, In c (xkids d) -> exists cs, Defines s (xtag c) cs /\ s_user (si cs) = true /\ (sty cs = TLeafList \/ sty cs = TList).
Proof.
  intros o s a b d W R (Va & Ta & _) (Vb & Tb & _) E D c Hc.
  assert (TT : xtag a = xtag b) by congruence.
  destruct (cmp_eq_iff s a b Va Vb TT) as (e & E1 & E2). assert (e = true) by congruence. subst e.
  assert (SM : Same s a b) by (apply SameData_Same; auto; apply E2; auto).
  destruct (valid_inv s a Va) as (_ & (la & Ia) & _). destruct (valid_inv s b Vb) as (_ & (lb & Ib) & _).
  destruct (equal_delta o s a b la lb W R Va Vb SM Ia Ib d D c Hc) as (cs & C1 & C2).
  exists cs. split; [apply schema_child_Defines; auto |]. unfold is_user_seq in C2.
  apply andb_true_iff in C2. destruct C2 as [C2 C3]. destruct (sty cs); auto; discriminate.
Qed.

(** The order of user-ordered entries in the result *)
Lemma reaches_order : forall s r b, Reaches s r b ->
  exists x, r = Ok x /\ forall p t us vs, UserOrder s x p t us -> UserOrder s b p t vs -> us = vs.
Proof. intros s r b (x & X1 & X2 & (_ & X3) & _). exists x. auto. Qed.

Theorem reaches_types : forall c r d n s a b,
  wfs s = true -> sty s = TRoot -> IsConfig s a -> IsConfig s b -> Comparable s a b ->
  (r = PRMerge \/ TopLeafListsAgree s a b) ->
  Reaches s (config_add_delta s a (Delta a b (Opts c r d DReplace n))) b /\
  Reaches s (config_add_delta s a (Delta a b (Opts c r d DMinimumReplace n))) b.
Proof.
  intros c r d n s a b W R Ca Cb Cm H. split; apply reaches; auto; (destruct H as [H | H]; [left | right; right]); auto.
Qed.

Theorem reaches_top : forall c r d s a b,
  wfs s = true -> sty s = TRoot -> IsConfig s a -> IsConfig s b -> Comparable s a b ->
  Reaches s (config_add_delta s a (Delta a b (Opts c r d DReplace 0))) b.
Proof. intros c r d s a b W R Ca Cb Cm. apply reaches; auto. right. left. auto. Qed.

(** ** Which pairs are comparable *)
Lemma get_order_eq : forall s x p t s' n cs l us, valid s x = true -> get_at s x p = Some (s', n) -> schema_child s' t = Ok cs ->
  is_user_seq cs = true -> index_kids s' (xkids n) = Ok l -> seqt t l = us -> UserOrder s x p t us.
Proof. intros. subst us. eapply get_order; eauto. Qed.

Lemma At_schema : forall p s x y s1 n1 s2 n2, valid s x = true -> valid s y = true ->
  At s x p s1 n1 -> At s y p s2 n2 -> s1 = s2.
Proof.
  induction p as [| u p IH]; intros s a b s1 n1 s2 n2 Va Vb A B.
  - inversion A; inversion B; subst. auto.
  - inversion A as [| ? ? ca cs ? ? ? ? A1 A2 A3 A4]; subst. inversion B as [| ? ? cb cs' ? ? ? ? B1 B2 B3 B4]; subst.
    destruct (valid_inv s a Va) as (_ & (la & Ia) & Ka). destruct (valid_inv s b Vb) as (_ & (lb & Ib) & Kb).
    destruct (valid_Ident s a la ca cs u Va Ia A1 A2 A3) as (S1 & V1 & I1).
    destruct (valid_Ident s b lb cb cs' u Vb Ib B1 B2 B3) as (S2 & V2 & I2).
    assert (T : xtag ca = xtag cb).
    { rewrite <- (Index_tag s _ la u ca Ia I1). apply (Index_tag s _ lb u cb Ib I2). }
    assert (cs' = cs) by congruence. subst cs'. apply (IH cs ca cb s1 n1 s2 n2); auto.
Qed.

Fixpoint precedesb (u v : uid) (l : list uid) : bool :=
  match l with [] => false | x :: r => (uid_eqb u x && mem uid_eqb v r) || precedesb u v r end.
Lemma not_precedes : forall u v l, precedesb u v l = false -> ~ Precedes u v l.
Proof.
  intros u v l H (l1 & l2 & l3 & E). subst l. induction l1 as [| x l1 IH]; simpl in H; apply orb_false_iff in H; destruct H as [H H']; auto.
  rewrite uid_eqb_refl in H. simpl in H.
  assert (M : mem uid_eqb v (l2 ++ v :: l3) = true) by (apply (mem_In uid_eqb uid_eqb_ok); apply in_elt). congruence.
Qed.

Theorem which_comparable : forall s a b,
  IsConfig s a -> IsConfig s b -> orderable s a = true -> orderable s b = true -> NoSwitch s a b ->
  KeepsOrder s a b \/ CutsOnce s a b -> Comparable s a b.
Proof.
  intros s a b (Va & _) (Vb & _) Oa Ob N H. apply cuts_comparable; auto. destruct H; auto. apply kept_cuts; auto.
Qed.

Lemma moved_comparable : IsConfig ex_schema ex_abc /\ IsConfig ex_schema ex_cbxa /\
  Comparable ex_schema ex_abc ex_cbxa /\ ~ KeepsOrder ex_schema ex_abc ex_cbxa.
Proof.
  split; [repeat split; vm_compute; reflexivity |]. split; [repeat split; vm_compute; reflexivity |]. split.
  - split; [vm_compute; reflexivity |]. split; [vm_compute; reflexivity |].
    split; [apply inplace_Ends | apply (compat_NoSwitch false)]; vm_compute; reflexivity.
  - intro H.
    assert (U1 : UserOrder ex_schema ex_abc [("sys", KNone)] "rule" [("rule", KTup [Some "1"]); ("rule", KTup [Some "2"]); ("rule", KTup [Some "3"])]).
    { eapply get_order_eq; vm_compute; reflexivity. }
    assert (U2 : UserOrder ex_schema ex_cbxa [("sys", KNone)] "rule"
                   [("rule", KTup [Some "3"]); ("rule", KTup [Some "9"]); ("rule", KTup [Some "1"]); ("rule", KTup [Some "2"])]).
    { eapply get_order_eq; vm_compute; reflexivity. }
    destruct U1 as (s1 & n1 & c1 & A1 & D1 & S1 & _ & O1). destruct U2 as (s2 & n2 & c2 & A2 & D2 & S2 & _ & O2).
    assert (s1 = s2) by (eapply At_schema; [| | exact A1 | exact A2]; vm_compute; reflexivity). subst s2.
    apply (not_precedes ("rule", KTup [Some "1"]) ("rule", KTup [Some "3"]) [("rule", KTup [Some "3"]); ("rule", KTup [Some "9"]); ("rule", KTup [Some "1"]); ("rule", KTup [Some "2"])]).
    { vm_compute. reflexivity. }
    apply (H [("sys", KNone)] s1 n1 n2 A1 A2 "rule" c1 _ _ D1 S1 O1 O2); [exists [], [("rule", KTup [Some "2"])], []; reflexivity | simpl; auto | simpl; auto].
Qed.

Lemma replay_case : exists a b c x : uid, NoDup [a; b; c] /\ NoDup [b; x; c; a] /\ OneCut [a; b; c] [b; x; c; a] /\
  ~ Kept [a; b; c] [b; x; c; a].
Proof.
  exists ("r", KTup [Some "a"]), ("r", KTup [Some "b"]), ("r", KTup [Some "c"]), ("r", KTup [Some "x"]).
  split; [repeat constructor; simpl; intuition discriminate |]. split; [repeat constructor; simpl; intuition discriminate |]. split.
  - exists [("r", KTup [Some "b"]); ("r", KTup [Some "x"]); ("r", KTup [Some "c"])], [("r", KTup [Some "a"])]. split; [reflexivity |].
    split; [| split; [| intros u [<- | []]; simpl; auto]].
    + intros u v P Iu Iv. destruct (precedesb u v [("r", KTup [Some "a"]); ("r", KTup [Some "b"]); ("r", KTup [Some "c"])]) eqn:E;
        [| exfalso; apply (not_precedes u v _ E); auto].
      simpl in Iu, Iv. decompose [or] Iu; try contradiction; decompose [or] Iv; try contradiction; subst u v; try discriminate E.
      exists [], [("r", KTup [Some "x"])], []. reflexivity.
    + intros u v P [<- | []] [<- | []]. exfalso.
      apply (not_precedes ("r", KTup [Some "a"]) ("r", KTup [Some "a"]) [("r", KTup [Some "a"]); ("r", KTup [Some "b"]); ("r", KTup [Some "c"])]); [vm_compute; reflexivity | auto].
  - intro K. apply (not_precedes ("r", KTup [Some "a"]) ("r", KTup [Some "b"]) [("r", KTup [Some "b"]); ("r", KTup [Some "x"]); ("r", KTup [Some "c"]); ("r", KTup [Some "a"])]);
      [vm_compute; reflexivity |]. apply K; [exists [], [], [("r", KTup [Some "c"])]; reflexivity | simpl; auto | simpl; auto].
Qed.

(** ** Counterexamples *)
Lemma swap_append_refuted : exists s a b b' r,
  wfs s = true /\ sty s = TRoot /\ IsConfig s a /\ IsConfig s b /\ IsConfig s b' /\
  Comparable s a b /\ Comparable s b b' /\
  config_add_delta s a (config_sub b' a) = Ok r /\ cmp_eq s r b' = Ok false /\
  exists p t us vs, UserOrder s r p t us /\ UserOrder s b' p t vs /\ us <> vs.
Proof.
  exists ex_schema, ex_ba, ex_ab, ex_abx. eexists. split; [vm_compute; reflexivity |]. split; [vm_compute; reflexivity |].
  do 3 (split; [repeat split; vm_compute; reflexivity |]).
  do 2 (split; [split; [vm_compute; reflexivity |]; split; [vm_compute; reflexivity |];
    split; [apply inplace_Ends | apply (compat_NoSwitch false)]; vm_compute; reflexivity |]).
  split; [vm_compute; reflexivity |]. split; [vm_compute; reflexivity |].
  exists [("sys", KNone)], "rule". eexists. eexists. split; [| split].
  - eapply get_order; [vm_compute; reflexivity | vm_compute; reflexivity | vm_compute; reflexivity | vm_compute; reflexivity | vm_compute; reflexivity].
  - eapply get_order; [vm_compute; reflexivity | vm_compute; reflexivity | vm_compute; reflexivity | vm_compute; reflexivity | vm_compute; reflexivity].
  - vm_compute. discriminate.
Qed.

Lemma order_refuted : exists s a b r,
  wfs s = true /\ sty s = TRoot /\ IsConfig s a /\ IsConfig s b /\
  config_add_delta s a (config_sub b a) = Ok r /\
  exists p t us vs, UserOrder s r p t us /\ UserOrder s b p t vs /\ us <> vs.
Proof.
  exists ex_schema, ex_abc, ex_cba. eexists. split; [vm_compute; reflexivity |]. split; [vm_compute; reflexivity |].
  split; [repeat split; vm_compute; reflexivity |]. split; [repeat split; vm_compute; reflexivity |].
  split; [vm_compute; reflexivity |].
  exists [("sys", KNone)], "rule". eexists. eexists. split; [| split].
  - eapply get_order; [vm_compute; reflexivity | vm_compute; reflexivity | vm_compute; reflexivity | vm_compute; reflexivity | vm_compute; reflexivity].
  - eapply get_order; [vm_compute; reflexivity | vm_compute; reflexivity | vm_compute; reflexivity | vm_compute; reflexivity | vm_compute; reflexivity].
  - vm_compute. discriminate.
Qed.

Lemma switch_refuted : exists s a b r v,
  wfs s = true /\ sty s = TRoot /\ IsConfig s a /\ IsConfig s b /\ KeepsOrder s a b /\
  config_add_delta s a (config_sub b a) = Ok r /\ cmp_eq s r b = Ok false /\
  Holds s r [("sys", KNone); ("tcp-port", KNone)] v /\
  ~ (exists v', Holds s b [("sys", KNone); ("tcp-port", KNone)] v').
Proof.
  exists ex_schema, ex_tcp, ex_udp. eexists. exists (Some "22"). split; [vm_compute; reflexivity |]. split; [vm_compute; reflexivity |].
  split; [repeat split; vm_compute; reflexivity |]. split; [repeat split; vm_compute; reflexivity |].
  split; [apply (compat_KeepsOrder false); vm_compute; reflexivity |]. split; [vm_compute; reflexivity |].
  split; [vm_compute; reflexivity |]. split.
  - apply get_holds; vm_compute; reflexivity.
  - intros (v' & H). apply get_holds in H; [| vm_compute; reflexivity]. vm_compute in H. exact H.
Qed.

Lemma delta_bool_iff : forall o s a b, valid s a = true -> valid s b = true -> xtag a = xtag b ->
  exists v, delta_bool s (Delta a b o) = Ok v /\ (v = false <-> SameData s a b).
Proof.
  intros o s a b Va Vb T. destruct (cmp_eq_iff s a b Va Vb T) as (v & E & H). exists (negb v). unfold delta_bool, rnot. cbn [d_src d_dst].
  rewrite E. split; auto. rewrite <- H. destruct v; simpl; split; congruence.
Qed.
