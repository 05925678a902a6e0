(** Proofs of the comparison properties C01-C04 and of C14. *)
From Coq Require Import String Ascii List Bool Arith ZArith Lia Permutation.
From Verif Require Import Base BaseP XmlM CalcM CalcP NetconfM ConfigM DataSpec CompareSpec DataP.
Import ListNotations.
Open Scope string_scope.
Open Scope list_scope.

Lemma cmp_le_iff : forall s x y, valid s x = true -> valid s y = true -> xtag x = xtag y ->
  exists b, cmp_le s x y = Ok b /\ (b = true <-> Contained s x y).
Proof.
  intros s x y Hx Hy Ht. destruct (node_le_total x s y Hx Hy) as (b & Hb).
  exists b. split; auto. split.
  - intro E. subst. apply le_Contained; auto.
  - intro H. apply (Contained_le x s y Hx Hy Ht) in H. congruence.
Qed.

Lemma cmp_eq_iff : forall s x y, valid s x = true -> valid s y = true -> xtag x = xtag y ->
  exists b, cmp_eq s x y = Ok b /\ (b = true <-> SameData s x y).
Proof.
  intros s x y Hx Hy Ht.
  destruct (cmp_le_iff s x y Hx Hy Ht) as (b1 & H1 & E1).
  destruct (cmp_le_iff s y x Hy Hx (eq_sym Ht)) as (b2 & H2 & E2).
  unfold cmp_le in *. exists (b1 && b2). unfold cmp_eq, rand. rewrite H1. simpl.
  split; [destruct b1; auto |]. rewrite <- Contained_antisym, andb_true_iff. tauto.
Qed.

Lemma cmp_ops : forall s x y le ge, cmp_le s x y = Ok le -> cmp_ge s x y = Ok ge ->
  cmp_eq s x y = Ok (le && ge) /\ cmp_eq s y x = Ok (le && ge) /\
  cmp_ne s x y = Ok (negb (le && ge)) /\
  cmp_lt s x y = Ok (le && negb ge) /\ cmp_gt s x y = Ok (ge && negb le) /\
  cmp_gt s x y = cmp_lt s y x /\ cmp_ge s x y = cmp_le s y x.
Proof.
  intros s x y le ge H1 H2. unfold cmp_le, cmp_ge, cmp_eq, cmp_ne, cmp_lt, cmp_gt, rand, ror, rnot in *.
  rewrite H1, H2. destruct le, ge; simpl; repeat split; reflexivity.
Qed.

(** Whenever any operator returns, the operators that it must agree with return
    and agree. *)
Lemma cmp_eq_ne : forall s x y b, cmp_eq s x y = Ok b <-> cmp_ne s x y = Ok (negb b).
Proof.
  intros s x y b. unfold cmp_eq, cmp_ne, rand, ror, rnot.
  destruct (node_le s x y) as [[|] |]; simpl; try (destruct b; simpl; split; congruence).
  destruct (node_le s y x) as [[|] |]; simpl; destruct b; simpl; split; congruence.
Qed.

Lemma cmp_eq_true : forall s x y,
  cmp_eq s x y = Ok true <-> cmp_le s x y = Ok true /\ cmp_ge s x y = Ok true.
Proof.
  intros s x y. unfold cmp_eq, cmp_le, cmp_ge, rand.
  destruct (node_le s x y) as [[|] |]; simpl; intuition congruence.
Qed.

Lemma cmp_eq_sym_true : forall s x y, cmp_eq s x y = Ok true <-> cmp_eq s y x = Ok true.
Proof. intros s x y. rewrite !cmp_eq_true. unfold cmp_le, cmp_ge. tauto. Qed.

(** ** bool *)
Lemma config_bool_spec : forall s x b, xtag x = config_tag -> xtext x = None -> xattrs x = [] ->
  config_bool s x = Ok b -> (b = true <-> xkids x <> []).
Proof.
  intros s [t tx a ks] b Ht Htx Ha H. simpl in Ht, Htx, Ha. subst t tx a. unfold config_bool, rnot in H.
  apply bind_ok in H. destruct H as (e & He & H). inversion H; subst. simpl.
  destruct ks as [| k ks].
  - assert (e = true) by (unfold cmp_eq, rand, empty_config in He; simpl in He; congruence).
    subst. simpl. split; [discriminate | congruence].
  - assert (e = false).
    { destruct e; auto. apply cmp_eq_true in He. destruct He as [He _]. unfold cmp_le in He.
      apply node_le_spec in He. destruct He as (lx & ly & _ & _ & _ & Hx & Hy & Hp & _).
      simpl in Hy. apply Index_nil_inv in Hy. subst ly.
      destruct (Index_In s _ lx k Hx) as (u & Hin); [left; auto |].
      destruct (Hp u k Hin) as (c & cs & E & _). discriminate. }
    subst. simpl. split; [discriminate | reflexivity].
Qed.

Lemma config_bool_total : forall s x, valid s x = true -> sty s = TRoot ->
  exists b, config_bool s x = Ok b.
Proof.
  intros s x Hx Hs.
  assert (Hy : valid s empty_config = true) by (simpl; rewrite Hs; reflexivity).
  destruct (node_le_total x s empty_config Hx Hy) as (b1 & H1).
  destruct (node_le_total empty_config s x Hy Hx) as (b2 & H2).
  unfold config_bool, cmp_eq, rnot, rand. rewrite H1. cbn [bind]. destruct b1; [rewrite H2 |]; cbn [bind]; eauto.
Qed.

(** ** Ambiguous data *)

Lemma Ident_tag : forall cs x u, Ident cs x u -> fst u = xtag x.
Proof. intros cs x u H. destruct H; reflexivity. Qed.

Lemma ambiguous_index : forall s x lx, Ambiguous s x -> ~ Index s (xkids x) lx.
Proof.
  intros s x lx HA (E & HF & ND).
  destruct HA as [(i & j & c1 & c2 & cs & u & Hij & H1 & H2 & HD & I1 & I2) | (c & cs & Hin & HD & Hl & Hn)].
  - rewrite <- E in H1, H2. rewrite nth_error_map in H1, H2.
    destruct (nth_error lx i) as [[u1 d1] |] eqn:N1; [| discriminate].
    destruct (nth_error lx j) as [[u2 d2] |] eqn:N2; [| discriminate].
    simpl in H1, H2. inversion H1; inversion H2; subst d1 d2.
    rewrite Forall_forall in HF.
    assert (U1 := HF _ (nth_error_In _ _ N1)). assert (U2 := HF _ (nth_error_In _ _ N2)). simpl in U1, U2.
    destruct (uid_schema _ _ _ U1) as (cs' & S1).
    assert (cs = cs') by (eapply Defines_schema_child; eauto). subst cs'.
    assert (T : xtag c2 = xtag c1) by (rewrite <- (Ident_tag _ _ _ I2); exact (Ident_tag _ _ _ I1)).
    assert (S2 : schema_child s (xtag c2) = Ok cs) by (rewrite T; auto).
    assert (u1 = u) by exact (uid_Ident s c1 cs u u1 S1 U1 I1).
    assert (u2 = u) by exact (uid_Ident s c2 cs u u2 S2 U2 I2). subst u1 u2.
    apply Hij. apply (NoDup_nth_error (uids lx)); auto.
    + unfold uids. rewrite map_length. apply nth_error_Some. congruence.
    + unfold uids. rewrite !nth_error_map, N1, N2. reflexivity.
  - rewrite <- E in Hin. apply in_map_iff in Hin. destruct Hin as ([u d] & Ed & Hin). simpl in Ed. subst d.
    rewrite Forall_forall in HF. specialize (HF _ Hin). simpl in HF.
    destruct (uid_schema _ _ _ HF) as (cs' & S1).
    assert (cs = cs') by (eapply Defines_schema_child; eauto). subst cs'.
    assert (I : Ident cs c u) by (eapply Ident_uid; eauto).
    apply Hn. destruct I; try congruence. eauto.
Qed.

Lemma ambiguous_err : forall s x, Ambiguous s x -> exists e, index_kids s (xkids x) = Err e.
Proof.
  intros s x H. destruct (index_kids s (xkids x)) as [lx | e] eqn:E; eauto.
  exfalso. apply index_ok in E. eapply ambiguous_index; eauto.
Qed.

Lemma ambiguous_le : forall s x y, Ambiguous s x \/ Ambiguous s y -> node_le s x y <> Ok true.
Proof.
  intros s x y H E. apply node_le_spec in E. destruct E as (lx & ly & _ & _ & _ & Hx & Hy & _).
  destruct H as [H | H]; [apply (ambiguous_index s x lx H Hx) | apply (ambiguous_index s y ly H Hy)].
Qed.

Lemma ambiguous_group : forall s x y, Ambiguous s x \/ Ambiguous s y ->
  exists e, group_kids s (xkids x) (xkids y) = Err e.
Proof.
  intros s x y H. destruct (group_kids s (xkids x) (xkids y)) as [g | e] eqn:E; eauto. exfalso.
  apply group_inv in E. destruct E as (la & lb & HA & HB & _).
  destruct H as [H | H]; [apply (ambiguous_index s x la H HA) | apply (ambiguous_index s y lb H HB)].
Qed.

Lemma ambiguous_add : forall s x y, Ambiguous s x \/ Ambiguous s y -> exists e, nc_add s x y = Err e.
Proof.
  intros s x y H. unfold nc_add. destruct y as [t tx a ks]. set (y := Elem t tx a ks) in *.
  destruct (ambiguous_group s x y H) as (e & E). exists e.
  change (height y) with (S (fold_right (fun c n => Nat.max (height c) n) 0 ks)).
  cbn [node_add]. rewrite E. reflexivity.
Qed.

Lemma ambiguous_sub : forall o s x y, Ambiguous s x \/ Ambiguous s y -> o_replace o = PRMerge ->
  exists e, nc_sub o s x y = Err e.
Proof.
  intros o s x y H Ho. destruct (ambiguous_group s x y H) as (e & E). exists e.
  unfold nc_sub, config_replace. rewrite E.
  destruct x as [t tx a ks]. set (x := Elem t tx a ks) in *.
  change (height x) with (S (fold_right (fun c n => Nat.max (height c) n) 0 ks)).
  cbn [node_sub]. rewrite Ho, E. cbn. destruct (o_type o); cbn; auto. destruct (Z.eqb (o_depth o) 0); reflexivity.
Qed.

(** An error as soon as the comparison gets to the children. *)
Lemma ambiguous_le_err : forall s x y, Ambiguous s x \/ Ambiguous s y -> xtag x = xtag y ->
  xtext x = None -> xtext y = None -> xattrs x = [] -> exists e, node_le s x y = Err e.
Proof.
  intros s x y H Ht Tx Ty Ha. rewrite node_le_eq, Ht, String.eqb_refl. unfold same_text. rewrite Tx, Ty, Ha.
  cbn [bind negb attrs_sub forallb].
  destruct (index_kids s (xkids x)) as [lx | e] eqn:Ex; cbn [bind]; eauto.
  destruct (index_kids s (xkids y)) as [ly | e] eqn:Ey; cbn [bind]; eauto.
  exfalso. apply index_ok in Ex. apply index_ok in Ey.
  destruct H as [H | H]; [apply (ambiguous_index s x lx H Ex) | apply (ambiguous_index s y ly H Ey)].
Qed.

Lemma le_At_index : forall p s x y s' n, node_le s x y = Ok true -> At s x p s' n ->
  exists ln, Index s' (xkids n) ln.
Proof.
  intro p. induction p as [| u p IH]; intros s x y s' n Hle HA; apply node_le_spec in Hle;
    destruct Hle as (lx & ly & _ & _ & _ & Hx & Hy & Hp & _).
  - inversion HA; subst. eauto.
  - inversion HA as [| ? ? c cs ? ? ? ? Hc HD Hid HA']; subst.
    destruct (Index_In s _ lx c Hx Hc) as (v & Hin). destruct (Hp v c Hin) as (c' & cs' & _ & Hs & L).
    simpl in Hs, L. assert (cs = cs') by (eapply Defines_schema_child; eauto). subst cs'.
    eapply IH; eauto.
Qed.

Lemma ambiguous_deep : forall s x y p s' n, At s x p s' n -> Ambiguous s' n ->
  cmp_le s x y <> Ok true /\ cmp_eq s x y <> Ok true /\ cmp_eq s y x <> Ok true.
Proof.
  intros s x y p s' n HA Ha.
  assert (G : cmp_le s x y <> Ok true).
  { intro E. destruct (le_At_index p s x y s' n E HA) as (ln & Hl). apply (ambiguous_index s' n ln Ha Hl). }
  split; auto. split; intro E.
  - apply cmp_eq_true in E. tauto.
  - apply cmp_eq_sym_true in E. apply cmp_eq_true in E. tauto.
Qed.

Lemma le_partial_order :
  (forall s x, valid s x = true -> cmp_le s x x = Ok true) /\
  (forall s x y z, cmp_le s x y = Ok true -> cmp_le s y z = Ok true -> cmp_le s x z = Ok true) /\
  (forall s x y, cmp_le s x y = Ok true -> cmp_le s y x = Ok true -> cmp_eq s x y = Ok true).
Proof.
  split; [intros s x H; apply node_le_refl; auto |]. split.
  - intros s x y z. apply node_le_trans.
  - intros s x y H1 H2. apply cmp_eq_true. auto.
Qed.

Lemma config_bool_valid : forall s x, valid s x = true -> sty s = TRoot -> xtag x = config_tag ->
  config_bool s x = Ok (negb (no_kids x)).
Proof.
  intros s x Hv Hs Ht. destruct (config_bool_total s x Hv Hs) as (b & Hb). rewrite Hb. f_equal.
  assert (G : b = true <-> xkids x <> []).
  { apply (config_bool_spec s x b); auto.
    - apply (valid_text s x Hv); congruence.
    - apply (valid_inv s x Hv). }
  unfold no_kids. destruct (xkids x) as [| k ks]; simpl.
  - destruct b; auto. destruct (proj1 G eq_refl). reflexivity.
  - apply G. discriminate.
Qed.
