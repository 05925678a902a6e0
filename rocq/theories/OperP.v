(** The operators of configs and deltas. *)
From Coq Require Import String Ascii List Bool Arith ZArith Lia Permutation.
From Verif Require Import Base BaseP XmlM CalcM CalcP NetconfM ConfigM ListP DataSpec DataP CompareP DeltaSpec MoveSpec ConfigSpec DeltaR AddP ConfigP
  DeltaPropsP TagM MDiffM MDiffSpec DeviceSpec CompatM CompatSpec CompatDevP CompatCmpP OperM OperSpec.
Import ListNotations.
Open Scope string_scope.
Open Scope list_scope.

(** ** Compatibility *)
Lemma suited_sym : forall a b, Suited a b -> Suited b a.
Proof.
  intros a b (F1 & F2 & S1 & S2 & L1 & L2 & O & R1 & R2 & A & D).
  split; [exact F2 |]. split; [exact F1 |]. split; [exact S2 |]. split; [exact S1 |]. split; [exact L2 |]. split; [exact L1 |].
  split; [intro E; symmetry; apply O; auto |]. split; [exact R2 |]. split; [exact R1 |]. split; [apply Agree_sym; exact A |].
  intro N. destruct D as (D1 & D2 & D3); [congruence |]. split; [exact D2 |]. split; [exact D1 |]. intros n H. destruct (D3 n); tauto.
Qed.

Lemma suited_ok : forall a b, Suited a b -> is_compatible (OCfg (g_tops a)) (OCfg (g_tops b)) = Ok true.
Proof.
  intros a b (F1 & F2 & S1 & S2 & L1 & L2 & O & R1 & R2 & A & D).
  apply compat_complete; auto; try (intros c ->; auto); intro N; destruct (D N) as (D1 & D2 & D3); auto.
Qed.

Lemma suited_delta : forall a b, Suited a b ->
  is_compatible (OCfg (g_tops a)) (ODelta (g_tops a) (g_tops b)) = Ok true.
Proof.
  intros a b (F1 & F2 & S1 & S2 & L1 & L2 & O & R1 & R2 & A & D).
  apply compat_complete; cbn [o_dev]; auto.
  - intros c ->. exact F1.
  - intros c [-> | ->]; [exact F1 | exact F2].
  - intros c r [-> | ->] I; [apply (R1 (g_tops a) r eq_refl I) | apply (R2 (g_tops b) r eq_refl I)].
  - intros n H. cbn [o_dev]. assert (H' : Uses (OCfg (g_tops a)) n \/ Uses (OCfg (g_tops b)) n).
    { destruct H as [H | (c & r & t & [-> | ->] & H)]; [left; exact H | left | right]; eexists; exists r, t; (split; [reflexivity | exact H]). }
    destruct (A n H') as ((t1 & t2 & E1 & E2 & _) & _). split; [| intro N; congruence].
    exists t1, t1. split; [exact E1 |]. split; [exact E1 | apply SameNodes_refl].
  - intro N. congruence.
  - intro N. congruence.
Qed.

Lemma suited_self : forall a b, Suited a b -> Suited a a.
Proof.
  intros a b (F1 & F2 & S1 & S2 & L1 & L2 & O & R1 & R2 & A & D).
  do 6 (split; [assumption |]). split; [auto |]. do 2 (split; [assumption |]). split; [| intro N; congruence].
  intros n H. assert (H' : Uses (OCfg (g_tops a)) n) by tauto. destruct (A n (or_introl H')) as ((t1 & t2 & E1 & E2 & _) & _).
  split; [| intro N; congruence]. exists t1, t1. split; [exact E1 |]. split; [exact E1 | apply SameNodes_refl].
Qed.

(** Configs of one device *)
Lemma suited_one : forall a b, g_dev a = g_dev b -> Fine (g_dev a) -> Stored (g_dev a) -> OneLocal (g_dev a) ->
  RootsLoaded (OCfg (g_tops a)) -> RootsLoaded (OCfg (g_tops b)) -> Suited a b.
Proof.
  intros [d x] [d' y] E F S L R1 R2. cbn [g_dev] in *. subst d'. unfold Suited. cbn [g_dev].
  split; [exact F |]. split; [exact F |]. split; [exact S |]. split; [exact S |]. split; [exact L |]. split; [exact L |].
  split; [auto |]. split; [exact R1 |]. split; [exact R2 |]. split; [| intro N; congruence].
  intros n H. cbn [o_dev g_tops c_dev g_dev]. split; [| intro N; congruence].
  assert (X : exists t, Loads d n t).
  { destruct H as [(c & r & t & -> & _ & H & _) | (c & r & t & -> & _ & H & _)]; exists t; exact H. }
  destruct X as (t & X). exists t, t. split; [exact X |]. split; [exact X | apply SameNodes_refl].
Qed.

(** ** What the operators compute *)
Lemma new_ok : forall a b, Suited a b -> new_dlt a b = Ok (Dlt a b default_sopts).
Proof. intros a b S. unfold new_dlt, delta_new. cbn. rewrite (suited_ok a b S). reflexivity. Qed.

Lemma sub_ok : forall a b, Suited a b -> py_sub (PCfg b) (PCfg a) = Ok (PDel (Dlt a b default_sopts)).
Proof. intros a b S. unfold py_sub, cfg_sub. rewrite (new_ok a b S). reflexivity. Qed.

Lemma neg_ok : forall a b o, Suited a b -> py_neg (PDel (Dlt a b o)) = Ok (PDel (Dlt b a default_sopts)).
Proof. intros a b o S. unfold py_neg. cbn [l_src l_dst]. rewrite (new_ok b a (suited_sym a b S)). reflexivity. Qed.

Definition lift (c : cfg) (r : res xml) : res val := let! x := r in Ok (PCfg (Cfg (g_dev c) x)).
Lemma add_ok : forall a b, Suited a b ->
  py_add (PCfg a) (PDel (Dlt a b default_sopts)) = lift a (config_add_delta (g_schema a) (g_ele a) (config_sub (g_ele b) (g_ele a))) /\
  py_add (PDel (Dlt a b default_sopts)) (PCfg a) = lift a (config_add_delta (g_schema a) (g_ele a) (config_sub (g_ele b) (g_ele a))).
Proof.
  intros a b S. unfold py_add, cfg_add, del_add, lift. cbn [l_src l_dst]. rewrite (suited_delta a b S). cbn [bind].
  unfold l_nc, config_add_delta, delta_nc, config_sub. cbn [l_opts l_src l_dst d_opts d_src d_dst].
  change (read_opts default_sopts) with (Ok default_opts). cbn [bind].
  destruct (nc_sub default_opts (g_schema a) (g_ele b) (g_ele a)) as [e |]; cbn [bind]; [| split; reflexivity].
  unfold cfg_add, plus. destruct (config_add (g_schema a) (g_ele a) e) as [r |]; cbn [bind]; split; reflexivity.
Qed.

Lemma rand_both : forall x y, rand x y = Ok true -> x = Ok true /\ y = Ok true.
Proof. intros [[|] |] y H; unfold rand in H; cbn in H; try discriminate; split; auto. Qed.

(** The tops of a config with the same data are tops of the other one. *)
Lemma same_tops : forall s x y c, valid s x = true -> valid s y = true -> xtag x = xtag y -> SameData s x y ->
  In c (xkids x) -> exists c', In c' (xkids y) /\ xtag c' = xtag c.
Proof.
  intros s x y c Vx Vy T SD I. assert (S := SameData_Same s x y Vx Vy T SD).
  destruct (valid_inv s x Vx) as (_ & (lx & Ix) & _). destruct (valid_inv s y Vy) as (_ & (ly & Iy) & _).
  assert (Hu : exists u, In (u, c) lx).
  { destruct Ix as (E & _ & _). rewrite <- E in I. apply in_map_iff in I. destruct I as ([u c0] & E' & I). cbn in E'. subst c0. eauto. }
  destruct Hu as (u & Hu). assert (Hu' := Hu). apply (Index_assoc s _ lx u c Ix) in Hu.
  destruct (Same_assoc s x y lx ly u c S Ix Iy Hu) as (c' & cs & E1 & E2 & E3).
  apply (Index_assoc s _ ly u c' Iy) in E1. exists c'. split; [apply (Index_kid s _ ly u c' Iy E1) |].
  symmetry. apply (Same_tag cs). exact E3.
Qed.

Lemma reaches_like : forall a b r, Suited a b -> Proper a -> Proper b -> Reaches (g_schema a) r (g_ele b) -> IsLike (lift a r) a b.
Proof.
  intros a b r S (W & Ca) (W' & Cb) (x & -> & Cx & SD & E). exists (Cfg (g_dev a) x). split; [reflexivity |]. split; [reflexivity |].
  split; [split; [exact W | exact Cx] |]. unfold py_cmp, cmp_method. cbn [calc_of]. unfold g_schema at 1. cbn [g_dev g_ele].
  fold (g_schema a). rewrite E. cbn [bind]. split; [reflexivity |].
  assert (Ok1 := suited_ok a b S). destruct S as (F1 & F2 & S1 & S2 & L1 & L2 & O & R1 & R2 & A & D).
  assert (Cb' : IsConfig (g_schema a) (g_ele b)).
  { apply (compat_config (g_tops a) (g_tops b) true (g_ele b)); auto. right. reflexivity. }
  assert (K : forall c, In c (xkids (g_ele b)) \/ In c (xkids x) -> Kin (xtag c) (g_schema a) (g_schema b)).
  { assert (K1 : forall c, In c (xkids (g_ele b)) -> Kin (xtag c) (g_schema a) (g_schema b)).
    { intros c I. apply (compat_kin (OCfg (g_tops a)) (OCfg (g_tops b)) true) with (c := g_tops b); auto; [intros ? -> | intros ? -> |]; auto.
      cbn. apply in_map. exact I. }
    intros c [I | I]; [auto |]. destruct Cx as (Vx & Tx & _). destruct Cb' as (Vb & Tb & _).
    destruct (same_tops (g_schema a) x (g_ele b) c Vx Vb) as (c' & I' & T'); auto; [congruence |]. rewrite <- T'. auto. }
  apply rand_both in E. destruct E as [E1 E2]. cbn [calc_of]. unfold cmp_eq.
  assert (sty (g_schema a) = sty (g_schema b)) by reflexivity.
  rewrite <- (node_le_kin (g_ele b) x (g_schema a) (g_schema b)) by auto.
  rewrite <- (node_le_kin x (g_ele b) (g_schema a) (g_schema b)) by (auto; intros c I; apply K; tauto).
  rewrite E1, E2. reflexivity.
Qed.

(** ** The laws *)
Theorem sum_law : forall a b, Suited a b -> Proper a -> Proper b -> Comparable (g_schema a) (g_ele a) (g_ele b) ->
  exists d, py_sub (PCfg b) (PCfg a) = Ok (PDel d) /\
    py_add (PDel d) (PCfg a) = py_add (PCfg a) (PDel d) /\ IsLike (py_add (PCfg a) (PDel d)) a b.
Proof.
  intros a b S Pa Pb Cm. exists (Dlt a b default_sopts). split; [apply sub_ok; exact S |].
  destruct (add_ok a b S) as [E1 E2]. rewrite E1, E2. split; [reflexivity |]. apply reaches_like; auto.
  assert (Ok1 := suited_ok a b S). destruct S as (F1 & F2 & S1 & S2 & L1 & L2 & O & R1 & R2 & A & D). destruct Pa as (W & Ca), Pb as (W' & Cb).
  apply (compat_round_trip (g_tops a) (g_tops b) true); auto; reflexivity.
Qed.

Theorem undo_law : forall a b o, Suited a b -> Proper a -> Proper b -> Comparable (g_schema b) (g_ele b) (g_ele a) ->
  IsLike (py_sub (PCfg b) (PDel (Dlt a b o))) b a /\
  exists n, py_neg (PDel (Dlt a b o)) = Ok (PDel n) /\ IsLike (py_add (PCfg b) (PDel n)) b a.
Proof.
  intros a b o S Pa Pb Cm. assert (S' := suited_sym a b S). destruct (sum_law b a S' Pb Pa Cm) as (d & D1 & D2 & D3).
  rewrite (sub_ok b a S') in D1. injection D1 as <-. split.
  - unfold py_sub, cfg_sub. rewrite (neg_ok a b o S). cbn [bind].
    change (let! r := cfg_add b (PDel (Dlt b a default_sopts)) in match r with Some v => Ok v | None => Err TypeError end)
      with (py_add (PCfg b) (PDel (Dlt b a default_sopts))). exact D3.
  - eexists. split; [apply neg_ok; exact S | exact D3].
Qed.

Theorem neg_law : forall d, Suited (l_src d) (l_dst d) ->
  exists n m, py_neg (PDel d) = Ok (PDel n) /\ py_neg (PDel n) = Ok (PDel m) /\
    l_src n = l_dst d /\ l_dst n = l_src d /\ m = Dlt (l_src d) (l_dst d) default_sopts /\ py_pos (PDel d) = Ok (PDel d).
Proof.
  intros [a b o] S. cbn [l_src l_dst] in *. exists (Dlt b a default_sopts), (Dlt a b default_sopts).
  split; [apply neg_ok; exact S |]. split; [apply neg_ok; apply suited_sym; exact S |]. repeat split.
Qed.

(** ** Kinds *)
Lemma compat_true : forall a b r, is_compatible a b = Ok r -> r = true.
Proof.
  intros a b r H. unfold is_compatible in H. apply bind_ok in H. destruct H as (x & H1 & H2). destruct x.
  - unfold models_compatible in H2. apply bind_ok in H2. destruct H2 as (l & _ & H2). apply bind_ok in H2. destruct H2 as (? & _ & H2).
    apply bind_ok in H2. destruct H2 as (? & _ & H2). congruence.
  - unfold namespaces_compatible in H1. destruct (Nat.eqb _ _); [discriminate |].
    apply bind_ok in H1. destruct H1 as (l & _ & H1). apply bind_ok in H1. destruct H1 as (? & _ & H1).
    apply bind_ok in H1. destruct H1 as (? & _ & H1). discriminate.
Qed.

Lemma plus_kind : forall c x v, plus c x = Ok v -> exists r, v = PCfg (Cfg (g_dev c) r).
Proof. intros c x v H. unfold plus in H. apply bind_ok in H. destruct H as (r & _ & H). exists r. congruence. Qed.

Lemma cfg_add_kind : forall c y v, cfg_add c y = Ok v ->
  (kind_of y <> KElse -> exists r, v = Some (PCfg (Cfg (g_dev c) r))) /\ (kind_of y = KElse -> v = None).
Proof.
  intros c y v H. destruct y; cbn in H |- *; (split; [intro K | intro K; try discriminate K]); try contradiction; try congruence.
  - apply bind_ok in H. destruct H as (ok & E & H). apply compat_true in E. subst ok.
    apply bind_ok in H. destruct H as (r & E & H). destruct (plus_kind _ _ _ E) as (x & ->). exists x. congruence.
  - apply bind_ok in H. destruct H as (ok & E & H). apply compat_true in E. subst ok. apply bind_ok in H. destruct H as (e & _ & H).
    apply bind_ok in H. destruct H as (r & E & H). destruct (plus_kind _ _ _ E) as (x0 & ->). exists x0. congruence.
  - apply bind_ok in H. destruct H as (r & E & H). destruct (plus_kind _ _ _ E) as (x0 & ->). exists x0. congruence.
Qed.

Theorem sum_kinds : forall x y, (kind_of x = KDelta -> kind_of y = KConfig) ->
  (forall k v, Sum (kind_of x) (kind_of y) k -> py_add x y = Ok v -> kind_of v = k) /\
  ((forall k, ~ Sum (kind_of x) (kind_of y) k) -> py_add x y = Err TypeError).
Proof.
  intros x y G. split.
  - intros k v S H. unfold py_add in H. apply bind_ok in H. destruct H as (r & H & E).
    destruct x as [c | d | e | | b |]; try (inversion S; fail).
    + destruct (cfg_add_kind c y r H) as (K & _).
      assert (N : kind_of y <> KElse) by (intro N; rewrite N in S; inversion S).
      destruct (K N) as (x & ->). inversion E. inversion S; reflexivity.
    + specialize (G eq_refl). destruct y as [c | | | | |]; try discriminate G. cbn in H. apply bind_ok in H. destruct H as (e & _ & H).
      apply bind_ok in H. destruct H as (r' & P & H). destruct (plus_kind _ _ _ P) as (x & ->). injection H as <-. inversion E. inversion S; reflexivity.
  - intro N. destruct x as [c | d | e | | b |]; try reflexivity.
    + destruct y; try reflexivity; exfalso; eapply N; constructor.
    + specialize (G eq_refl). exfalso. apply (N KConfig). rewrite G. constructor.
Qed.

Theorem difference_kinds : forall x y,
  (forall k v, Difference (kind_of x) (kind_of y) k -> py_sub x y = Ok v -> kind_of v = k) /\
  ((forall k, ~ Difference (kind_of x) (kind_of y) k) -> py_sub x y = Err TypeError).
Proof.
  intros x y. split.
  - intros k v S H. unfold py_sub in H. apply bind_ok in H. destruct H as (r & H & E).
    destruct x as [c | d | e | | b |]; try (inversion S; fail). destruct y as [c' | d | e | | b |]; try (inversion S; fail); cbn in H.
    + apply bind_ok in H. destruct H as (d & _ & H). injection H as <-. inversion E. inversion S. reflexivity.
    + apply bind_ok in H. destruct H as (n & P & H). apply bind_ok in P. destruct P as (m & _ & P). injection P as <-.
      destruct (cfg_add_kind c (PDel m) r H) as (K & _). destruct K as (x & ->); [discriminate |]. inversion E. inversion S. reflexivity.
  - intro N. destruct x as [c | d | e | | b |]; try reflexivity. destruct y; try reflexivity; exfalso; eapply N; constructor.
Qed.

Theorem cmp_kinds : forall o x y, kind_of x = KConfig \/ kind_of x = KDelta \/ kind_of y = KConfig \/ kind_of y = KDelta ->
  kind_of x <> KConfig \/ kind_of y <> KConfig -> py_cmp o x y = Err TypeError.
Proof.
  intros o x y H N. destruct x, y; cbn in H, N |- *; try reflexivity; exfalso; intuition discriminate.
Qed.

Theorem cmp_asks : forall o a b, g_schema a = g_schema b -> valid (g_schema a) (g_ele a) = true -> valid (g_schema b) (g_ele b) = true ->
  xtag (g_ele a) = xtag (g_ele b) -> exists r, py_cmp o (PCfg a) (PCfg b) = Ok r /\ (r = true <-> Asks o (g_schema a) (g_ele a) (g_ele b)).
Proof.
  intros o a b S V W T. rewrite <- S in W.
  destruct (cmp_le_iff _ _ _ V W T) as (l & L & IL). destruct (cmp_le_iff _ _ _ W V (eq_sym T)) as (g & G & IG).
  assert (D : cmp_ge (g_schema a) (g_ele a) (g_ele b) = Ok g) by exact G.
  destruct (cmp_ops _ _ _ _ _ L D) as (E1 & _ & E2 & E3 & E4 & _).
  unfold py_cmp, cmp_method, calc_of.
  destruct o; [rewrite L; exists l | rewrite E3; exists (l && negb g) | rewrite D; exists g | rewrite E4; exists (g && negb l) | rewrite E1; exists (l && g) | rewrite E2; exists (negb (l && g))];
    (split; [reflexivity |]); cbn [Asks]; destruct l, g; cbn; intuition congruence.
Qed.

(** ** The delta argument *)
Lemma config_tag_nc : config_tag = nc "config". Proof. reflexivity. Qed.

Lemma flat_none : forall t l, (forall c, In c l -> xtag c <> t) -> flat_map (xp [t]) l = [].
Proof.
  intros t l H. induction l as [| c r IH]; simpl; auto. destruct (String.eqb (xtag c) t) eqn:E.
  - exfalso. apply (H c); [left; auto | apply String.eqb_eq; auto].
  - apply IH. intros c' I. apply H. right. auto.
Qed.
Lemma flat_none2 : forall t p l, (forall c, In c l -> xtag c <> t) -> flat_map (xp (t :: p)) l = [].
Proof.
  intros t p l H. induction l as [| c r IH]; simpl; auto. destruct (String.eqb (xtag c) t) eqn:E.
  - exfalso. apply (H c); [left; auto | apply String.eqb_eq; auto].
  - apply IH. intros c' I. apply H. right. auto.
Qed.

Lemma edit_inner : forall ks e, xtag e = nc "edit-config" -> Envelope ks e -> flat_map (xp [nc "config"]) (xkids e) = ks.
Proof.
  intros ks e T E. inversion E; subst; try discriminate T. cbn [xkids]. rewrite flat_map_app.
  rewrite (flat_none (nc "config") l) by (intros c I; apply H; apply in_or_app; auto).
  cbn [flat_map]. rewrite (flat_none (nc "config") r) by (intros c I; apply H; apply in_or_app; auto).
  rewrite app_nil_r. reflexivity.
Qed.

Lemma xp_miss : forall t p x, String.eqb (xtag x) t = false -> xp (t :: p) x = [].
Proof. intros t p x H. cbn [xp]. rewrite H. reflexivity. Qed.
Lemma xp_hit : forall t x, String.eqb (xtag x) t = true -> xp [t] x = xkids x.
Proof. intros t x H. cbn [xp]. rewrite H. reflexivity. Qed.
Lemma xp_down : forall t t' p x, String.eqb (xtag x) t = true -> xp (t :: t' :: p) x = flat_map (xp (t' :: p)) (xkids x).
Proof. intros t t' p x H. cbn [xp]. rewrite H. reflexivity. Qed.

Lemma envelope_retrieve : forall ks e, Envelope ks e -> retrieve e = Elem config_tag None [] ks.
Proof.
  intros ks e E. assert (EI := edit_inner ks). unfold retrieve. f_equal.
  change (nc_name "data") with (nc "data"). change (nc_name "config") with (nc "config"). change (nc_name "edit-config") with (nc "edit-config").
  inversion E as [tx at_ | tx at_ | tx at_ tx' at' l r H | tx at_ tx' at' l r H | tx at_ e0 l r H H0 H1]; subst e.
  - rewrite (xp_hit (nc "config")) by reflexivity. rewrite !xp_miss by reflexivity. rewrite !app_nil_r. reflexivity.
  - rewrite (xp_hit (nc "data")) by reflexivity. rewrite !xp_miss by reflexivity. rewrite !app_nil_r. reflexivity.
  - rewrite (xp_down (nc_name "rpc-reply")) by reflexivity. rewrite !xp_miss by reflexivity. rewrite !app_nil_r. cbn [xkids].
    rewrite flat_map_app. rewrite (flat_none (nc "data") l) by (intros c I; apply H; apply in_or_app; auto).
    cbn [flat_map]. rewrite (flat_none (nc "data") r) by (intros c I; apply H; apply in_or_app; auto).
    rewrite (xp_hit (nc "data")) by reflexivity. rewrite !app_nil_r. reflexivity.
  - rewrite (xp_down (nc "edit-config")) by reflexivity. rewrite !xp_miss by reflexivity. apply EI; [reflexivity | exact E].
  - rewrite (xp_down (nc_name "rpc")) by reflexivity. rewrite !xp_miss by reflexivity. cbn [xkids app]. rewrite app_nil_r.
    rewrite flat_map_app. rewrite (flat_none2 (nc "edit-config") _ l) by (intros c I; apply H; apply in_or_app; auto).
    cbn [flat_map]. rewrite (flat_none2 (nc "edit-config") _ r) by (intros c I; apply H; apply in_or_app; auto).
    rewrite (xp_down (nc "edit-config")) by (rewrite H0; reflexivity). rewrite app_nil_r. apply (EI e0 H0 H1).
Qed.

(** The sum looks at the children of the element only. *)
Lemma add_kids : forall a t tx at_ ks, py_add (PCfg a) (PEle (Elem t tx at_ ks)) = py_add (PCfg a) (PEle (Elem (nc "config") None [] ks)).
Proof. intros. reflexivity. Qed.

(** ** Options *)
Lemma prefs_ok : forall o, GoodPreferences o ->
  exists c r d, create_of (so_create o) = Ok c /\ replace_of (so_replace o) = Ok r /\ delete_of (so_delete o) = Ok d.
Proof.
  intros [c r d t n] (H1 & H2 & H3). cbn [so_create so_replace so_delete] in *.
  assert (E1 : exists x, create_of c = Ok x) by (destruct H1 as [<- | [<- | [<- | []]]]; eexists; reflexivity).
  assert (E2 : exists x, replace_of r = Ok x) by (destruct H2 as [<- | [<- | []]]; eexists; reflexivity).
  assert (E3 : exists x, delete_of d = Ok x) by (destruct H3 as [<- | [<- | []]]; eexists; reflexivity).
  destruct E1 as (x & E1), E2 as (y & E2), E3 as (z & E3). exists x, y, z. auto.
Qed.

Lemma create_cases : forall v, In v ["merge"; "create"; "replace"] \/ create_of v = Err ValueError.
Proof.
  intro v. unfold create_of. destruct (String.eqb v "merge") eqn:E1; [apply String.eqb_eq in E1; simpl; auto |].
  destruct (String.eqb v "create") eqn:E2; [apply String.eqb_eq in E2; simpl; auto |].
  destruct (String.eqb v "replace") eqn:E3; [apply String.eqb_eq in E3; simpl; auto | auto].
Qed.
Lemma replace_cases : forall v, In v ["merge"; "replace"] \/ replace_of v = Err ValueError.
Proof.
  intro v. unfold replace_of. destruct (String.eqb v "merge") eqn:E1; [apply String.eqb_eq in E1; simpl; auto |].
  destruct (String.eqb v "replace") eqn:E3; [apply String.eqb_eq in E3; simpl; auto | auto].
Qed.
Lemma delete_cases : forall v, In v ["delete"; "remove"] \/ delete_of v = Err ValueError.
Proof.
  intro v. unfold delete_of. destruct (String.eqb v "delete") eqn:E1; [apply String.eqb_eq in E1; simpl; auto |].
  destruct (String.eqb v "remove") eqn:E3; [apply String.eqb_eq in E3; simpl; auto | auto].
Qed.
Lemma create_good : forall v, In v ["merge"; "create"; "replace"] -> exists x, create_of v = Ok x.
Proof. intros v [<- | [<- | [<- | []]]]; eexists; reflexivity. Qed.
Lemma replace_good : forall v, In v ["merge"; "replace"] -> exists x, replace_of v = Ok x.
Proof. intros v [<- | [<- | []]]; eexists; reflexivity. Qed.

Definition depth_check (rd : rarg) : res unit :=
  match rd with RNone => Ok tt | RInt z => if (0 <=? z)%Z then Ok tt else Err ValueError | ROther => Err ValueError end.
Lemma depth_cases : forall rd, (GoodDepth rd -> depth_check rd = Ok tt) /\ (~ GoodDepth rd -> depth_check rd = Err ValueError).
Proof.
  intros [| z |]; unfold depth_check.
  - split; auto. intro N. exfalso. apply N. left. reflexivity.
  - destruct (0 <=? z)%Z eqn:E; split; auto.
    + intro N. exfalso. apply N. right. exists z. split; auto. apply Z.leb_le. auto.
    + intros [H | (z' & H & L)]; [discriminate |]. injection H as <-. apply Z.leb_gt in E. lia.
  - split; auto. intros [H | (z' & H & L)]; discriminate.
Qed.

(** The checks in front *)
Lemma checks : forall a dst da o rd, ~ (GoodPreferences o /\ GoodDepth rd) -> delta_new (PCfg a) dst da o rd = Err ValueError.
Proof.
  intros a dst da o rd.
  intro N. destruct (depth_check rd) as [[] |] eqn:E.
  - assert (D : GoodDepth rd).
      { destruct rd as [| z |]; [left; reflexivity | | discriminate]. right. exists z. split; auto. cbn in E. destruct (0 <=? z)%Z eqn:L; [apply Z.leb_le; auto | discriminate]. }
      unfold delta_new. unfold depth_check in E. rewrite E. cbn [bind].
      destruct (create_cases (so_create o)) as [P1 | ->]; [| reflexivity]. destruct (create_good _ P1) as (c & ->). cbn [bind].
      destruct (replace_cases (so_replace o)) as [P2 | ->]; [| reflexivity]. destruct (replace_good _ P2) as (r & ->). cbn [bind].
      destruct (delete_cases (so_delete o)) as [P3 | ->]; [| reflexivity]. exfalso. apply N. split; [split; auto | auto].
  - assert (e = ValueError) by (destruct rd as [| z |]; cbn in E; [discriminate | destruct (0 <=? z)%Z; congruence | congruence]). subst e.
      unfold delta_new. unfold depth_check in E. rewrite E. reflexivity.
Qed.

Theorem new_options : forall a b o rd, Suited a b ->
  (GoodPreferences o /\ GoodDepth rd -> delta_new (PCfg a) (PCfg b) DNone o rd = Ok (Dlt a b o)) /\
  (~ (GoodPreferences o /\ GoodDepth rd) -> delta_new (PCfg a) (PCfg b) DNone o rd = Err ValueError).
Proof.
  intros a b o rd S. split; [| apply checks]. intros (P & D). destruct (prefs_ok o P) as (c & r & d & E1 & E2 & E3).
  destruct (depth_cases rd) as (D1 & _). specialize (D1 D). unfold depth_check in D1.
  unfold delta_new. rewrite D1, E1, E2, E3. cbn [bind]. rewrite (suited_ok a b S). reflexivity.
Qed.

Lemma reads_of : forall s o, read_opts s = Ok o -> Reads s o.
Proof.
  intros s o H. unfold read_opts in H. apply bind_ok in H. destruct H as (c & C & H). apply bind_ok in H. destruct H as (r & R & H).
  apply bind_ok in H. destruct H as (d & D & H). injection H as <-. unfold Reads. cbn [o_create o_replace o_delete o_type o_depth].
  repeat split.
  - unfold create_of in C. destruct (String.eqb_spec (so_create s) "merge") as [-> |]; [injection C as <-; simpl; auto |].
    destruct (String.eqb_spec (so_create s) "create") as [-> |]; [injection C as <-; simpl; auto |].
    destruct (String.eqb_spec (so_create s) "replace") as [-> |]; [injection C as <-; simpl; auto | discriminate].
  - unfold replace_of in R. destruct (String.eqb_spec (so_replace s) "merge") as [-> |]; [injection R as <-; simpl; auto |].
    destruct (String.eqb_spec (so_replace s) "replace") as [-> |]; [injection R as <-; simpl; auto | discriminate].
  - unfold delete_of in D. destruct (String.eqb_spec (so_delete s) "delete") as [-> |]; [injection D as <-; simpl; auto |].
    destruct (String.eqb_spec (so_delete s) "remove") as [-> |]; [injection D as <-; simpl; auto | discriminate].
  - unfold type_of. destruct (String.eqb_spec (so_type s) "replace") as [-> | N1]; [left; simpl; auto |].
    destruct (String.eqb_spec (so_type s) "minimum-replace") as [-> | N2]; [left; simpl; auto |].
    destruct (String.eqb_spec (so_type s) "minimum") as [-> | N3]; [left; simpl; auto | right; split; [| reflexivity]].
    unfold GoodType. simpl. intuition congruence.
Qed.

Theorem nc_options : forall d,
  (GoodPreferences (l_opts d) -> exists o, Reads (l_opts d) o /\ l_nc d = nc_sub o (g_schema (l_src d)) (g_ele (l_dst d)) (g_ele (l_src d))) /\
  (~ GoodPreferences (l_opts d) -> l_nc d = Err ValueError).
Proof.
  intro d. unfold l_nc. split.
  - intro P. destruct (prefs_ok _ P) as (c & r & q & E1 & E2 & E3).
    assert (E : exists o, read_opts (l_opts d) = Ok o) by (eexists; unfold read_opts; rewrite E1, E2, E3; reflexivity).
    destruct E as (o & E). exists o. split; [apply reads_of; exact E | rewrite E; reflexivity].
  - intro N. unfold l_nc, read_opts.
    destruct (create_cases (so_create (l_opts d))) as [P1 | ->]; [| reflexivity]. destruct (create_good _ P1) as (c & ->). cbn [bind].
    destruct (replace_cases (so_replace (l_opts d))) as [P2 | ->]; [| reflexivity]. destruct (replace_good _ P2) as (r & ->). cbn [bind].
    destruct (delete_cases (so_delete (l_opts d))) as [P3 | ->]; [| reflexivity]. exfalso. apply N. split; auto.
Qed.

(** Any other [diff_type] is taken for 'minimum'. *)
Theorem other_type : forall a b o, ~ GoodType o ->
  l_nc (Dlt a b o) = l_nc (Dlt a b (SOpts (so_create o) (so_replace o) (so_delete o) "minimum" (so_depth o))).
Proof.
  intros a b o N. unfold l_nc. cbn [l_opts l_src l_dst].
  assert (T : type_of (so_type o) = DMinimum).
  { unfold type_of. destruct (String.eqb (so_type o) "replace") eqn:E1; [exfalso; apply N; apply String.eqb_eq in E1; unfold GoodType; rewrite E1; simpl; auto |].
    destruct (String.eqb (so_type o) "minimum-replace") eqn:E2; [exfalso; apply N; apply String.eqb_eq in E2; unfold GoodType; rewrite E2; simpl; auto | reflexivity]. }
  unfold read_opts. cbn [so_create so_replace so_delete so_type so_depth]. rewrite T. reflexivity.
Qed.

(** ** The delta argument of the constructor *)
Theorem delta_arg : forall a dst o rd ks e, GoodPreferences o -> GoodDepth rd -> kind_of dst = KConfig \/ dst = PNone -> Envelope ks e ->
  delta_new (PCfg a) dst (DVal (PEle e)) o rd = delta_new (PCfg a) dst (DStr (Ok e)) o rd /\
  (forall b, py_add (PCfg a) (PEle (Elem (nc "config") None [] ks)) = Ok (PCfg b) -> delta_new (PCfg a) dst (DVal (PEle e)) o rd = Ok (Dlt a b o)) /\
  (forall x, py_add (PCfg a) (PEle (Elem (nc "config") None [] ks)) = Err x -> delta_new (PCfg a) dst (DVal (PEle e)) o rd = Err x).
Proof.
  intros a dst o rd ks e P D K E. destruct (prefs_ok o P) as (c & r & d & E1 & E2 & E3).
  destruct (depth_cases rd) as (D1 & _). specialize (D1 D). unfold depth_check in D1.
  assert (F : exists db, match dst with PCfg b => Ok (Some b) | PNone => Ok None | _ => Err TypeError end = Ok db).
  { destruct dst; cbn in K; try (destruct K; discriminate); eexists; reflexivity. }
  destruct F as (db & F).
  split; [reflexivity |]. unfold delta_new. rewrite D1, E1, E2, E3. cbn [bind]. rewrite F. cbn [bind]. rewrite (envelope_retrieve ks e E).
  change config_tag with (nc "config"). split; intros x H; rewrite H; reflexivity.
Qed.

(** Arguments of the wrong kind *)
Theorem wrong_arguments : forall src dst da o rd, GoodPreferences o -> GoodDepth rd ->
  kind_of src <> KConfig \/ (exists v, da = DVal v /\ kind_of v <> KElement) \/
    (forall x, da <> DStr (Err x)) /\ kind_of dst <> KConfig /\ dst <> PNone ->
  delta_new src dst da o rd = Err TypeError.
Proof.
  intros src dst da o rd P D H. destruct (prefs_ok o P) as (c & r & d & E1 & E2 & E3).
  destruct (depth_cases rd) as (D1 & _). specialize (D1 D). unfold depth_check in D1.
  unfold delta_new. rewrite D1. cbn [bind]. destruct src as [a | | | | |]; try reflexivity. rewrite E1, E2, E3. cbn [bind].
  destruct H as [H | [(v & -> & V) | (X & K & N)]]; [exfalso; apply H; reflexivity | |].
  - destruct v; try reflexivity. exfalso. apply V. reflexivity.
  - assert (Q : match da with DNone => Ok None | DStr x => let! e := x in Ok (Some (retrieve e)) | DVal (PEle e) => Ok (Some (retrieve e)) | DVal _ => Err TypeError end = Err TypeError \/
      exists de, match da with DNone => Ok None | DStr x => let! e := x in Ok (Some (retrieve e)) | DVal (PEle e) => Ok (Some (retrieve e)) | DVal _ => Err TypeError end = Ok de).
    { destruct da as [| [e | x] | []]; cbn; eauto. exfalso. exact (X x eq_refl). }
    destruct Q as [-> | (de & ->)]; [reflexivity |]. cbn [bind].
    destruct dst; try reflexivity; exfalso; [apply K | apply N]; reflexivity.
Qed.

Theorem delta_arg_law : forall a b dst ks e, kind_of dst = KConfig \/ dst = PNone -> Envelope ks e ->
  py_add (PCfg a) (PEle (Elem (nc "config") None [] ks)) = Ok (PCfg b) ->
  Suited a b -> Proper a -> Proper b -> Comparable (g_schema a) (g_ele a) (g_ele b) ->
  exists d, delta_new (PCfg a) dst (DVal (PEle e)) default_sopts RNone = Ok d /\ IsLike (py_add (PCfg a) (PDel d)) a b.
Proof.
  intros a b dst ks e K E H S Pa Pb Cm. exists (Dlt a b default_sopts). split.
  - apply (delta_arg a dst default_sopts RNone ks e); auto; [unfold GoodPreferences; simpl; auto | left; reflexivity].
  - destruct (sum_law a b S Pa Pb Cm) as (d & D1 & D2 & D3). rewrite (sub_ok a b S) in D1. injection D1 as <-. exact D3.
Qed.

(** Anything else counts as nothing. *)
Theorem delta_arg_lost : forall e, (forall t, In t ["config"; "data"; "rpc-reply"; "rpc"; "edit-config"] -> xtag e <> nc t) ->
  retrieve e = Elem (nc "config") None [] [].
Proof.
  intros e H. unfold retrieve. change config_tag with (nc "config"). f_equal.
  assert (G : forall t, In t ["config"; "data"; "rpc-reply"; "rpc"; "edit-config"] -> String.eqb (xtag e) (nc_name t) = false).
  { intros t I. apply String.eqb_neq. apply (H t I). }
  rewrite !xp_miss by (apply G; simpl; tauto). reflexivity.
Qed.
