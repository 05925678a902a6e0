(** Histories of API calls. *)
From Coq Require Import String Ascii List Bool Arith ZArith Lia.
From Verif Require Import Base BaseP XmlM CalcM CalcP NetconfM ConfigM ListP DataSpec DataP DeltaSpec TrimSpec TrimP
  FilterM PruneSpec PruneP FilterP HeapM HeapSpec HeapP LiveP.
Import ListNotations.
Open Scope string_scope.
Open Scope list_scope.

Definition Inv (s : snode) (x : xml) : Prop := xtag x = config_tag /\ trim s x = Ok x /\ NoObsolete s x.

Lemma NoObs_calm : forall x s, trim s x = Ok x -> NoObsolete s x -> Calm false s x.
Proof.
  intro x. induction x as [x IH] using xml_ind'. intros s T N. constructor. intros c cs I E.
  destruct (fix_trimmed s x T c I) as (cs' & F1 & F2 & F3). rewrite E in F1. injection F1 as <-.
  rewrite NO_iff in N. destruct (Good_at s c cs (N c I) E) as [N1 N2]. split; [| split]; auto.
  destruct (validate_drops false cs c) eqn:V; auto. apply drops_cases in V. destruct V as [[V1 V2] | [V | [V _]]]; [| congruence | discriminate].
  exfalso. apply no_kids_iff in V1. unfold trim_drops in F3. destruct V2 as [V2 | [V2 V3]]; rewrite V2 in F3; rewrite V1 in F3; [discriminate |].
  rewrite V3 in F3. discriminate.
Qed.

Lemma calm_trim : forall rd x s, known s x -> Calm rd s x -> trim s x = Ok x.
Proof.
  intros rd x. induction x as [x IH] using xml_ind'. intros s K C. apply trimmed_fix. intros c I.
  rewrite known_iff in K. destruct (K c I) as (cs & E & Kc). destruct (Calm_inv _ _ _ _ _ C I E) as (D1 & _ & Cc). exists cs. auto.
Qed.

Lemma trim_NO : forall x s y, trim s x = Ok y -> NoObsolete s x -> NoObsolete s y.
Proof.
  intro x. induction x as [x IH] using xml_ind'. intros s y H N. apply trim_inv in H. destruct H as (kss & HF & E). subst y.
  apply NO_set_kids. intros c' I. destruct (Forall2_concat_In _ _ _ _ HF I) as (c & l & Ic & Ek & I').
  apply trim_kid_inv in Ek. destruct Ek as (cs & c1 & E1 & E2 & ->). destruct (trim_drops cs (xkids x) c1); [destruct I' |]. destruct I' as [<- | []].
  rewrite NO_iff in N. destruct (trim_parts _ _ _ E2) as (T & _). apply (Good_step s c); auto. intros cs' D.
  rewrite (Defines_schema_child _ _ _ _ E1 D). exact (IH c Ic cs c1 E2).
Qed.

Lemma settle_tag : forall check rd s x y, settle check rd s x = Ok y -> xtag y = xtag x.
Proof.
  intros check rd s x y H. unfold settle in H. apply bind_ok in H. destruct H as (e & H1 & H2). destruct (trim_parts _ _ _ H1) as (T & _).
  destruct check; [destruct (validate_parts _ _ _ _ H2) as (T' & _) | injection H2 as <-]; congruence.
Qed.

Lemma new_Inv : forall rd s x y, config_new true rd s x = Ok y -> Inv s y.
Proof.
  intros rd s x y H. change (settle true rd s (retrieve x) = Ok y) in H. pose proof (settle_tag _ _ _ _ _ H) as T.
  destruct (settle_settled _ _ _ _ H) as [K S]. split; [| split].
  - rewrite T. reflexivity.
  - eapply calm_trim; eauto. apply Settled_Calm. eauto.
  - intros sn n (sm & m & W & I & D) O. destruct (S sm m sn n W I D) as [V _]. apply V. apply vo_obsolete. auto.
Qed.

Lemma retrieve_config : forall r, xtag r = config_tag -> xkids (retrieve r) = xkids r.
Proof.
  intros [t tx a ks] E. cbn [xtag] in E. subst t. unfold retrieve. cbn [xkids].
  change (xp [nc_name "config"] (Elem config_tag tx a ks)) with ks.
  change (xp [nc_name "rpc-reply"; nc_name "data"] (Elem config_tag tx a ks)) with (@nil xml).
  change (xp [nc_name "data"] (Elem config_tag tx a ks)) with (@nil xml).
  change (xp [nc_name "rpc"; nc_name "edit-config"; nc_name "config"] (Elem config_tag tx a ks)) with (@nil xml).
  change (xp [nc_name "edit-config"; nc_name "config"] (Elem config_tag tx a ks)) with (@nil xml).
  cbn [app]. rewrite !app_nil_r. reflexivity.
Qed.

Lemma add_Inv : forall s x d y, config_add s x d = Ok y -> Inv s x -> NoObsolete s d -> Inv s y.
Proof.
  intros s x d y H (Tx & _ & Nx) Nd. unfold config_add in H. apply bind_ok in H. destruct H as (r & H1 & H2).
  apply node_add_NO in H1. destruct H1 as [Tr Nr]. specialize (Nr Nx Nd).
  change (settle false false s (retrieve r) = Ok y) in H2. pose proof (settle_tag _ _ _ _ _ H2) as T.
  unfold settle in H2. apply bind_ok in H2. destruct H2 as (e & H2 & E). injection E as <-. split; [| split].
  - rewrite T. reflexivity.
  - eapply trim_idem; eauto.
  - apply (trim_NO _ _ _ H2). apply (NO_kids s r); auto. rewrite retrieve_config; congruence.
Qed.

Lemma add_delta_Inv : forall s x d y, config_add_delta s x d = Ok y -> Inv s x -> Inv s (d_src d) -> Inv s (d_dst d) -> Inv s y.
Proof.
  intros s x d y H Ix (_ & _ & N1) (_ & _ & N2). unfold config_add_delta in H. apply bind_ok in H. destruct H as (e & H1 & H2).
  apply (add_Inv s x e y H2 Ix). unfold delta_nc in H1. eapply nc_sub_NO; eauto.
Qed.

Lemma set_nth_same : forall {A} (l : list A) n x, nth_error l n = Some x -> set_nth n x l = l.
Proof.
  intros A l. induction l as [| y r IH]; intros [| n] x H; try discriminate; cbn [set_nth nth_error] in *.
  - injection H as ->. reflexivity.
  - rewrite IH; auto.
Qed.

Definition InvH (s : snode) (h : heap) : Prop := Forall (Inv s) (h_trees h).
Definition Extends (h h' : heap) : Prop := (exists l, h_trees h' = h_trees h ++ l) /\ exists l, h_objs h' = h_objs h ++ l.

Lemma Extends_refl : forall h, Extends h h.
Proof. intro h. split; exists []; rewrite app_nil_r; reflexivity. Qed.
Lemma Extends_trans : forall a b c, Extends a b -> Extends b c -> Extends a c.
Proof.
  intros a b c ((l1 & E1) & (l2 & E2)) ((l3 & E3) & (l4 & E4)). split; [exists (l1 ++ l3) | exists (l2 ++ l4)]; rewrite ?E3, ?E4, ?E1, ?E2, app_assoc; reflexivity.
Qed.
Lemma Extends_push : forall o h, Extends h (fst (push o h)).
Proof. intros o h. split; [exists []; rewrite app_nil_r; reflexivity | exists [o]; reflexivity]. Qed.
Lemma Extends_push_tree : forall r h, Extends h (fst (push_tree r h)).
Proof. intros [x | e] h; [| apply Extends_refl]. split; [exists [x]; reflexivity | exists [OCfg (length (h_trees h))]; reflexivity]. Qed.

Lemma tree_In : forall h a x, tree h a = Ok x -> nth_error (h_trees h) a = Some x.
Proof. intros h a x H. unfold tree in H. destruct (nth_error (h_trees h) a); [injection H as ->; auto | discriminate]. Qed.

(** Which calls can change a tree *)
Lemma step_extends : forall s h c, (forall check rd i a x, c = CFrom check rd i -> config_at h i = Ok a -> nth_error (h_trees h) a = Some x ->
    fst (settle_io check rd s x) = x) -> Extends h (fst (step s h c)).
Proof.
  intros s h c H. destruct c as [check rd x | check rd i | i j | i x | i j | i j o | i x o | i | i | op i j | i | i xpath | rd reply]; cbn [step];
    try apply Extends_push_tree; try apply Extends_refl.
  - destruct (config_at h i) as [a |] eqn:Ea; [| apply Extends_refl]. destruct (tree h a) as [x |] eqn:Ex; [| apply Extends_refl].
    apply tree_In in Ex. pose proof (H check rd i a x eq_refl Ea Ex) as S. destruct (settle_io check rd s x) as [y e]. cbn [fst] in S. subst y.
    rewrite (set_nth_same _ _ _ Ex). assert (E : Heap (h_trees h) (h_objs h) = h) by (destruct h; reflexivity). rewrite E.
    destruct e; [apply Extends_refl | apply Extends_push].
  - destruct (config_at h i); destruct (config_at h j); try apply Extends_push_tree; apply Extends_refl.
  - destruct (config_at h i); [destruct (config_at h j) |]; try apply Extends_push_tree; try apply Extends_push; apply Extends_refl.
  - destruct (config_at h i); destruct (config_at h j); try apply Extends_push; apply Extends_refl.
  - destruct (config_at h i) as [a |]; [| apply Extends_refl]. destruct (let! x0 := config_tree h i in config_add s x0 (retrieve x)) as [y |]; [| apply Extends_refl].
    split; [exists [y]; reflexivity | eexists; reflexivity].
  - destruct (delta_at h i) as [[[a b] o] |]; [apply Extends_push | apply Extends_refl].
Qed.

Lemma InvH_tree : forall s h a x, InvH s h -> tree h a = Ok x -> Inv s x.
Proof. intros s h a x H E. apply tree_In in E. apply nth_error_In in E. unfold InvH in H. rewrite Forall_forall in H. auto. Qed.

Lemma delta_now_Inv : forall s h i d, InvH s h -> delta_now h i = Ok d -> Inv s (d_src d) /\ Inv s (d_dst d).
Proof.
  intros s h i d H E. unfold delta_now in E. apply bind_ok in E. destruct E as ([[a b] o] & _ & E). apply bind_ok in E. destruct E as (x & E1 & E).
  apply bind_ok in E. destruct E as (y & E2 & E). injection E as <-. cbn [d_src d_dst]. split; eapply InvH_tree; eauto.
Qed.

Lemma config_tree_Inv : forall s h i x, InvH s h -> config_tree h i = Ok x -> Inv s x.
Proof. intros s h i x H E. unfold config_tree in E. apply bind_ok in E. destruct E as (a & _ & E). eapply InvH_tree; eauto. Qed.

Lemma push_tree_Inv : forall s r h, InvH s h -> (forall x, r = Ok x -> Inv s x) -> InvH s (fst (push_tree r h)).
Proof. intros s [x | e] h H G; [| exact H]. unfold InvH. cbn. apply Forall_app. split; auto. Qed.

Lemma step_Inv : forall s h c, Careful s c -> InvH s h -> InvH s (fst (step s h c)) /\ Extends h (fst (step s h c)).
Proof.
  intros s h c C H.
  assert (X : Extends h (fst (step s h c))).
  { apply step_extends. intros check rd i a x -> Ea Ex. cbn [Careful] in C. subst rd. apply nth_error_In in Ex. unfold InvH in H. rewrite Forall_forall in H.
    destruct (H x Ex) as (_ & T & N). apply settle_io_calm. apply NoObs_calm; auto. }
  split; auto. clear X.
  assert (AD : forall i j k l, (let! x := tree h i in let! d := delta_now h j in config_add_delta s x d) = Ok k -> l = k -> Inv s l).
  { intros i j k l E ->. apply bind_ok in E. destruct E as (x & E1 & E). apply bind_ok in E. destruct E as (d & E2 & E).
    destruct (delta_now_Inv s h j d H E2). eapply add_delta_Inv; eauto. eapply InvH_tree; eauto. }
  destruct c as [check rd x | check rd i | i j | i x | i j | i j o | i x o | i | i | op i j | i | i xpath | rd reply]; cbn [step Careful] in *;
    try contradiction; try exact H.
  - subst check. apply push_tree_Inv; auto. intros y. apply new_Inv.
  - destruct (config_at h i) as [a |] eqn:Ea; [| exact H]. destruct (tree h a) as [x |] eqn:Ex; [| exact H].
    apply tree_In in Ex. subst rd. pose proof (nth_error_In _ _ Ex) as Ix. assert (H' := H). unfold InvH in H'. rewrite Forall_forall in H'.
    destruct (H' x Ix) as (_ & T & N). pose proof (settle_io_calm check false x s (NoObs_calm x s T N)) as S.
    destruct (settle_io check false s x) as [y e]. cbn [fst] in S. subst y. rewrite (set_nth_same _ _ _ Ex). destruct e; exact H.
  - destruct (config_at h i) as [a |]; destruct (config_at h j) as [b |]; try exact H; apply push_tree_Inv; auto; intros y E; eauto.
    apply bind_ok in E. destruct E as (x1 & E1 & E). apply bind_ok in E. destruct E as (x2 & E2 & E).
    apply (add_Inv s x1 x2 y E); [eapply InvH_tree; eauto |]. eapply InvH_tree in E2; eauto. apply E2.
  - apply push_tree_Inv; auto. intros y E. apply bind_ok in E. destruct E as (x1 & E1 & E). apply (add_Inv s x1 x y E); auto. eapply config_tree_Inv; eauto.
  - destruct (config_at h i) as [a |]; [destruct (config_at h j) as [b |] |]; try exact H. apply push_tree_Inv; auto. intros y E.
    apply bind_ok in E. destruct E as (x1 & E1 & E). apply bind_ok in E. destruct E as (d & E2 & E). unfold config_sub_delta in E.
    destruct (delta_now_Inv s h j d H E2). apply (add_delta_Inv s x1 (delta_neg d) y E); auto. eapply InvH_tree; eauto.
  - destruct (config_at h i); destruct (config_at h j); exact H.
  - destruct (config_at h i) as [a |]; [| exact H]. destruct (let! x0 := config_tree h i in config_add s x0 (retrieve x)) as [y |] eqn:E; [| exact H].
    unfold InvH. cbn. apply Forall_app. split; auto. constructor; auto. apply bind_ok in E. destruct E as (x1 & E1 & E).
    apply (add_Inv s x1 (retrieve x) y E); auto. eapply config_tree_Inv; eauto.
  - destruct (delta_at h i) as [[[a b] o] |]; exact H.
Qed.

Lemma run_Inv : forall s l h, Forall (Careful s) l -> InvH s h -> InvH s (run s h l) /\ Extends h (run s h l).
Proof.
  intros s l. induction l as [| c r IH]; intros h F H; [split; [exact H | apply Extends_refl] |]. inversion F; subst. cbn [run].
  destruct (step_Inv s h c) as [I1 E1]; auto. destruct (IH (fst (step s h c))) as [I2 E2]; auto. split; auto. eapply Extends_trans; eauto.
Qed.

Lemma run_app : forall s l1 l2 h, run s h (l1 ++ l2) = run s (run s h l1) l2.
Proof. intros s l1. induction l1 as [| c r IH]; intros l2 h; cbn [app run]; auto. Qed.

Lemma Extends_nth : forall {A} (l l' : list A) n x, (exists r, l' = l ++ r) -> nth_error l n = Some x -> nth_error l' n = Some x.
Proof. intros A l l' n x (r & ->) H. rewrite nth_error_app1; auto. apply nth_error_Some. congruence. Qed.

Lemma Extends_Sees : forall h h' i l, Extends h h' -> Sees h i l -> Sees h' i l.
Proof.
  intros h h' i l [E1 E2] S. unfold Sees in *. destruct (nth_error (h_objs h) i) as [o |] eqn:E; [| contradiction].
  rewrite (Extends_nth _ _ _ _ E2 E). destruct o as [a | a b o].
  - destruct S as (x & X & ->). exists x. split; auto. eapply Extends_nth; eauto.
  - destruct S as (x & y & X & Y & ->). exists x, y. split; [| split]; auto; eapply Extends_nth; eauto.
Qed.

Theorem history : forall s l1 l2 i l, Forall (Careful s) (l1 ++ l2) -> Sees (run s empty_heap l1) i l -> Sees (run s empty_heap (l1 ++ l2)) i l.
Proof.
  intros s l1 l2 i l F S. apply Forall_app in F. destruct F as [F1 F2]. rewrite run_app.
  destruct (run_Inv s l1 empty_heap F1) as [I1 _]; [constructor |]. destruct (run_Inv s l2 _ F2 I1) as [_ E]. eapply Extends_Sees; eauto.
Qed.

(** One call, any heap *)
Theorem one_call : forall s h c i l, (forall check rd j x, c = CFrom check rd j -> Sees h j [x] -> Settled rd s x) ->
  Sees h i l -> Sees (fst (step s h c)) i l.
Proof.
  intros s h c i l H S. apply (Extends_Sees h); auto. apply step_extends. intros check rd j a x E Ea Ex. apply settle_io_settled.
  apply (H check rd j x E). unfold Sees, config_at in *. destruct (nth_error (h_objs h) j) as [[b | b d o] |]; try discriminate. injection Ea as ->. eauto.
Qed.

(** The tree of the Config a Config was built from is kept exactly if there is nothing to remove. *)
Theorem from_exact : forall s h rd j v x h', step s h (CFrom true rd j) = (h', Ok v) -> Sees h j [x] -> (Sees h' j [x] <-> Settled rd s x).
Proof.
  intros s h rd j v x h' H S. split.
  - intro S'. cbn [step] in H. unfold Sees, config_at in *. destruct (nth_error (h_objs h) j) as [[a | a b o] |] eqn:Eo; try contradiction.
    2: { destruct S as (x1 & x2 & _ & _ & S). discriminate. }
    destruct S as (x1 & Ex & S). injection S as <-. unfold tree in H. rewrite Ex in H.
    pose proof (settle_io_agrees true rd s x) as A. destruct (settle true rd s x) as [y |] eqn:Es.
    + rewrite A in H. unfold push in H. injection H as <- _. cbn [h_objs h_trees] in S'.
      rewrite nth_error_app1 in S' by (apply nth_error_Some; congruence). rewrite Eo in S'. destruct S' as (z & Ez & S'). injection S' as <-.
      assert (G : forall (l : list xml) n u w, nth_error l n = Some u -> nth_error (set_nth n w l) n = Some w).
      { clear. intro l. induction l as [| q r IH]; intros [| n] u w H; try discriminate; cbn in *; eauto. }
      rewrite (G _ _ x y Ex) in Ez. injection Ez as ->. destruct (settle_settled _ _ _ _ Es). auto.
    + destruct (settle_io true rd s x) as [y o]. cbn [snd] in A. subst o. injection H as _ H. discriminate.
  - intro St. change h' with (fst (h', @Ok value v)). rewrite <- H. apply one_call; auto. intros check rd' j' x' E S'. injection E as <- <- <-.
    unfold Sees in S, S'. destruct (nth_error (h_objs h) j) as [[a | a b o] |]; try contradiction.
    + destruct S as (x1 & Ex & S). destruct S' as (x2 & Ex' & S'). injection S as <-. injection S' as <-. rewrite Ex in Ex'. injection Ex' as <-. auto.
    + destruct S as (x1 & x2 & _ & _ & S). discriminate.
Qed.
