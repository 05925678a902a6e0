(** The API with shared trees against the API with values. *)
From Coq Require Import String Ascii List Bool Arith ZArith Lia.
From Verif Require Import Base BaseP XmlM CalcM CalcP NetconfM ConfigM ListP DataSpec DataP DeltaSpec TrimSpec TrimP
  FilterM PruneSpec PruneP FilterP HeapM HeapSpec HeapP LiveP HistP ValueSpec.
Import ListNotations.
Open Scope string_scope.
Open Scope list_scope.

(** The value that an object stands for *)
Definition View (h : heap) (o : obj) (p : pobj) : Prop :=
  match o, p with
  | OCfg a, PCfg x => nth_error (h_trees h) a = Some x
  | ODelta a b q, PDelta d => nth_error (h_trees h) a = Some (d_src d) /\ nth_error (h_trees h) b = Some (d_dst d) /\ q = d_opts d
  | _, _ => False
  end.
Definition Views (h : heap) (st : list pobj) : Prop := Forall2 (View h) (h_objs h) st.

Lemma Views_nth : forall h st i, Views h st ->
  match nth_error (h_objs h) i, nth_error st i with
  | Some o, Some p => View h o p
  | None, None => True
  | _, _ => False
  end.
Proof.
  intros h st i V. unfold Views in V. remember (h_objs h) as l. clear Heql. revert i.
  induction V as [| o p l st H V IH]; intros [| i]; cbn [nth_error]; auto. apply IH.
Qed.

Lemma Views_cfg : forall h st i, Views h st ->
  match nth_error st i with
  | Some (PCfg x) => exists a, config_at h i = Ok a /\ tree h a = Ok x /\ nth_error (h_trees h) a = Some x
  | _ => config_at h i = Err TypeError
  end.
Proof.
  intros h st i V. assert (N := Views_nth h st i V). unfold config_at, tree. destruct (nth_error (h_objs h) i) as [[a | a b q] |], (nth_error st i) as [[x | d] |]; try contradiction; auto.
  simpl in N. exists a. rewrite N. auto.
Qed.
Lemma Views_delta : forall h st i, Views h st ->
  match nth_error st i with
  | Some (PDelta d) => delta_now h i = Ok d /\ exists a b, delta_at h i = Ok (a, b, d_opts d) /\
      nth_error (h_trees h) a = Some (d_src d) /\ nth_error (h_trees h) b = Some (d_dst d)
  | _ => delta_now h i = Err TypeError /\ delta_at h i = Err TypeError
  end.
Proof.
  intros h st i V. assert (N := Views_nth h st i V). unfold delta_now, delta_at, tree.
  destruct (nth_error (h_objs h) i) as [[a | a b q] |], (nth_error st i) as [[x | d] |]; try contradiction; auto.
  simpl in N. destruct N as (N1 & N2 & ->). cbn [bind]. rewrite N1, N2. cbn [bind]. split; [destruct d; reflexivity |]. exists a, b. auto.
Qed.

Lemma View_more : forall h l q o p, View h o p -> View (Heap (h_trees h ++ l) q) o p.
Proof.
  intros h l q o p V. assert (X : forall a (x : xml), nth_error (h_trees h) a = Some x -> nth_error (h_trees h ++ l) a = Some x).
  { intros a x E. rewrite nth_error_app1; auto. apply nth_error_Some. congruence. }
  destruct o as [a | a b z], p as [x | d]; try contradiction; cbn [View h_trees] in *; auto. destruct V as (V1 & V2 & V3). auto.
Qed.
Lemma Views_length : forall h st, Views h st -> length (h_objs h) = length st.
Proof. intros h st V. induction V; cbn [length]; auto. Qed.

Lemma push_views : forall h st o p, Views h st -> View h o p ->
  Views (fst (push o h)) (fst (new_obj (Ok p) st)) /\ snd (push o h) = snd (new_obj (Ok p) st).
Proof.
  intros h st o p V Vo. unfold push, new_obj. cbn [fst snd]. split; [| rewrite (Views_length h st V); reflexivity].
  unfold Views. cbn [h_objs]. apply Forall2_app; [| repeat constructor; auto]. exact V.
Qed.
Lemma push_tree_views : forall h st r, Views h st -> Views (fst (push_tree r h)) (fst (new_cfg r st)) /\ snd (push_tree r h) = snd (new_cfg r st).
Proof.
  intros h st [x | e] V; unfold push_tree, new_cfg; cbn [bind new_obj]; [| cbn; auto].
  assert (V' : Views (Heap (h_trees h ++ [x]) (h_objs h)) st).
  { unfold Views in *. cbn [h_objs]. eapply Forall2_impl; [| exact V]. intros. apply View_more. auto. }
  apply (push_views _ st (OCfg (length (h_trees h))) (PCfg x) V'). cbn [View h_trees]. rewrite nth_error_app2 by lia. rewrite Nat.sub_diag. reflexivity.
Qed.

Ltac same := split; [assumption | reflexivity].

Theorem step_values : forall s h st c, Views h st ->
  (forall check rd i x, c = CFrom check rd i -> nth_error st i = Some (PCfg x) -> Settled rd s x) ->
  Views (fst (step s h c)) (fst (pstep s st c)) /\ snd (step s h c) = snd (pstep s st c).
Proof.
  intros s h st c V G.
  assert (VC := fun i => Views_cfg h st i V). assert (VD := fun i => Views_delta h st i V).
  destruct c as [check rd x | check rd i | i j | i x | i j | i j o | i x o | i | i | op i j | i | i xpath | rd reply]; cbn [step pstep]; unfold answer, config_tree.
  - apply push_tree_views; auto.
  - assert (C := VC i). destruct (nth_error st i) as [[x | d] |] eqn:E; try (rewrite C; same).
    destruct C as (a & -> & -> & Ea). cbn [bind]. specialize (G check rd i x eq_refl E).
    assert (S := settle_io_settled check rd s x G). assert (A := settle_io_agrees check rd s x). unfold settle in A.
    destruct (settle_io check rd s x) as [y e]. cbn [fst snd] in S. subst y. rewrite (set_nth_same _ _ _ Ea).
    assert (E' : Heap (h_trees h) (h_objs h) = h) by (destruct h; reflexivity). rewrite E'.
    destruct (let! e0 := trim s x in if check then validate rd s e0 else Ok e0) as [z |]; cbn in A.
    + inversion A; subst. apply (push_views h st (OCfg a) (PCfg z)); auto.
    + subst e. unfold new_cfg, new_obj. cbn. auto.
  - assert (Ci := VC i). assert (Cj := VC j). assert (Di := VD i). assert (Dj := VD j).
    destruct (nth_error st i) as [[x | d] |].
    + destruct Ci as (a & -> & Ta & _). rewrite Ta. destruct (nth_error st j) as [[y | d'] |].
      * destruct Cj as (b & -> & Tb & _). rewrite Tb. cbn [bind]. apply push_tree_views; auto.
      * rewrite Cj. destruct Dj as [-> _]. cbn [bind]. apply push_tree_views; auto.
      * rewrite Cj. destruct Dj as [-> _]. cbn [bind push_tree]. same.
    + rewrite Ci. destruct (nth_error st j) as [[y | d'] |]; try (rewrite Cj; same).
      destruct Cj as (b & -> & Tb & _). rewrite Tb. destruct Di as [-> _]. cbn [bind]. apply push_tree_views; auto.
    + rewrite Ci. destruct (nth_error st j) as [[y | d'] |]; try (rewrite Cj; same).
      destruct Cj as (b & -> & Tb & _). rewrite Tb. destruct Di as [-> _]. cbn [bind push_tree]. same.
  - assert (Ci := VC i). destruct (nth_error st i) as [[y | d] |]; try (rewrite Ci; same).
    destruct Ci as (a & -> & Ta & _). cbn [bind]. rewrite Ta. apply push_tree_views; auto.
  - assert (Ci := VC i). assert (Cj := VC j). assert (Dj := VD j).
    destruct (nth_error st i) as [[x | d] |] eqn:Ei; try (rewrite Ci; same). destruct Ci as (a & -> & Ta & Na).
    destruct (nth_error st j) as [[y | d'] |] eqn:Ej.
    + destruct Cj as (b & -> & Tb & Nb). apply (push_views h st (ODelta b a default_opts) (PDelta (config_sub x y))); auto. cbn. auto.
    + rewrite Cj. destruct Dj as [-> _]. rewrite Ta. cbn [bind]. apply push_tree_views; auto.
    + rewrite Cj. destruct Dj as [-> _]. rewrite Ta. cbn [bind push_tree]. same.
  - assert (Ci := VC i). assert (Cj := VC j).
    destruct (nth_error st i) as [[x | d] |] eqn:Ei; try (rewrite Ci; same). destruct Ci as (a & -> & Ta & Na).
    destruct (nth_error st j) as [[y | d'] |] eqn:Ej; try (rewrite Cj; same).
    destruct Cj as (b & -> & Tb & Nb). apply (push_views h st (ODelta a b o) (PDelta (Delta x y o))); auto. cbn. auto.
  - assert (Ci := VC i). destruct (nth_error st i) as [[y | d] |]; try (rewrite Ci; same).
    destruct Ci as (a & -> & Ta & Na). cbn [bind]. rewrite Ta. cbn [bind].
    destruct (config_add s y (retrieve x)) as [z |]; cbn [bind]; [| same].
    assert (V' : Views (Heap (h_trees h ++ [z]) (h_objs h)) st).
    { unfold Views in *. cbn [h_objs]. eapply Forall2_impl; [| exact V]. intros. apply View_more. auto. }
    apply (push_views _ st (ODelta a (length (h_trees h)) o) (PDelta (Delta y z o)) V'). cbn [View h_trees d_src d_dst d_opts]. split; [| split]; auto.
    + rewrite nth_error_app1; auto. apply nth_error_Some. congruence.
    + rewrite nth_error_app2 by lia. rewrite Nat.sub_diag. reflexivity.
  - assert (Di := VD i). destruct (nth_error st i) as [[y | d] |]; try (destruct Di as [_ ->]; same).
    destruct Di as (_ & a & b & -> & Na & Nb). apply (push_views h st (ODelta b a default_opts) (PDelta (delta_neg d))); auto. cbn. auto.
  - assert (Di := VD i). destruct (nth_error st i) as [[y | d] |]; destruct Di as [-> _]; same.
  - assert (Ci := VC i). assert (Cj := VC j).
    destruct (nth_error st i) as [[x | d] |]; try (rewrite Ci; same). destruct Ci as (a & -> & Ta & Na). cbn [bind]. rewrite Ta. cbn [bind].
    destruct (nth_error st j) as [[y | d'] |]; try (rewrite Cj; same). destruct Cj as (b & -> & Tb & Nb). cbn [bind]. rewrite Tb. same.
  - assert (Ci := VC i). assert (Di := VD i). destruct (nth_error st i) as [[x | d] |].
    + destruct Ci as (a & -> & Ta & Na). rewrite Ta. same.
    + rewrite Ci. destruct Di as [-> _]. same.
    + rewrite Ci. destruct Di as [-> _]. same.
  - assert (Ci := VC i). destruct (nth_error st i) as [[x | d] |]; try (rewrite Ci; same).
    destruct Ci as (a & -> & Ta & Na). cbn [bind]. rewrite Ta. apply push_tree_views; auto.
  - apply push_tree_views; auto.
Qed.

Lemma trim_known : forall x s, trim s x = Ok x -> known s x.
Proof.
  intro x. induction x as [x IH] using xml_ind'. intros s T. apply known_iff. intros c I.
  destruct (fix_trimmed s x T c I) as (cs & F1 & F2 & _). exists cs. auto.
Qed.

Theorem as_values : forall s l h st, Views h st -> Gentle s st l -> answers (step s) h l = answers (pstep s) st l.
Proof.
  intros s l. induction l as [| c r IH]; intros h st V G; cbn [answers]; auto. destruct G as [G1 G2].
  destruct (step_values s h st c V G1) as [V' A]. rewrite A. f_equal. apply IH; auto.
Qed.

Lemma Views_empty : Views empty_heap [].
Proof. constructor. Qed.

(** Careful calls are gentle. *)
Lemma careful_gentle : forall s l h st, Views h st -> InvH s h -> Forall (Careful s) l -> Gentle s st l.
Proof.
  intros s l. induction l as [| c r IH]; intros h st V I F; cbn [Gentle]; auto. inversion F as [| ? ? C F']; subst.
  assert (G : forall check rd i x, c = CFrom check rd i -> nth_error st i = Some (PCfg x) -> Settled rd s x).
  { intros check rd i x -> E. cbn [Careful] in C. subst rd. assert (Ci := Views_cfg h st i V). rewrite E in Ci. destruct Ci as (a & _ & _ & Na).
    apply nth_error_In in Na. unfold InvH in I. rewrite Forall_forall in I. destruct (I x Na) as (_ & T & N).
    apply Calm_Settled; [eapply trim_known; eauto | apply NoObs_calm; auto]. }
  split; auto. destruct (step_values s h st c V G) as [V' _]. destruct (step_Inv s h c C I) as [I' _]. eapply IH; eauto.
Qed.

Theorem careful_values : forall s l, Forall (Careful s) l -> answers (step s) empty_heap l = answers (pstep s) [] l.
Proof.
  intros s l F. apply as_values; [apply Views_empty |]. apply (careful_gentle s l empty_heap []); auto; [apply Views_empty | constructor].
Qed.
