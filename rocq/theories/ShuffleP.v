(** Reordered deltas. *)
From Coq Require Import String Ascii List Bool Arith ZArith Lia Permutation.
From Verif Require Import Base BaseP XmlM CalcM CalcP NetconfM ConfigM ReorderM DataSpec DataP DeltaSpec ConfigSpec AlikeSpec AlikeP AlikeCheckP AlikeDataP
  PruneSpec PruneP FilterP ReorderSpec ReorderP ShuffleSpec KnownP CompatP DeltaPropsP ExampleM ExampleDelta PrunePropsP AlikePropsP SumP.
Import ListNotations.
Open Scope string_scope.
Open Scope list_scope.

Lemma shuffled_alike : forall d s x y, Shuffled d s x y -> KeepsOrder d s x y -> Alike s x y.
Proof.
  intro d. induction d as [| d IH]; intros s x y H K.
  - inversion H as [s' t tx a keys r r' A B P |]; subst. inversion K as [? ? ? K' |]; subst. apply alike_perm; [apply Permutation_app_head; auto |].
    exact K'.
  - inversion H as [| d' s' t tx a l l' F]; subst. inversion K as [| ? ? ? ? F']; subst. cbn [xkids] in F'.
    assert (G : Forall2 (fun c c' => xtag c = xtag c' /\ exists cs, Defines s (xtag c) cs /\ Alike cs c c') l l').
    { clear H K. induction F as [| c c' l l' (cs & D & Sh) F IHF]; [constructor |]. inversion F' as [| ? ? ? ? K1 K2]; subst. constructor; auto.
      assert (A := IH cs c c' Sh (K1 cs D)). split; [exact (proj1 (alike_inv _ _ _ A)) | eauto]. }
    constructor. intro n. apply Matched_ordered. unfold kids_tagged.
    eapply Forall2_In_impl; [apply (Forall2_filter _ _ (fun c => String.eqb (xtag c) n) _ _ G) |].
    + intros c c' (E & _). rewrite E. auto.
    + intros c c' I _ (_ & cs & D & A). right. exists cs. apply filter_In in I. destruct I as (_ & I). apply String.eqb_eq in I. subst n. auto.
Qed.

Lemma free_alike : forall d s x y, NoSequence d s -> Shuffled d s x y -> Alike s x y.
Proof.
  intro d. induction d as [| d IH]; intros s x y N H.
  - apply (shuffled_alike 0); auto. constructor. intros n U. destruct (N n U).
  - inversion H as [| d' s' t tx a l l' F]; subst. constructor. intro n. apply Matched_ordered. unfold kids_tagged.
    assert (G : Forall2 (fun c c' => xtag c = xtag c' /\ exists cs, Defines s (xtag c) cs /\ Alike cs c c') l l').
    { eapply Forall2_impl; [| exact F]. intros c c' (cs & D & Sh). assert (A := IH cs c c' (N _ _ D) Sh).
      split; [exact (proj1 (alike_inv _ _ _ A)) | eauto]. }
    eapply Forall2_In_impl; [apply (Forall2_filter _ _ (fun c => String.eqb (xtag c) n) _ _ G) |].
    + intros c c' (E & _). rewrite E. auto.
    + intros c c' I _ (_ & cs & D & A). right. exists cs. apply filter_In in I. destruct I as (_ & I). apply String.eqb_eq in I. subst n. auto.
Qed.

Lemma config_known : forall s x, IsConfig s x -> known s x.
Proof. intros s x (_ & _ & T). exact (trim_known _ _ _ T). Qed.

Lemma random_seeded : forall draw s d n z, delta_nc_random draw s d (rand_new (Some n) (Some z)) = (let! e := delta_nc s d in reorder (draw z) n s e).
Proof. reflexivity. Qed.

(** The sum with the reordered delta, for any config it is applied to *)
Theorem kept_same : forall draw s x d n z e y, IsConfig s x -> FairDraw (draw z) -> delta_nc s d = Ok e ->
  delta_nc_random draw s d (rand_new (Some n) (Some z)) = Ok y -> KeepsOrder n s e y ->
  Alikewise (fun r r' => Alike s r r' /\ (valid s r = true -> valid s r' = true /\ SameData s r r' /\ cmp_eq s r r' = Ok true))
            (config_add s x e) (config_add s x y).
Proof.
  intros draw s x d n z e y C F E H K. rewrite random_seeded, E in H. cbn [bind] in H.
  apply agree. apply config_add_alike; [destruct C as (_ & T & _); auto | apply alike_refl |].
  apply (shuffled_alike n); auto. exact (reorder_spec _ _ _ _ _ F H).
Qed.

Lemma reaches_shuffled : forall s a b d e y, IsConfig s a -> IsConfig s b -> delta_nc s d = Ok e -> Alike s e y ->
  Reaches s (config_add_delta s a d) b -> Reaches s (config_add s a y) b.
Proof.
  intros s a b d e y Ca Cb E A R. unfold config_add_delta in R. rewrite E in R. cbn [bind] in R. revert R. apply reaches_trans; auto.
  apply config_add_alike; [destruct Ca as (_ & T & _); auto | apply alike_refl | exact A].
Qed.

Theorem kept_reaches : forall draw o s a b n z e y, wfs s = true -> sty s = TRoot -> IsConfig s a -> IsConfig s b -> Comparable s a b -> RootKept o s a b ->
  FairDraw (draw z) -> delta_nc s (Delta a b o) = Ok e -> delta_nc_random draw s (Delta a b o) (rand_new (Some n) (Some z)) = Ok y ->
  KeepsOrder n s e y -> Reaches s (config_add s a y) b.
Proof.
  intros draw o s a b n z e y W R Ca Cb C K F E H KO. rewrite random_seeded, E in H. cbn [bind] in H.
  apply (reaches_shuffled s a b _ e y Ca Cb E); [| apply reaches; auto].
  apply (shuffled_alike n); auto. exact (reorder_spec _ _ _ _ _ F H).
Qed.

Theorem free_reaches : forall draw o s a b n z, wfs s = true -> sty s = TRoot -> IsConfig s a -> IsConfig s b -> Comparable s a b -> RootKept o s a b ->
  FairDraw (draw z) -> NoSequence n s ->
  exists y, delta_nc_random draw s (Delta a b o) (rand_new (Some n) (Some z)) = Ok y /\ Reaches s (config_add s a y) b.
Proof.
  intros draw o s a b n z W R Ca Cb C K F N. assert (X := reaches o s a b W R Ca Cb C K).
  assert (X' := X). destruct X' as (r & Hr & _). unfold config_add_delta in Hr. apply bind_ok in Hr. destruct Hr as (e & E & _).
  destruct (reorder_total (draw z) n s e F) as (y & Y).
  { unfold delta_nc in E. cbn [d_opts d_src d_dst] in E. apply (nc_sub_known _ _ _ _ _ E); apply config_known; auto. }
  exists y. rewrite random_seeded, E. cbn [bind]. split; auto. apply (reaches_shuffled s a b _ e y Ca Cb E); auto.
  apply (free_alike n); auto. exact (reorder_spec _ _ _ _ _ F Y).
Qed.

(** ** Examples *)
Lemma Defines_In : forall s t cs, Defines s t cs -> In cs (map ce_node (flat s)) /\ stag cs = t.
Proof. intros s t cs D. apply Defines_flat in D. destruct D as (e & He & E & T). subst cs. split; auto. apply in_map. auto. Qed.

Ltac flat_in D := apply Defines_In in D; let P := fresh "P" in let Q := fresh "Q" in destruct D as (P & Q); vm_compute in P;
  repeat (destruct P as [P | P]; [| ]); try contradiction; subst.

Lemma free_case : NoSequence 0 ex_schema /\ NoSequence 2 ex_schema /\ FairDraw (swap_draw 5) /\ Comparable ex_schema ex_a ex_b /\ RootKept default_opts ex_schema ex_a ex_b /\
  delta_nc_random swap_draw ex_schema (config_sub ex_b ex_a) (rand_new (Some 0) (Some 5%Z)) <> delta_nc ex_schema (config_sub ex_b ex_a).
Proof.
  split. { intros n (cs & D & U). flat_in D; discriminate. }
  split. { intros n cs D. flat_in D; intros n' cs' D'; flat_in D'; intros n'' (cs'' & D'' & U); flat_in D''; discriminate. }
  split; [apply swap_fair |].
  split. { split; [vm_compute; reflexivity |]. split; [vm_compute; reflexivity |].
    split; [apply inplace_Ends | apply (compat_NoSwitch true)]; vm_compute; reflexivity. }
  split; [left; reflexivity |]. vm_compute; discriminate.
Qed.

(** A draw that moves nodes but no entry of a user-ordered sequence: one new rule among other nodes *)
Definition kept_b : xml := e_config [ e_node "sys" [ e_leaf "host" "r1"; ex_rule "1" "permit"; e_leaf "ntp" "n1" ] ].
Lemma kept_case : exists e y, delta_nc ex_schema (config_sub kept_b empty_config) = Ok e /\
  delta_nc_random swap_draw ex_schema (config_sub kept_b empty_config) (rand_new (Some 1) (Some 5%Z)) = Ok y /\ e <> y /\ KeepsOrder 1 ex_schema e y /\
  ~ NoSequence 1 ex_schema /\ IsConfig ex_schema kept_b /\ IsConfig ex_schema empty_config /\ Comparable ex_schema empty_config kept_b.
Proof.
  eexists. eexists. split; [vm_compute; reflexivity |]. split; [vm_compute; reflexivity |]. split; [vm_compute; discriminate |].
  split. { constructor. constructor; [| constructor]. intros cs D. constructor. intros n (cs' & D' & U).
    flat_in D; try discriminate. flat_in D'; try discriminate; reflexivity. }
  split. { intro N. cbn [NoSequence] in N. destruct (schema_child ex_schema "sys") as [cs |] eqn:E; [| discriminate].
    apply (N "sys" cs (schema_child_Defines _ _ _ E) "rule"). vm_compute in E. injection E as E. subst cs.
    eexists. split; [apply schema_child_Defines; vm_compute; reflexivity | reflexivity]. }
  split; [repeat split; vm_compute; reflexivity |]. split; [repeat split; vm_compute; reflexivity |].
  split; [vm_compute; reflexivity |]. split; [vm_compute; reflexivity |].
  split; [apply inplace_Ends | apply (compat_NoSwitch true)]; vm_compute; reflexivity.
Qed.
