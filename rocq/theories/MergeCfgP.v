(** Sum of two configs. *)
From Coq Require Import String Ascii List Bool Arith ZArith Lia Permutation.
From Verif Require Import Base BaseP XmlM CalcM CalcP NetconfM ConfigM ListP DataSpec DataP DeltaSpec DeltaR NameP AddP TrimSpec TrimP ConfigSpec TrimPropsP ConfigP EditSpec EditP EditSemP EditValP MergeP.
Import ListNotations.
Open Scope string_scope.
Open Scope list_scope.

Lemma no_ll_kid : forall s k, no_ll_default s = true -> In k (skids s) -> no_ll_default k = true.
Proof.
  intros [i ks] k H Hin. cbn [no_ll_default] in H. apply andb_true_iff in H. destruct H as [_ H]. rewrite forallb_forall in H. auto.
Qed.
Lemma no_ll_Defines : forall s t cs, no_ll_default s = true -> Defines s t cs -> no_ll_default cs = true.
Proof.
  intros s t cs H (_ & k & Hin & T). apply (no_ll_kid s k H) in Hin. clear - T Hin. induction T; auto; apply IHT; eapply no_ll_kid; eauto.
Qed.
Lemma no_ll_At : forall s x p s' n, At s x p s' n -> no_ll_default s = true -> no_ll_default s' = true.
Proof. intros s x p s' n H. induction H; intro N; auto. apply IHAt. eapply no_ll_Defines; eauto. Qed.

Lemma KeptAt_At : forall s x p s' n, KeptAt s x p s' n -> At s x p s' n.
Proof. intros s x p s' n H. induction H; econstructor; eauto. Qed.

Lemma KeptAt_last : forall q s x u s' n, KeptAt s x (q ++ [u]) s' n ->
  exists s1 n1, At s x q s1 n1 /\ In n (xkids n1) /\ Defines s1 (xtag n) s' /\ Ident s' n u /\ ~ OnlyDefault s' n1 n.
Proof.
  induction q as [| w q IH]; intros s x u s' n H; simpl in H; inversion H as [| ? ? c cs ? ? ? ? A1 A2 A3 A4 A5]; subst.
  - inversion A5; subst. exists s, x. split; auto. constructor.
  - destruct (IH cs c u s' n A5) as (s1 & n1 & B & R). exists s1, n1. split; auto. econstructor; eauto.
Qed.

Lemma trimmed_none : forall s y q s1 n1 c cs u, wfs s = true -> keys_plain s = true -> IsConfig s y ->
  At s y q s1 n1 -> In c (xkids n1) -> Defines s1 (xtag c) cs -> Ident cs c u -> OnlyDefault cs n1 c -> False.
Proof.
  intros s y q s1 n1 c cs u W KP (V & _ & T) A C1 C2 C3 OD.
  assert (A2 : At s y (q ++ [u]) cs c) by (eapply At_app; eauto; econstructor; eauto; constructor).
  destruct (trim_spec s y y W KP V T) as (TS & _). destruct (TS (q ++ [u]) (value_of cs c)) as (TS1 & _).
  destruct TS1 as (s' & n & K & _). { exists cs, c. auto. }
  destruct (At_fun _ s y _ _ _ _ V A2 (KeptAt_At _ _ _ _ _ K)) as [E1 E2]. subst s' n.
  apply KeptAt_last in K. destruct K as (s2 & n2 & B & _ & _ & _ & N). destruct (At_fun _ s y _ _ _ _ V A B) as [E1 E2]. subst s2 n2. auto.
Qed.

Lemma snoc_split : forall s x q u s' n, At s x (q ++ [u]) s' n -> exists s1 n1, At s x q s1 n1 /\ Child s1 n1 u s' n.
Proof.
  intros s x q u s' n H. apply At_split in H. destruct H as (s1 & n1 & A & B). exists s1, n1. split; auto.
  inversion B as [| ? ? c cs ? ? ? ? B1 B2 B3 B4]; subst. inversion B4; subst. split; auto.
Qed.

Lemma At_is_Target : forall s x p s' n, At s x p s' n -> Target s p s'.
Proof.
  intros s x p s' n H. induction H as [s x | s x k cs u p s1 n1 H1 H2 H3 H4 IH]; [constructor |]. apply (tg_down s u p cs); auto.
  replace (fst u) with (xtag k) by (inversion H3; auto). auto.
Qed.

Section Sum.
Variables (s : snode) (a b r : xml).
Hypotheses (W : wfs s = true) (KP : keys_plain s = true) (NLL : no_ll_default s = true).
Hypotheses (CA : IsConfig s a) (CB : IsConfig s b) (VR : valid s r = true).
Hypothesis HU : forall p v, Holds s r p v <-> Union s a b p v.

Lemma sum_source : forall p v, Holds s r p v -> exists y, IsConfig s y /\ Holds s y p v /\
  forall q v', Holds s y (p ++ q) v' -> Holds s r (p ++ q) v'.
Proof.
  intros p v H. apply HU in H. destruct H as [H | [H N]].
  - exists b. split; auto. split; auto. intros q v' X. apply HU. left. auto.
  - exists a. split; auto. split; auto. intros q v' X. apply HU. right. split; auto.
    intros v2 (s2 & n2 & A3 & _). apply At_split in A3. destruct A3 as (s3 & n3 & A3 & _). apply (N (value_of s3 n3)). exists s3, n3. auto.
Qed.

Lemma sum_none : forall cs n1 c, OnlyDefault cs n1 c -> forall q s1 u, At s r q s1 n1 -> Child s1 n1 u cs c -> False.
Proof.
  assert (EMPTY : forall cs c q s1 n1 u, At s r q s1 n1 -> Child s1 n1 u cs c -> xkids c = [] ->
            (forall n x, xkids x = [] -> OnlyDefault cs n x) -> False).
  { intros cs c q s1 n1 u A (C1 & C2 & C3) E OD.
    assert (A2 : At s r (q ++ [u]) cs c) by (eapply At_app; eauto; econstructor; eauto; constructor).
    destruct (sum_source (q ++ [u]) (value_of cs c)) as (y & CY & (s' & n' & B & _) & UP). { exists cs, c. auto. }
    assert (s' = cs). { symmetry. apply (At_Target s y (q ++ [u]) s' n'); auto; [apply CY | eapply At_is_Target; eauto]. } subst s'.
    destruct (snoc_split s y q u cs n' B) as (s2 & n2 & B1 & (B2 & B3 & B4)).
    apply (trimmed_none s y q s2 n2 n' cs u); auto. apply OD. destruct (xkids n') as [| k kr] eqn:EK; auto. exfalso.
    assert (Vn : valid cs n' = true) by (apply (At_valid (q ++ [u]) s y); auto; apply CY).
    destruct (valid_inv cs n' Vn) as (_ & (l & I) & K). assert (Hk : In k (xkids n')) by (rewrite EK; left; auto).
    destruct (K k Hk) as (ks & S & Vk). destruct (Index_In cs _ l k I Hk) as (w & Hw). assert (U := Index_uid cs _ l w k I Hw).
    destruct (UP [w] (value_of ks k)) as (s4 & n4 & D & _).
    { exists ks, k. split; auto. apply (At_app _ s y cs n'); auto. apply (at_down cs n' k ks w [] ks k Hk (schema_child_Defines _ _ _ S) (Ident_uid cs k ks w S U)). constructor. }
    apply At_split in D. destruct D as (s5 & n5 & D1 & D2). destruct (At_fun _ s r _ _ _ _ VR A2 D1) as [E1 E2]. subst s5 n5.
    inversion D2 as [| ? ? c0 ? ? ? ? ? D3]; subst. rewrite E in D3. destruct D3. }
  intros cs n1 c OD. induction OD as [cs n1 c v T D X | cs n1 c d ds vs T D J LV Z | cs n1 c T P HK IH | cs n1 c T HK IH];
    intros q s1 u A C; assert (C0 := C); destruct C as (C1 & C2 & C3);
    assert (A2 : At s r (q ++ [u]) cs c) by (eapply At_app; eauto; econstructor; eauto; constructor).
  - destruct (sum_source (q ++ [u]) (Some v)) as (y & CY & (s' & n' & B & EV) & _). { exists cs, c. split; auto. unfold value_of. rewrite T. auto. }
    assert (s' = cs). { symmetry. apply (At_Target s y (q ++ [u]) s' n'); auto; [apply CY | eapply At_is_Target; eauto]. } subst s'.
    destruct (snoc_split s y q u cs n' B) as (s2 & n2 & B1 & (B2 & B3 & B4)).
    apply (trimmed_none s y q s2 n2 n' cs u); auto. unfold value_of in EV. rewrite T in EV. apply (od_leaf cs n2 n' v); auto.
  - assert (N := no_ll_At s r _ cs c A2 NLL). destruct cs as [i ks]. cbn [no_ll_default] in N. unfold sty in T. simpl in T, D. rewrite T, D in N. discriminate.
  - destruct (xkids c) as [| k kr] eqn:EK.
    + apply (EMPTY cs c q s1 n1 u); auto. intros n x E. apply od_container; auto. intros k0 ks0 Hk. rewrite E in Hk. destruct Hk.
    + assert (Vc : valid cs c = true) by (apply (At_valid (q ++ [u]) s r); auto).
      destruct (valid_inv cs c Vc) as (_ & (l & I) & K). rewrite EK in I, K. destruct (K k (or_introl eq_refl)) as (ks & S & Vk).
      destruct (Index_In cs _ l k I (or_introl eq_refl)) as (w & Hw). assert (U := Index_uid cs _ l w k I Hw).
      apply (IH k ks (or_introl eq_refl) (schema_child_Defines _ _ _ S) (q ++ [u]) cs w); auto. split; [rewrite EK; left; auto |].
      split; [apply schema_child_Defines; auto | apply (Ident_uid cs); auto].
  - destruct (xkids c) as [| k kr] eqn:EK.
    + apply (EMPTY cs c q s1 n1 u); auto. intros n x E. apply od_list; auto. intros k0 ks0 Hk. rewrite E in Hk. destruct Hk.
    + assert (Vc : valid cs c = true) by (apply (At_valid (q ++ [u]) s r); auto).
      destruct (valid_inv cs c Vc) as (_ & (l & I) & K). rewrite EK in I, K. destruct (K k (or_introl eq_refl)) as (ks & S & Vk).
      destruct (Index_In cs _ l k I (or_introl eq_refl)) as (w & Hw). assert (U := Index_uid cs _ l w k I Hw).
      apply (IH k ks (or_introl eq_refl) (schema_child_Defines _ _ _ S) (q ++ [u]) cs w); auto. split; [rewrite EK; left; auto |].
      split; [apply schema_child_Defines; auto | apply (Ident_uid cs); auto].
Qed.
End Sum.

Theorem config_sum : forall s a b, wfs s = true -> keys_plain s = true -> sty s = TRoot -> IsConfig s a -> IsConfig s b ->
  exists r0 r, config_add s a b = Ok r /\ valid s r0 = true /\ (forall p v, Holds s r0 p v <-> Union s a b p v) /\ TrimOf s r0 r /\
    (no_ll_default s = true -> forall p v, Holds s r p v <-> Union s a b p v).
Proof.
  intros s a b W KP RT CA CB. assert (NL : ~ Leafy s) by (intros [L | L]; congruence).
  destruct (merge_spec s a b W NL (proj1 CA) (proj1 CB)) as (r0 & R & VR & TG & HU).
  destruct (trim_total r0 s VR) as (r & T). exists r0, r.
  assert (E : config_add s a b = Ok r).
  { unfold config_add. rewrite R. cbn [bind]. unfold config_new. rewrite (retrieve_valid s r0); auto; [| rewrite TG; apply CA]. rewrite T. auto. }
  split; auto. split; auto. split; auto. assert (TS := trim_spec s r0 r W KP VR T). split; auto.
  intros NLL p v. destruct TS as (TS & _). rewrite TS, <- HU. split.
  - intros (s' & n & K & EV). exists s', n. split; auto. apply KeptAt_At. auto.
  - intros (s' & n & A & EV). exists s', n. split; auto.
    destruct (kept_or_default p s r0 r s' n W KP VR T A) as [K | (q & s1 & n1 & c & cs & u & rr & _ & A1 & C1 & C2 & C3 & OD)]; auto.
    exfalso. apply (sum_none s a b r0 W KP NLL CA CB VR HU cs n1 c OD q s1 u A1). split; auto.
Qed.
