(** What a diff says of each line, and a device that is given a whole config. *)
From Coq Require Import String Ascii List Bool Arith Lia.
From Verif Require Import Base BaseP RunningM RunSpec RunNestSpec RunDevSpec RunDiffP RunCliP RunDevP RunOrderP.
Import ListNotations.
Open Scope string_scope.
Open Scope list_scope.

Definition KeptIn (l1 l2 d : list item) (k : string) (v1 v2 : option (list item)) : Prop :=
  In (It k v1 ISame) l1 /\ In (It k v2 ISame) l2 /\ (forall v, ~ In (It k v IMinus) d) /\ (forall v, ~ In (It k v IPlus) d) /\
  ((v1 = v2 /\ forall o, In (It k o ISame) d -> o = v1) \/
   exists w, Script (kids v1) (kids v2) w /\ In (It k (Some w) ISame) d /\ forall o, In (It k o ISame) d -> o = Some w).

Record facts (l1 l2 d : list item) : Prop := {
  f_minus : forall k v, In (It k v IMinus) d -> In (It k v ISame) l1;
  f_plus : forall k v, In (It k v IPlus) d -> In (It k v ISame) l2;
  f_from : forall k v, In (It k v ISame) l1 -> In (It k v IMinus) d \/ exists v2, KeptIn l1 l2 d k v v2;
  f_to : forall k v, In (It k v ISame) l2 -> In (It k v IPlus) d \/ exists v1, KeptIn l1 l2 d k v1 v;
  f_kept : forall k v, In (It k v ISame) d -> exists v1 v2, KeptIn l1 l2 d k v1 v2;
  f_info : forall k v, ~ In (It k v IBoth) d }.

Lemma In_keys : forall k v i l, In (It k v i) l -> In k (keys l).
Proof. intros k v i l H. change k with (ikey (It k v i)). apply in_map. auto. Qed.
Lemma keys_In : forall k l, In k (keys l) -> exists v i, In (It k v i) l.
Proof. intros k l H. apply in_map_iff in H. destruct H as ([k' v i] & E & I1). cbn in E. subst. eauto. Qed.
Lemma one_key : forall k v i v' i' l, NoDup (keys l) -> In (It k v i) l -> In (It k v' i') l -> v = v' /\ i = i'.
Proof.
  induction l as [| x l IH]; cbn; intros N H H'; [destruct H |]. inversion N as [| a b Hn N']; subst.
  destruct H as [H | H], H' as [H' | H']; subst.
  - injection H' as E1 E2. auto.
  - exfalso. apply Hn. cbn. apply (In_keys _ _ _ _ H').
  - exfalso. apply Hn. cbn. apply (In_keys _ _ _ _ H).
  - auto.
Qed.
Lemma KeptIn_more : forall h1 h2 h3 l1 l2 d k v1 v2, KeptIn l1 l2 d k v1 v2 -> (forall x, In x h3 -> ikey x <> k) ->
  KeptIn (h1 ++ l1) (h2 ++ l2) (h3 ++ d) k v1 v2.
Proof.
  intros h1 h2 h3 l1 l2 d k v1 v2 (A & B & C & D & E) H.
  assert (X : forall v i, In (It k v i) (h3 ++ d) -> In (It k v i) d).
  { intros v i Q. apply in_app_or in Q. destruct Q as [Q | Q]; auto. destruct (H _ Q). reflexivity. }
  split; [apply in_or_app; auto |]. split; [apply in_or_app; auto |]. split; [intros v Q; apply (C v); auto |]. split; [intros v Q; apply (D v); auto |].
  destruct E as [[E F] | (w & E & F & G)]; [left; split; auto |]. right. exists w. split; auto. split; [apply in_or_app; auto |]. intros; auto.
Qed.

Lemma facts_nil : facts [] [] [].
Proof. constructor; cbn; intros; tauto. Qed.
(** The three shapes of a step *)
Lemma facts_minus : forall k v l1 l2 d, facts l1 l2 d -> ~ In k (keys l1) -> facts (It k v ISame :: l1) l2 (It k v IMinus :: d).
Proof.
  intros k v l1 l2 d F N. assert (M : forall k' v1 v2, KeptIn l1 l2 d k' v1 v2 -> KeptIn (It k v ISame :: l1) l2 (It k v IMinus :: d) k' v1 v2).
  { intros k' v1 v2 K. apply (KeptIn_more [It k v ISame] [] [It k v IMinus]); auto. intros x [E | []] E2. subst x. cbn in E2. subst k'.
    apply N. destruct K as (K & _). apply (In_keys _ _ _ _ K). }
  constructor; cbn [In]; intros k' v'.
  - intros [E | H]; [injection E as E1 E2; subst; auto | right; apply (f_minus _ _ _ F); auto].
  - intros [E | H]; [discriminate |]. apply (f_plus _ _ _ F); auto.
  - intros [E | H]; [injection E as E1 E2; subst; auto |]. destruct (f_from _ _ _ F _ _ H) as [Q | (v2 & Q)]; eauto.
  - intros H. destruct (f_to _ _ _ F _ _ H) as [Q | (v1 & Q)]; eauto.
  - intros [E | H]; [discriminate |]. destruct (f_kept _ _ _ F _ _ H) as (v1 & v2 & Q). eauto.
  - intros [E | H]; [discriminate |]. apply (f_info _ _ _ F _ _ H).
Qed.
Lemma facts_plus : forall k v l1 l2 d, facts l1 l2 d -> ~ In k (keys l2) -> facts l1 (It k v ISame :: l2) (It k v IPlus :: d).
Proof.
  intros k v l1 l2 d F N. assert (M : forall k' v1 v2, KeptIn l1 l2 d k' v1 v2 -> KeptIn l1 (It k v ISame :: l2) (It k v IPlus :: d) k' v1 v2).
  { intros k' v1 v2 K. apply (KeptIn_more [] [It k v ISame] [It k v IPlus]); auto. intros x [E | []] E2. subst x. cbn in E2. subst k'.
    apply N. destruct K as (_ & K & _). apply (In_keys _ _ _ _ K). }
  constructor; cbn [In]; intros k' v'.
  - intros [E | H]; [discriminate |]. apply (f_minus _ _ _ F); auto.
  - intros [E | H]; [injection E as E1 E2; subst; auto | right; apply (f_plus _ _ _ F); auto].
  - intros H. destruct (f_from _ _ _ F _ _ H) as [Q | (v2 & Q)]; eauto.
  - intros [E | H]; [injection E as E1 E2; subst; auto |]. destruct (f_to _ _ _ F _ _ H) as [Q | (v1 & Q)]; eauto.
  - intros [E | H]; [discriminate |]. destruct (f_kept _ _ _ F _ _ H) as (v1 & v2 & Q). eauto.
  - intros [E | H]; [discriminate |]. apply (f_info _ _ _ F _ _ H).
Qed.
Lemma facts_same : forall k v1 v2 h l1 l2 d, facts l1 l2 d -> ~ In k (keys l1) -> ~ In k (keys l2) ->
  (v1 = v2 /\ (h = [] \/ h = [It k v1 ISame]) \/ exists w, Script (kids v1) (kids v2) w /\ h = [It k (Some w) ISame]) ->
  facts (It k v1 ISame :: l1) (It k v2 ISame :: l2) (h ++ d).
Proof.
  intros k v1 v2 h l1 l2 d F N1 N2 H.
  assert (HS : forall x, In x h -> ikey x = k /\ iinfo x = ISame).
  { intros x Q. destruct H as [[_ [E | E]] | (w & _ & E)]; subst h; [destruct Q | |]; destruct Q as [Q | []]; subst x; auto. }
  assert (M : forall k' o1 o2, KeptIn l1 l2 d k' o1 o2 -> KeptIn (It k v1 ISame :: l1) (It k v2 ISame :: l2) (h ++ d) k' o1 o2).
  { intros k' o1 o2 K. apply (KeptIn_more [It k v1 ISame] [It k v2 ISame] h); auto. intros x Q E. destruct (HS x Q) as [E2 _].
    apply N1. destruct K as (K & _). rewrite <- E2, E. apply (In_keys _ _ _ _ K). }
  assert (Nd : forall v i, ~ In (It k v i) d).
  { intros v i Q. destruct i.
    - destruct (f_kept _ _ _ F _ _ Q) as (a & b & K & _). apply N1. apply (In_keys _ _ _ _ K).
    - apply N2. apply (In_keys _ _ _ _ (f_plus _ _ _ F _ _ Q)).
    - apply N1. apply (In_keys _ _ _ _ (f_minus _ _ _ F _ _ Q)).
    - apply (f_info _ _ _ F _ _ Q). }
  assert (K : KeptIn (It k v1 ISame :: l1) (It k v2 ISame :: l2) (h ++ d) k v1 v2).
  { split; [left; auto |]. split; [left; auto |].
    split. { intros v Q. apply in_app_or in Q. destruct Q as [Q | Q]; [destruct (HS _ Q); discriminate | apply (Nd _ _ Q)]. }
    split. { intros v Q. apply in_app_or in Q. destruct Q as [Q | Q]; [destruct (HS _ Q); discriminate | apply (Nd _ _ Q)]. }
    assert (X : forall o, In (It k o ISame) (h ++ d) -> In (It k o ISame) h).
    { intros o Q. apply in_app_or in Q. destruct Q as [Q | Q]; auto. destruct (Nd _ _ Q). }
    destruct H as [[E [Eh | Eh]] | (w & Hw & E)].
    - left. split; auto. intros o Q. apply X in Q. rewrite Eh in Q. destruct Q.
    - left. split; auto. intros o Q. apply X in Q. rewrite Eh in Q. destruct Q as [Q | []]. injection Q as Q. auto.
    - right. exists w. split; auto. split; [apply in_or_app; left; rewrite E; left; auto |]. intros o Q. apply X in Q. rewrite E in Q. destruct Q as [Q | []]. injection Q as Q. auto. }
  constructor; intros k' v'.
  - intros Q. apply in_app_or in Q. destruct Q as [Q | Q]; [destruct (HS _ Q); discriminate |]. right. apply (f_minus _ _ _ F); auto.
  - intros Q. apply in_app_or in Q. destruct Q as [Q | Q]; [destruct (HS _ Q); discriminate |]. right. apply (f_plus _ _ _ F); auto.
  - intros [E | Q]; [injection E as E1 E2; subst; eauto |]. destruct (f_from _ _ _ F _ _ Q) as [R | (o & R)]; [left; apply in_or_app; auto | eauto].
  - intros [E | Q]; [injection E as E1 E2; subst; eauto |]. destruct (f_to _ _ _ F _ _ Q) as [R | (o & R)]; [left; apply in_or_app; auto | eauto].
  - intros Q. apply in_app_or in Q. destruct Q as [Q | Q].
    + destruct (HS _ Q) as [E _]. cbn in E. subst. eauto.
    + destruct (f_kept _ _ _ F _ _ Q) as (o1 & o2 & R). eauto.
  - intros Q. apply in_app_or in Q. destruct Q as [Q | Q]; [destruct (HS _ Q); discriminate |]. apply (f_info _ _ _ F _ _ Q).
Qed.

Lemma Script_facts : forall l1 l2 d, Script l1 l2 d -> NoDup (keys l1) -> NoDup (keys l2) -> plain l1 = true -> plain l2 = true -> facts l1 l2 d.
Proof.
  induction 1 as [| k v l1 l2 d HS IH | k v l1 l2 d HS IH | x l1 l2 d HS IH | x l1 l2 d HS IH | k v1 v2 w l1 l2 d Hv Hw _ HS IH | k v w l1 l2 d Hw _ HS IH | k v w l1 l2 d Hw _ HS IH];
    intros N1 N2 P1 P2; cbn [keys map] in N1, N2; try (apply NoDup_cons_iff in N1; destruct N1 as [H1 N1]); try (apply NoDup_cons_iff in N2; destruct N2 as [H2 N2]);
    try (apply plain_cons in P1; destruct P1 as [Q1 P1]); try (apply plain_cons in P2; destruct P2 as [Q2 P2]).
  - apply facts_nil.
  - apply facts_minus; auto.
  - apply facts_plus; auto.
  - destruct (plain_shape _ Q1) as (k & v & E & _). subst x. apply (facts_same k v v []); auto.
  - destruct (plain_shape _ Q1) as (k & v & E & _). subst x. apply (facts_same k v v [It k v ISame]); auto.
  - apply (facts_same k (Some v1) (Some v2) [It k (Some w) ISame]); auto. right. exists w. auto.
  - apply (facts_same k (Some v) None [It k (Some w) ISame]); auto. right. exists w. auto.
  - apply (facts_same k None (Some v) [It k (Some w) ISame]); auto. right. exists w. auto.
Qed.

(** ** A config that is entered as a whole *)
Lemma ordinary_In : forall l k v i, ordinary l = true -> In (It k v i) l -> ordinary_key k = true /\ i = ISame /\ v <> Some [] /\ ordinary (kids v) = true.
Proof.
  intros l k v i O H. unfold ordinary in O. rewrite forallb_forall in O. specialize (O _ H). cbn [ordinary_item] in O.
  apply andb_true_iff in O. destruct O as [O1 O2]. apply andb_true_iff in O1. destruct O1 as [O1 O3]. apply info_eqb_eq in O3.
  split; auto. split; auto. destruct v as [[| x v] |]; [discriminate | | split; [discriminate | auto]]. split; [discriminate |]. exact O2.
Qed.
Lemma Saying_In : forall l k v i, Forall Saying l -> In (It k v i) l ->
  unsigned k /\ (forall x, k = ("no " ++ x)%string -> v = None /\ ordinary_key x = true /\ starts "no " x = false) /\ Forall Saying (kids v).
Proof.
  intros l k v i O H. rewrite Forall_forall in O. specialize (O _ H). inversion O as [a b c U N R]; subst. split; auto. split; auto.
  destruct v; cbn; auto.
Qed.
Lemma distinct_below : forall l k v i, distinct l -> In (It k v i) l -> distinct (kids v).
Proof. intros l k [v |] i D H; [apply (distinct_kids _ _ _ _ D H) |]. split; constructor. Qed.
Lemma Settled_kids : forall dv l k v i, Settled dv l -> In (It k v i) l -> Settled dv (kids v).
Proof.
  intros dv l k [v |] i D H; inversion D as [a A0 A B]; subst; [apply (B _ _ _ H) |]. constructor; cbn; tauto.
Qed.
Lemma Settled_shows : forall dv l x, Settled dv l -> In x (keys l) -> shows dv x = true.
Proof. intros dv l x D. inversion D; auto. Qed.
Lemma Settled_pair : forall dv l x y, Settled dv l -> In x (keys l) -> In y (keys l) -> x <> y -> evicts dv x y = false.
Proof. intros dv l x y D. inversion D; auto. Qed.
(** What is asked of a config *)
Record tree (l : list item) : Prop := { t_ord : ordinary l = true; t_dis : distinct l; t_say : Forall Saying l }.
Lemma tree_kids : forall l k v i, tree l -> In (It k v i) l -> tree (kids v).
Proof.
  intros l k v i [O D A] H. constructor; [apply (ordinary_In _ _ _ _ O H) | apply (distinct_below _ _ _ _ D H) | apply (Saying_In _ _ _ _ A H)].
Qed.
Lemma tree_full : forall l, tree l -> full l.
Proof.
  intros l [O D A]. split; [apply D |]. intros k i H. destruct (ordinary_In _ _ _ _ O H) as (_ & _ & Q & _). apply Q. auto.
Qed.
Lemma tree_info : forall l k v i, tree l -> In (It k v i) l -> i = ISame.
Proof. intros l k v i T H. apply (ordinary_In _ _ _ _ (t_ord _ T) H). Qed.
Lemma tree_key : forall l k v i, tree l -> In (It k v i) l -> ordinary_key k = true /\ unsigned k /\
  forall x, k = ("no " ++ x)%string -> v = None /\ ordinary_key x = true /\ starts "no " x = false.
Proof.
  intros l k v i T H. destruct (ordinary_In _ _ _ _ (t_ord _ T) H) as (O & _). destruct (Saying_In _ _ _ _ (t_say _ T) H) as (U & N & _). auto.
Qed.
Lemma ordinary_plain : forall x, ordinary_item x = true -> plain_item x = true.
Proof.
  induction x as [k v i IH] using item_ind'. intros O. cbn [ordinary_item plain_item] in *. apply andb_true_iff in O. destruct O as [O1 O2].
  apply andb_true_iff in O1. destruct O1 as [_ O3]. rewrite O3. cbn. destruct v as [l |]; auto. apply andb_true_iff in O2. destruct O2 as [_ O2].
  rewrite forallb_forall in *. intros y Hy. specialize (IH l eq_refl). rewrite Forall_forall in IH. auto.
Qed.
Lemma tree_plain : forall l, tree l -> plain l = true.
Proof. intros l [O _ _]. unfold plain, ordinary in *. rewrite forallb_forall in *. intros x H. apply ordinary_plain. auto. Qed.
Lemma Same_nil : Same [] [].
Proof. apply same; cbn; [constructor | constructor | tauto | tauto]. Qed.

Lemma fresh : forall dv n l, depth l <= n -> tree l -> Settled dv l -> Same (run dv l []) l.
Proof.
  induction n as [n IH] using lt_wf_ind. intros l Hn T Q. pose proof (tree_full _ T) as F.
  apply Same_look; auto. { apply full_run. split; [constructor | intros k i []]. }
  intros k. destruct (look k l) as [s |] eqn:L.
  - apply look_Some in L. destruct L as (v & i & I1 & E). subst s. destruct (in_split _ _ I1) as (a & b & El).
    destruct F as [N _]. rewrite El in N. unfold keys in N. rewrite map_app in N. cbn [map ikey] in N. apply NoDup_remove in N. destruct N as [_ N].
    assert (NO : forall c, In c a \/ In c b -> ikey c <> k). { intros c H E. apply N. rewrite <- E. apply in_or_app. destruct H; [left | right]; apply in_map; auto. }
    rewrite El. rewrite run_own.
    + rewrite run_other by (intros c Hc [E _]; apply (NO c); auto). cbn [look].
      assert (O : forall b0 : bool, old (if b0 then None else None) = []) by (intros []; auto). rewrite O. destruct v as [w |]; cbn; [| apply Same_nil].
      assert (Dw : depth w < n). { assert (depth_item (It k (Some w) i) <= depth l) by (apply depth_In; auto). rewrite (depth_val _ w) in H by auto. lia. }
      apply (IH (depth w)); auto; [apply (tree_kids _ _ _ _ T I1) | apply (Settled_kids _ _ _ _ _ Q I1)].
    + apply (Settled_shows _ _ _ Q (In_keys _ _ _ _ I1)).
    + intros c Hc [E _]. apply (NO c); auto.
    + intros c Hc [E _]. apply (NO c); auto.
    + intros [k' v' i'] Hc. unfold kills. cbn [ikey]. assert (I2 : In (It k' v' i') l). { rewrite El. apply in_or_app. right. right. auto. }
      rewrite (Settled_pair _ _ k' k Q (In_keys _ _ _ _ I2) (In_keys _ _ _ _ I1)); [apply andb_false_r |]. exact (NO _ (or_intror Hc)).
  - apply look_None in L. rewrite run_other by (intros c Hc [E _]; apply L; rewrite <- E; apply in_map; auto).
    cbn [look]. destruct (existsb _ l); auto.
Qed.
