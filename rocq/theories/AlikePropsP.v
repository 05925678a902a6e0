(** Proofs of the properties of operators on equal operands. *)
From Coq Require Import String Ascii List Bool Arith ZArith Lia Permutation.
From Verif Require Import Base BaseP XmlM CalcM CalcP NetconfM ConfigM DataSpec DataP ListP CompareP DeltaSpec DeltaR NameP AddP TrimP ConfigSpec ConfigP CompatP
  DeltaPropsP ExampleM ExampleDelta AlikeSpec AlikeP AlikeSumP AlikeDataP AlikeCheckP.
Import ListNotations.
Open Scope string_scope.
Open Scope list_scope.

Lemma config_data_alike : forall s x y, IsConfig s x -> IsConfig s y -> SameData s x y -> Alike s x y.
Proof. intros s x y (V & T & _) (V' & T' & _) D. apply alike_same_iff; auto. congruence. Qed.

Lemma alike_IsConfig : forall s x y, IsConfig s x -> Alike s x y -> IsConfig s y.
Proof.
  intros s x y (V & T & N) A. destruct (alike_valid x s y V A) as (V' & D). split; auto. split.
  - apply alike_inv in A. destruct A as (A & _). congruence.
  - apply (trimmed_same y s x); auto. apply Same_sym. auto.
Qed.

Lemma alike_eq : forall s x y, valid s x = true -> Alike s x y -> valid s y = true /\ SameData s x y /\ cmp_eq s x y = Ok true.
Proof.
  intros s x y V A. destruct (alike_valid x s y V A) as (V' & D). split; auto. assert (SD := Same_SameData s x y V V' D). split; auto.
  destruct D as (D1 & D2). unfold cmp_eq. rewrite D1, D2. auto.
Qed.

(** Both fail, or the results are alike, and equal if one of them is well-formed. *)
Definition Agree (s : snode) (r r' : res xml) : Prop :=
  Alikewise (fun x y => Alike s x y /\ (valid s x = true -> valid s y = true /\ SameData s x y /\ cmp_eq s x y = Ok true)) r r'.

Lemma agree : forall s r r', Alikewise (Alike s) r r' -> Agree s r r'.
Proof. intros s [x |] [y |] H; simpl in *; auto. split; auto. intro V. apply alike_eq; auto. Qed.

Theorem compare_alike : forall s x x' y y', valid s x = true -> valid s x' = true -> valid s y = true -> valid s y' = true ->
  xtag x = xtag x' -> xtag y = xtag y' -> SameData s x x' -> SameData s y y' ->
  cmp_le s x y = cmp_le s x' y' /\ cmp_lt s x y = cmp_lt s x' y' /\ cmp_ge s x y = cmp_ge s x' y' /\ cmp_gt s x y = cmp_gt s x' y' /\
  cmp_eq s x y = cmp_eq s x' y' /\ cmp_ne s x y = cmp_ne s x' y'.
Proof.
  intros s x x' y y' V1 V2 V3 V4 T1 T2 D1 D2. assert (A : Alike s x x') by (apply alike_same_iff; auto). assert (B : Alike s y y') by (apply alike_same_iff; auto).
  assert (E1 := le_alike s x x' y y' V1 V3 A B). assert (E2 := le_alike s y y' x x' V3 V1 B A).
  unfold cmp_le, cmp_lt, cmp_ge, cmp_gt, cmp_eq, cmp_ne. rewrite E1, E2. repeat split.
Qed.

Theorem add_agree : forall s a a' y y', IsConfig s a -> IsConfig s a' -> SameData s a a' -> Alike s y y' -> Agree s (config_add s a y) (config_add s a' y').
Proof.
  intros s a a' y y' C C' D A. apply agree. apply config_add_alike; auto; [destruct C as (_ & T & _); auto | apply config_data_alike; auto].
Qed.

Theorem add_delta_agree : forall s a a' d, IsConfig s a -> IsConfig s a' -> SameData s a a' -> Agree s (config_add_delta s a d) (config_add_delta s a' d).
Proof.
  intros s a a' d C C' D. unfold config_add_delta. destruct (delta_nc s d) as [e |]; [| exact I]. cbn [bind]. apply add_agree; auto. apply alike_refl.
Qed.

Theorem sum_agree : forall s a a' b b', IsConfig s a -> IsConfig s a' -> SameData s a a' -> IsConfig s b -> IsConfig s b' -> SameData s b b' ->
  Agree s (config_add s a b) (config_add s a' b').
Proof. intros. apply add_agree; auto. apply config_data_alike; auto. Qed.

Lemma reaches_trans : forall s r r' b, Alikewise (Alike s) r r' -> IsConfig s b -> Reaches s r b -> Reaches s r' b.
Proof.
  intros s r r' b H Cb (x & E & C & D & Q). subst r. destruct r' as [y |]; simpl in H; [| contradiction].
  exists y. split; auto. assert (Cy := alike_IsConfig s x y C H). split; auto.
  destruct C as (V & _). destruct (alike_valid x s y V H) as (V' & S). destruct Cb as (Vb & Tb & _).
  assert (SB : Same s x b) by (unfold cmp_eq, rand in Q; destruct (node_le s x b) as [[|] |] eqn:Q1; simpl in Q; try discriminate; split; auto).
  assert (S2 : Same s y b) by (eapply Same_trans; [apply Same_sym; eauto | auto]).
  split; [apply Same_SameData; auto |]. destruct S2 as (S3 & S4). unfold cmp_eq. rewrite S3, S4. auto.
Qed.

Theorem reaches_from : forall s a a' d b, IsConfig s a -> IsConfig s a' -> SameData s a a' -> IsConfig s b ->
  Reaches s (config_add_delta s a d) b -> Reaches s (config_add_delta s a' d) b.
Proof.
  intros s a a' d b C C' D Cb. apply reaches_trans; auto. unfold config_add_delta. destruct (delta_nc s d) as [e |]; [| exact I]. cbn [bind].
  apply config_add_alike; [destruct C as (_ & T & _); auto | apply config_data_alike; auto | apply alike_refl].
Qed.

(** [(a + d) - d] *)
Theorem rollback : forall o s a b r, wfs s = true -> sty s = TRoot -> IsConfig s a -> IsConfig s b -> Comparable s a b -> Comparable s b a ->
  RootKept o s a b -> config_add_delta s a (Delta a b o) = Ok r -> Reaches s (config_sub_delta s r (Delta a b o)) a.
Proof.
  intros o s a b r W R Ca Cb C1 C2 K E. assert (H := reaches o s a b W R Ca Cb C1 K). destruct H as (x & X & Cx & D & _). rewrite E in X. injection X as X. subst x.
  destruct (undo o s a b W R Ca Cb C2) as (U & _). unfold config_sub_delta in *. apply (reaches_from s b r); auto.
  destruct D as (D1 & D2). split; [intros; symmetry; auto |]. intros p t us vs H1 H2. symmetry. eapply D2; eauto.
Qed.

Lemma SameData_sym : forall s x y, SameData s x y -> SameData s y x.
Proof. intros s x y (D1 & D2). split; [intros; symmetry; auto |]. intros p t us vs H1 H2. symmetry. eapply D2; eauto. Qed.

Lemma last_next : forall {A} (l : list A) c a, last (c :: l) a = last l c.
Proof. intros A l. induction l as [| d r IH]; intros c a; auto. change (last (d :: r) a = last (d :: r) c). rewrite !IH. auto. Qed.

Theorem replays : forall s l a x, wfs s = true -> sty s = TRoot -> IsConfig s a -> IsConfig s x -> SameData s x a -> Linked s a l ->
  Reaches s (replay_all s x a l) (last l a).
Proof.
  intros s l. induction l as [| c r IH]; intros a x W R Ca Cx D L.
  - simpl. exists x. split; auto. split; auto. split; auto. destruct Cx as (V & T & _), Ca as (V' & T' & _).
    destruct (cmp_eq_iff s x a V V') as (e & E1 & E2); [congruence |]. rewrite E1. f_equal. apply E2. auto.
  - destruct L as (Cc & Cm & L). cbn [replay_all]. assert (H := reaches_default s a c W R Ca Cc Cm).
    assert (H' := reaches_from s a x _ c Ca Cx (SameData_sym _ _ _ D) Cc H). destruct H' as (y & Y & Cy & Dy & _). rewrite Y. cbn [bind].
    assert (G := IH c y W R Cc Cy Dy L). rewrite last_next. exact G.
Qed.

(** ** Examples *)
Lemma alike_perm : forall s t tx a k1 k2, Permutation k1 k2 -> (forall n, UserTag s n -> kids_tagged n k1 = kids_tagged n k2) ->
  Alike s (Elem t tx a k1) (Elem t tx a k2).
Proof.
  intros s t tx a k1 k2 P H. constructor. intro n. split.
  - intro U. rewrite (H n U). generalize (kids_tagged n k2). intro l. induction l; constructor; auto.
  - exists (kids_tagged n k1). split; [apply perm_filter; auto |]. generalize (kids_tagged n k1). intro l. induction l; constructor; auto.
Qed.

(** One config written in two ways *)
Lemma two_ways : IsConfig ex_schema ex_a /\ IsConfig ex_schema ex_a' /\ ex_a <> ex_a' /\ SameData ex_schema ex_a ex_a'.
Proof.
  split; [repeat split; vm_compute; reflexivity |]. split; [repeat split; vm_compute; reflexivity |]. split; [vm_compute; discriminate |].
  destruct (cmp_eq_iff ex_schema ex_a ex_a') as (b & B1 & B2); [vm_compute; reflexivity | vm_compute; reflexivity | reflexivity |].
  apply B2. vm_compute in B1. injection B1 as B1. auto.
Qed.

(** One edit written in two ways *)
Definition ex_edit1 : xml := e_config [ Elem "banner" (Some "hi") [(operation_tag, "create")] []; Elem "label" (Some "x") [(operation_tag, "delete")] [] ].
Definition ex_edit2 : xml := e_config [ Elem "label" (Some "x") [(operation_tag, "delete")] []; Elem "banner" (Some "hi") [(operation_tag, "create")] [] ].
Lemma two_edits : Alike ex_schema ex_edit1 ex_edit2 /\ exists r r', config_add ex_schema ex_a ex_edit1 = Ok r /\ config_add ex_schema ex_a' ex_edit2 = Ok r' /\ r <> r' /\
  cmp_eq ex_schema r r' = Ok true.
Proof.
  split.
  - apply alike_perm; [apply perm_swap |]. intros n _. unfold kids_tagged. cbn [filter xtag]. destruct (String.eqb "banner" n) eqn:E1, (String.eqb "label" n) eqn:E2; auto.
    apply String.eqb_eq in E1. apply String.eqb_eq in E2. congruence.
  - do 2 eexists. split; [vm_compute; reflexivity |]. split; [vm_compute; reflexivity |]. split; [discriminate | vm_compute; reflexivity].
Qed.

(** The order of the entries of a user-ordered list does matter. *)
Lemma order_matters : ~ Alike ex_schema ex_abc ex_cba /\ exists r r', config_add ex_schema empty_config ex_abc = Ok r /\ config_add ex_schema empty_config ex_cba = Ok r' /\
  cmp_eq ex_schema r r' = Ok false.
Proof.
  split.
  - intro A. destruct (alike_eq ex_schema ex_abc ex_cba) as (_ & _ & E); [vm_compute; reflexivity | exact A |]. vm_compute in E. discriminate.
  - do 2 eexists. split; [vm_compute; reflexivity |]. split; vm_compute; reflexivity.
Qed.

Lemma walk : wfs ex_schema = true /\ sty ex_schema = TRoot /\ Comparable ex_schema ex_a ex_b /\ Comparable ex_schema ex_b ex_a /\
  RootKept default_opts ex_schema ex_a ex_b /\ Linked ex_schema ex_a [ex_b; ex_abc; ex_a].
Proof.
  assert (C : forall x y, valid ex_schema x = true -> valid ex_schema y = true -> orderable ex_schema x = true -> orderable ex_schema y = true -> inplace ex_schema x y = true -> compat false true ex_schema x y = true ->
    Comparable ex_schema x y).
  { intros x y V1 V2 O1 O2 I N. split; auto. split; auto. split; [apply inplace_Ends; auto | apply (compat_NoSwitch false); auto]. }
  split; [vm_compute; reflexivity |]. split; [reflexivity |].
  split; [apply C; vm_compute; reflexivity |]. split; [apply C; vm_compute; reflexivity |]. split; [left; reflexivity |].
  repeat (split; [repeat split; vm_compute; reflexivity | split; [apply C; vm_compute; reflexivity |]]). exact I.
Qed.
