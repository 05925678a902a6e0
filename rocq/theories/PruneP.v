(** Pruning: the structural relation behind [Pruned], and its instances. *)
From Coq Require Import String Ascii List Bool Arith ZArith Lia.
From Verif Require Import Base BaseP XmlM CalcM CalcP NetconfM ConfigM FilterM DataSpec DataP PruneSpec.
Import ListNotations.
Open Scope string_scope.
Open Scope list_scope.

Section PR.
Variable K : list nat -> Prop.

Inductive Pr : list nat -> xml -> xml -> Prop :=
| pr_node : forall pre t tx a ks ks', K pre -> PrL pre 0 ks ks' -> Pr pre (Elem t tx a ks) (Elem t tx a ks')
with PrL : list nat -> nat -> list xml -> list xml -> Prop :=
| prl_nil : forall pre n, PrL pre n [] []
| prl_out : forall pre n c r l, (forall q, ~ K (pre ++ n :: q)) -> PrL pre (S n) r l -> PrL pre n (c :: r) l
| prl_in : forall pre n c c' r l, Pr (pre ++ [n]) c c' -> PrL pre (S n) r l -> PrL pre n (c :: r) (c' :: l).

Scheme Pr_ind' := Induction for Pr Sort Prop
with PrL_ind' := Induction for PrL Sort Prop.

Definition places_kids (p : list nat) : nat -> list xml -> list (list nat * xml) :=
  fix go (i : nat) (l : list xml) := match l with [] => [] | c :: r => places (p ++ [i]) c ++ go (S i) r end.

Lemma places_eq : forall p x, places p x = (p, x) :: places_kids p 0 (xkids x).
Proof. intros p [t tx a ks]. reflexivity. Qed.

Lemma places_prefix : forall x p e, In e (places p x) -> Prefix p (fst e).
Proof.
  fix IH 1. intros [t tx a ks] p e H. rewrite places_eq in H. destruct H as [H | H].
  - subst e. exists []. rewrite app_nil_r. reflexivity.
  - cbn [xkids] in H. revert H. generalize 0. induction ks as [| c r IHr]; intros n H; [destruct H |].
    cbn [places_kids] in H. apply in_app_or in H. destruct H as [H | H].
    + apply IH in H. destruct H as (q & E). exists (n :: q). rewrite E, <- app_assoc. reflexivity.
    + eauto.
Qed.

Lemma Filtered_app : forall {A} (P : A -> Prop) l1 l1' l2 l2', Filtered P l1 l1' -> Filtered P l2 l2' ->
  Filtered P (l1 ++ l2) (l1' ++ l2').
Proof. intros A P l1 l1' l2 l2' H1 H2. induction H1; simpl; auto; constructor; auto. Qed.

Lemma Filtered_none : forall {A} (P : A -> Prop) l, (forall x, In x l -> ~ P x) -> Filtered P l [].
Proof. intros A P l. induction l as [| x l IH]; intro H; constructor; simpl in *; auto. Qed.

Lemma Pr_outline : forall pre x y, Pr pre x y -> forall pre', length pre' = length pre ->
  exists l, Filtered (fun e => K (fst e)) (places pre x) l /\
            map outline_entry l = map outline_entry (places pre' y).
Proof.
  apply (Pr_ind'
    (fun pre x y _ => forall pre', length pre' = length pre ->
       exists l, Filtered (fun e => K (fst e)) (places pre x) l /\
                 map outline_entry l = map outline_entry (places pre' y))
    (fun pre n ks ks' _ => forall pre' n', length pre' = length pre ->
       exists l, Filtered (fun e => K (fst e)) (places_kids pre n ks) l /\
                 map outline_entry l = map outline_entry (places_kids pre' n' ks'))).
  - intros pre t tx a ks ks' Kp _ IH pre' L. destruct (IH pre' 0 L) as (l & F & E).
    exists ((pre, Elem t tx a ks) :: l). rewrite !places_eq. split.
    + constructor; auto.
    + cbn [map xkids]. rewrite E. unfold outline_entry at 1 3. cbn [fst snd xtag xtext xattrs]. rewrite L. reflexivity.
  - intros pre n pre' n' L. exists []. split; [constructor | reflexivity].
  - intros pre n c r l N _ IH pre' n' L. destruct (IH pre' n' L) as (l0 & F & E). exists l0. split; auto.
    cbn [places_kids]. change l0 with ([] ++ l0). apply Filtered_app; auto. apply Filtered_none.
    intros e I He. apply places_prefix in I. destruct I as (q & Eq). rewrite Eq, <- app_assoc in He. exact (N q He).
  - intros pre n c c' r l _ IH1 _ IH2 pre' n' L.
    destruct (IH1 (pre' ++ [n'])) as (l1 & F1 & E1). { rewrite !app_length. simpl. lia. }
    destruct (IH2 pre' (S n') L) as (l2 & F2 & E2).
    exists (l1 ++ l2). cbn [places_kids]. split.
    + apply Filtered_app; auto.
    + rewrite !map_app, E1, E2. reflexivity.
Qed.

Lemma Pr_Pruned : forall x y, Pr [] x y -> Pruned K x y.
Proof. intros x y H. exact (Pr_outline [] x y H [] eq_refl). Qed.

Lemma Pr_all : forall x pre, (forall q, K (pre ++ q)) -> Pr pre x x.
Proof.
  fix IH 1. intros [t tx a ks] pre H. constructor.
  - specialize (H []). rewrite app_nil_r in H. exact H.
  - generalize 0. induction ks as [| c r IHr]; intro n; [apply prl_nil |]. apply prl_in; auto. apply IH. intro q. rewrite <- app_assoc. apply H.
Qed.
End PR.

(** ** Positions *)
Lemma SchemaAt_snoc : forall p s x s' i c cs n, SchemaAt s x p s' -> NodeAt x p n -> nth_error (xkids n) i = Some c ->
  Defines s' (xtag c) cs -> SchemaAt s x (p ++ [i]) cs.
Proof.
  induction p as [| j p IH]; intros s x s' i c cs n HS HN E D.
  - inversion HS; subst. inversion HN; subst. simpl. econstructor; eauto. constructor.
  - inversion HS as [| s0 x0 j0 d ds p0 s1 Ed Dd Sd]; subst. inversion HN as [| x1 j1 d' p1 n1 Ed' Nd]; subst.
    rewrite Ed in Ed'. injection Ed' as Ed'. subst d'. simpl. apply (sa_down s x j d ds (p ++ [i]) cs Ed Dd).
    exact (IH ds d s' i c cs n Sd Nd E D).
Qed.

Lemma NodeAt_snoc : forall p x i c n, NodeAt x p n -> nth_error (xkids n) i = Some c -> NodeAt x (p ++ [i]) c.
Proof.
  induction p as [| j p IH]; intros x i c n HN E.
  - inversion HN; subst. simpl. econstructor; eauto. constructor.
  - inversion HN; subst. simpl. econstructor; eauto.
Qed.

Lemma NodeAt_fun : forall p x n n', NodeAt x p n -> NodeAt x p n' -> n = n'.
Proof.
  induction p as [| i p IH]; intros x n n' H H'; inversion H; inversion H'; subst; auto.
  match goal with A : nth_error (xkids x) i = Some ?u, B : nth_error (xkids x) i = Some ?v |- _ =>
      rewrite A in B; injection B as B; subst end. eauto.
Qed.

Lemma known_iff : forall s x, known s x <->
  (forall c, In c (xkids x) -> exists cs, schema_child s (xtag c) = Ok cs /\ known cs c).
Proof.
  intros s [t tx a ks]. cbn [xkids]. induction ks as [| c r IH].
  - split; [intros _ c [] | simpl; auto].
  - transitivity ((exists cs, schema_child s (xtag c) = Ok cs /\ known cs c) /\ known s (Elem t tx a r)).
    { reflexivity. }
    rewrite IH. split.
    + intros (H1 & H2) c' [E | I]; [subst; auto | auto].
    + intro H. split; [apply H; simpl; auto | intros c' I; apply H; simpl; auto].
Qed.

Lemma SchemaAt_fun : forall p s x s1 s2, known s x -> SchemaAt s x p s1 -> SchemaAt s x p s2 -> s1 = s2.
Proof.
  induction p as [| i p IH]; intros s x s1 s2 W H1 H2; inversion H1; inversion H2; subst; auto.
  match goal with A : nth_error (xkids x) i = Some ?u, B : nth_error (xkids x) i = Some ?v |- _ =>
      rewrite A in B; injection B as B; subst end.
  rewrite known_iff in W. 
  match goal with A : nth_error (xkids x) i = Some ?u |- _ => pose proof (nth_error_In _ _ A) as I; destruct (W _ I) as (k & E & Wk) end.
  match goal with A : Defines s _ ?a, B : Defines s _ ?b |- _ =>
    pose proof (Defines_schema_child _ _ _ _ E A); pose proof (Defines_schema_child _ _ _ _ E B); subst end.
  eauto.
Qed.

Lemma known_set_kids : forall s t tx a ks, (forall c, In c ks -> exists cs, schema_child s (xtag c) = Ok cs /\ known cs c) ->
  known s (Elem t tx a ks).
Proof. intros. apply known_iff. auto. Qed.

Lemma xml_ind' : forall P : xml -> Prop, (forall x, (forall c, In c (xkids x) -> P c) -> P x) -> forall x, P x.
Proof.
  intros P H. fix IH 1. intros [t tx a ks]. apply H. cbn [xkids]. induction ks as [| c r IHr]; [intros c [] |].
  intros c' [E | I]; [subst c'; apply IH | exact (IHr c' I)].
Qed.

Lemma valid_known : forall x s, valid s x = true -> known s x.
Proof.
  intro x. induction x as [x IH] using xml_ind'. intros s V. apply known_iff. intros c I.
  destruct x as [t tx a ks]. cbn [valid] in V. rewrite !andb_true_iff in V. destruct V as (_ & V).
  rewrite forallb_forall in V. specialize (V c I). destruct (schema_child s (xtag c)) as [cs |] eqn:E; [| discriminate].
  exists cs. split; auto.
Qed.
