(** Lemmas about Base.v and about lists. *)
From Coq Require Import String Ascii List Bool Arith ZArith Lia Permutation.
From Verif Require Import Base.
Import ListNotations.
Open Scope string_scope.
Open Scope list_scope.

(** ** Results *)
Lemma bind_ok : forall {A B} (r : res A) (k : A -> res B) b,
  bind r k = Ok b <-> exists a, r = Ok a /\ k a = Ok b.
Proof.
  intros A B [a | e] k b; simpl; split.
  - intro H. exists a. auto.
  - intros (a' & H1 & H2). inversion H1; subst. exact H2.
  - discriminate.
  - intros (a' & H1 & _). discriminate.
Qed.

Lemma mapM_ok : forall {A B} (f : A -> res B) l l',
  mapM f l = Ok l' <-> Forall2 (fun x y => f x = Ok y) l l'.
Proof.
  intros A B f l. induction l as [| x r IH]; intros l'; simpl.
  - split; intro H.
    + inversion H. constructor.
    + inversion H. reflexivity.
  - split; intro H.
    + apply bind_ok in H. destruct H as (y & H1 & H2).
      apply bind_ok in H2. destruct H2 as (ys & H2 & H3).
      inversion H3; subst. constructor; auto. apply IH. exact H2.
    + inversion H as [| a b l1 l2 Ha Hl]; subst.
      rewrite Ha. simpl. apply IH in Hl. rewrite Hl. reflexivity.
Qed.

Lemma mapM_ext : forall {A B} (f g : A -> res B) l,
  (forall x, In x l -> f x = g x) -> mapM f l = mapM g l.
Proof.
  intros A B f g l. induction l as [| x r IH]; intro H; simpl; auto.
  rewrite (H x) by (left; auto). rewrite IH; auto. intros y Hy. apply H. right. auto.
Qed.

Lemma foldM_app : forall {A S} (f : S -> A -> res S) l1 l2 s,
  foldM f s (l1 ++ l2) = let! s' := foldM f s l1 in foldM f s' l2.
Proof.
  intros A S f l1. induction l1 as [| x r IH]; intros l2 s; simpl; auto.
  destruct (f s x) as [s' | e]; simpl; auto.
Qed.

(** Invariant rule for [foldM], with the part of the list already processed. *)
Lemma foldM_inv : forall {A S} (f : S -> A -> res S) (P : list A -> S -> Prop) l s,
  P [] s ->
  (forall done x r s0, l = done ++ x :: r -> P done s0 ->
     exists s1, f s0 x = Ok s1 /\ P (done ++ [x]) s1) ->
  exists s', foldM f s l = Ok s' /\ P l s'.
Proof.
  intros A S f P l s H0 Hstep.
  assert (G : forall r done s0, l = done ++ r -> P done s0 ->
            exists s', foldM f s0 r = Ok s' /\ P l s').
  { induction r as [| x r IH]; intros done s0 E HP; simpl.
    - exists s0. split; auto. rewrite app_nil_r in E. subst. exact HP.
    - destruct (Hstep done x r s0 E HP) as (s1 & F & HP1). rewrite F. simpl.
      apply (IH (done ++ [x])); auto. rewrite <- app_assoc. exact E. }
  apply (G l []); auto.
Qed.

(** Partial-correctness version *)
Lemma foldM_inv_ok : forall {A S} (f : S -> A -> res S) (P : list A -> S -> Prop) l s s',
  P [] s ->
  (forall done x r s0 s1, l = done ++ x :: r -> P done s0 -> f s0 x = Ok s1 ->
     P (done ++ [x]) s1) ->
  foldM f s l = Ok s' -> P l s'.
Proof.
  intros A S f P l s s' H0 Hstep.
  assert (G : forall r done s0, l = done ++ r -> P done s0 -> foldM f s0 r = Ok s' -> P l s').
  { induction r as [| x r IH]; intros done s0 E HP F; simpl in F.
    - inversion F; subst. rewrite app_nil_r. exact HP.
    - apply bind_ok in F. destruct F as (s1 & F1 & F2).
      apply (IH (done ++ [x]) s1); auto.
      + rewrite <- app_assoc. exact E.
      + apply (Hstep done x r s0); auto. }
  apply (G l []); auto.
Qed.

(** ** Equality tests *)
Definition eqb_ok {A} (eqb : A -> A -> bool) := forall a b, eqb a b = true <-> a = b.

Lemma string_eqb_ok : eqb_ok String.eqb.
Proof. intros a b. apply String.eqb_eq. Qed.

Lemma opt_eqb_ok : forall {A} (eqb : A -> A -> bool), eqb_ok eqb -> eqb_ok (opt_eqb eqb).
Proof.
  intros A eqb H [a |] [b |]; simpl; split; intro E; try discriminate; auto.
  - apply H in E. congruence.
  - inversion E. apply H. reflexivity.
Qed.

Lemma list_eqb_ok : forall {A} (eqb : A -> A -> bool), eqb_ok eqb -> eqb_ok (list_eqb eqb).
Proof.
  intros A eqb H a. induction a as [| x r IH]; intros [| y s]; simpl; split; intro E;
    try discriminate; auto.
  - apply andb_true_iff in E. destruct E as [E1 E2]. apply H in E1. apply IH in E2. congruence.
  - inversion E; subst. apply andb_true_iff. split; [apply H | apply IH]; reflexivity.
Qed.

Lemma ostr_eqb_ok : eqb_ok ostr_eqb.
Proof. apply opt_eqb_ok. apply string_eqb_ok. Qed.

Lemma eqb_refl : forall {A} (eqb : A -> A -> bool), eqb_ok eqb -> forall x, eqb x x = true.
Proof. intros A eqb H x. apply H. reflexivity. Qed.

Lemma eqb_neq : forall {A} (eqb : A -> A -> bool), eqb_ok eqb ->
  forall x y, eqb x y = false <-> x <> y.
Proof.
  intros A eqb H x y. split; intro E.
  - intro E2. apply H in E2. congruence.
  - destruct (eqb x y) eqn:F; auto. apply H in F. contradiction.
Qed.

Lemma eqb_sym : forall {A} (eqb : A -> A -> bool), eqb_ok eqb ->
  forall x y, eqb x y = eqb y x.
Proof.
  intros A eqb H x y. destruct (eqb y x) eqn:F.
  - apply H in F. subst. apply H. reflexivity.
  - apply (eqb_neq eqb H) in F. apply (eqb_neq eqb H). congruence.
Qed.

Lemma eqb_dec : forall {A} (eqb : A -> A -> bool), eqb_ok eqb -> forall x y : A, {x = y} + {x <> y}.
Proof.
  intros A eqb H x y. destruct (eqb x y) eqn:F.
  - left. apply H. exact F.
  - right. apply (eqb_neq eqb H). exact F.
Qed.

Lemma mem_In : forall {A} (eqb : A -> A -> bool), eqb_ok eqb ->
  forall x l, mem eqb x l = true <-> In x l.
Proof.
  intros A eqb H x l. induction l as [| y r IH]; simpl.
  - split; [discriminate | tauto].
  - rewrite orb_true_iff, IH, (H x y). intuition congruence.
Qed.

Lemma mem_not_In : forall {A} (eqb : A -> A -> bool), eqb_ok eqb ->
  forall x l, mem eqb x l = false <-> ~ In x l.
Proof.
  intros A eqb H x l. rewrite <- (mem_In eqb H). destruct (mem eqb x l); intuition congruence.
Qed.

(** ** Association lists *)
Section Assoc.
Context {K V : Type} (eqb : K -> K -> bool) (He : eqb_ok eqb).

Lemma assoc_In : forall k v (l : list (K * V)), assoc eqb k l = Some v -> In (k, v) l.
Proof.
  intros k v l. induction l as [| [k' v'] r IH]; simpl; [discriminate |].
  destruct (eqb k k') eqn:E.
  - intro H. inversion H; subst. apply He in E. subst. left. reflexivity.
  - intro H. right. auto.
Qed.

Lemma assoc_None : forall k (l : list (K * V)), assoc eqb k l = None <-> ~ In k (map fst l).
Proof.
  intros k l. induction l as [| [k' v'] r IH]; simpl.
  - tauto.
  - destruct (eqb k k') eqn:E.
    + apply He in E. subst. split; [discriminate |]. intro H. exfalso. apply H. auto.
    + apply (eqb_neq eqb He) in E. rewrite IH. intuition.
Qed.

Lemma assoc_Some_In : forall k (l : list (K * V)),
  In k (map fst l) <-> exists v, assoc eqb k l = Some v.
Proof.
  intros k l. destruct (assoc eqb k l) as [v |] eqn:E.
  - split; eauto. intros _. apply assoc_In in E. apply (in_map fst) in E. exact E.
  - split.
    + intro H. apply assoc_None in E. contradiction.
    + intros (v & H). discriminate.
Qed.

Lemma assoc_NoDup : forall k v (l : list (K * V)),
  NoDup (map fst l) -> In (k, v) l -> assoc eqb k l = Some v.
Proof.
  intros k v l. induction l as [| [k' v'] r IH]; simpl; [tauto |].
  intros ND [E | Hin].
  - inversion E; subst. rewrite (eqb_refl eqb He). reflexivity.
  - inversion ND as [| ? ? Hn ND']; subst. destruct (eqb k k') eqn:E.
    + apply He in E. subst. exfalso. apply Hn. apply (in_map fst) in Hin. exact Hin.
    + auto.
Qed.

Lemma assoc_app : forall k (l1 l2 : list (K * V)),
  assoc eqb k (l1 ++ l2) = match assoc eqb k l1 with Some v => Some v | None => assoc eqb k l2 end.
Proof.
  intros k l1 l2. induction l1 as [| [k' v'] r IH]; simpl; auto.
  destruct (eqb k k'); auto.
Qed.

Lemma assoc_perm : forall k (l1 l2 : list (K * V)),
  NoDup (map fst l1) -> Permutation l1 l2 -> assoc eqb k l1 = assoc eqb k l2.
Proof.
  intros k l1 l2 ND P.
  assert (ND2 : NoDup (map fst l2)).
  { eapply Permutation_NoDup; [| exact ND]. apply Permutation_map. exact P. }
  destruct (assoc eqb k l1) as [v |] eqn:E.
  - symmetry. apply assoc_NoDup; auto. apply assoc_In in E. eapply Permutation_in; eauto.
  - symmetry. apply assoc_None. apply assoc_None in E. intro H. apply E.
    eapply Permutation_in; [apply Permutation_sym, Permutation_map, P | exact H].
Qed.
End Assoc.

(** ** Lists *)
Lemma filter_app' : forall {A} (p : A -> bool) l1 l2, filter p (l1 ++ l2) = filter p l1 ++ filter p l2.
Proof. intros. apply filter_app. Qed.

Lemma filter_none : forall {A} (p : A -> bool) l, (forall x, In x l -> p x = false) -> filter p l = [].
Proof.
  intros A p l. induction l as [| x r IH]; intro H; simpl; auto.
  rewrite (H x) by (left; auto). apply IH. intros y Hy. apply H. right. auto.
Qed.

Lemma filter_all : forall {A} (p : A -> bool) l, (forall x, In x l -> p x = true) -> filter p l = l.
Proof.
  intros A p l. induction l as [| x r IH]; intro H; simpl; auto.
  rewrite (H x) by (left; auto). rewrite IH; auto. intros y Hy. apply H. right. auto.
Qed.

Lemma filter_filter : forall {A} (p q : A -> bool) l,
  filter p (filter q l) = filter (fun x => q x && p x) l.
Proof.
  intros A p q l. induction l as [| x r IH]; simpl; auto.
  destruct (q x); simpl; auto. destruct (p x); rewrite IH; auto.
Qed.

Lemma filter_comm : forall {A} (p q : A -> bool) l,
  filter p (filter q l) = filter q (filter p l).
Proof.
  intros A p q l. rewrite !filter_filter. apply filter_ext. intro x. apply andb_comm.
Qed.

Lemma filter_map : forall {A B} (f : A -> B) (p : B -> bool) l,
  filter p (map f l) = map f (filter (fun x => p (f x)) l).
Proof.
  intros A B f p l. induction l as [| x r IH]; simpl; auto.
  destruct (p (f x)); simpl; rewrite IH; auto.
Qed.

Lemma NoDup_filter' : forall {A} (p : A -> bool) l, NoDup l -> NoDup (filter p l).
Proof. intros. apply NoDup_filter. auto. Qed.

Lemma NoDup_map_filter : forall {A B} (f : A -> B) (p : A -> bool) l,
  NoDup (map f l) -> NoDup (map f (filter p l)).
Proof.
  intros A B f p l. induction l as [| x r IH]; simpl; intro H; auto.
  inversion H as [| ? ? Hn ND]; subst. destruct (p x); simpl; auto.
  constructor; auto. intro Hin. apply Hn. apply in_map_iff in Hin. destruct Hin as (y & E & Hy).
  apply filter_In in Hy. apply in_map_iff. exists y. tauto.
Qed.

Lemma existsb_false : forall {A} (p : A -> bool) l,
  existsb p l = false <-> (forall x, In x l -> p x = false).
Proof.
  intros A p l. induction l as [| x r IH]; simpl.
  - split; auto. intros _ x [].
  - rewrite orb_false_iff, IH. split.
    + intros [H1 H2] y [E | Hy]; subst; auto.
    + intro H. split; auto.
Qed.

(** Subsequence *)
Inductive subl {A} : list A -> list A -> Prop :=
| subl_nil : forall l, subl [] l
| subl_skip : forall x l1 l2, subl l1 l2 -> subl l1 (x :: l2)
| subl_take : forall x l1 l2, subl l1 l2 -> subl (x :: l1) (x :: l2).

Lemma subl_refl : forall {A} (l : list A), subl l l.
Proof. intros A l. induction l; [apply subl_nil | apply subl_take; auto]. Qed.

Lemma subl_In : forall {A} (l1 l2 : list A) x, subl l1 l2 -> In x l1 -> In x l2.
Proof. intros A l1 l2 x H. induction H; simpl; intros; tauto. Qed.

Lemma subl_trans : forall {A} (l1 l2 l3 : list A), subl l1 l2 -> subl l2 l3 -> subl l1 l3.
Proof.
  intros A l1 l2 l3 H12 H23. revert l1 H12. induction H23 as [l | x l2 l3 H IH | x l2 l3 H IH];
    intros l1 H12.
  - inversion H12; subst. constructor.
  - apply subl_skip. auto.
  - inversion H12; subst; [apply subl_nil | apply subl_skip | apply subl_take]; auto.
Qed.

Lemma subl_length : forall {A} (l1 l2 : list A), subl l1 l2 -> length l1 <= length l2.
Proof. intros A l1 l2 H. induction H; simpl; lia. Qed.

Lemma subl_antisym : forall {A} (l1 l2 : list A), subl l1 l2 -> subl l2 l1 -> l1 = l2.
Proof.
  intros A l1 l2 H. induction H as [l | x l1 l2 H IH | x l1 l2 H IH]; intro H2.
  - inversion H2; auto.
  - apply subl_length in H. apply subl_length in H2. simpl in H2. lia.
  - f_equal. apply IH. inversion H2; subst; auto.
    match goal with Hs : subl (x :: l2) l1 |- _ => apply subl_length in Hs; simpl in Hs end.
    apply subl_length in H. lia.
Qed.

Lemma subl_filter : forall {A} (p : A -> bool) l, subl (filter p l) l.
Proof. intros A p l. induction l as [| x r IH]; simpl; [constructor |]. destruct (p x); [apply subl_take | apply subl_skip]; auto. Qed.

Lemma subl_filter2 : forall {A} (p : A -> bool) l1 l2, subl l1 l2 -> subl (filter p l1) (filter p l2).
Proof.
  intros A p l1 l2 H. induction H; simpl.
  - constructor.
  - destruct (p x); [apply subl_skip |]; auto.
  - destruct (p x); [apply subl_take |]; auto.
Qed.

Lemma subl_NoDup : forall {A} (l1 l2 : list A), subl l1 l2 -> NoDup l2 -> NoDup l1.
Proof.
  intros A l1 l2 H. induction H; intro ND.
  - constructor.
  - inversion ND; auto.
  - inversion ND; subst. constructor; auto. intro Hin. eapply subl_In in Hin; eauto.
Qed.

Lemma subl_app_l : forall {A} (l l1 l2 : list A), subl l1 l2 -> subl l1 (l ++ l2).
Proof. intros A l l1 l2 H. induction l; simpl; auto. apply subl_skip. auto. Qed.

Lemma subl_app : forall {A} (l1 l2 m1 m2 : list A), subl l1 l2 -> subl m1 m2 -> subl (l1 ++ m1) (l2 ++ m2).
Proof.
  intros A l1 l2 m1 m2 H H2. induction H; simpl.
  - apply subl_app_l. auto.
  - apply subl_skip. auto.
  - apply subl_take. auto.
Qed.

(** [x] occurs before [y] *)
Definition before {A} (x y : A) (l : list A) : Prop :=
  exists l1 l2 l3, l = l1 ++ x :: l2 ++ y :: l3.

Lemma before_In : forall {A} (x y : A) l, before x y l -> In x l /\ In y l.
Proof.
  intros A x y l (l1 & l2 & l3 & E). subst. split.
  - apply in_or_app. right. left. auto.
  - apply in_or_app. right. right. apply in_or_app. right. left. auto.
Qed.

Lemma subl_before : forall {A} (x y : A) l1 l2, subl l1 l2 -> before x y l1 -> before x y l2.
Proof.
  intros A x y l1 l2 H. induction H as [l | z l1 l2 H IH | z l1 l2 H IH]; intros (a & b & c & E).
  - destruct a; discriminate.
  - destruct IH as (a' & b' & c' & E').
    + exists a, b, c. auto.
    + exists (z :: a'), b', c'. simpl. congruence.
  - destruct a as [| a0 a]; simpl in E; inversion E; subst.
    + assert (Hy : In y l2).
      { eapply subl_In; eauto. apply in_or_app. right. left. auto. }
      apply in_split in Hy. destruct Hy as (b' & c' & Hy). subst.
      exists [], b', c'. reflexivity.
    + destruct IH as (a' & b' & c' & E').
      * exists a, b, c. auto.
      * exists (a0 :: a'), b', c'. simpl. congruence.
Qed.

Lemma NoDup_before_tail : forall {A} (x y : A) l,
  NoDup (x :: l) -> In y l -> before x y (x :: l).
Proof.
  intros A x y l ND H. apply in_split in H. destruct H as (a & b & E). subst.
  exists [], a, b. reflexivity.
Qed.

(** Consecutive elements are in order *)
Fixpoint consec {A} (R : A -> A -> Prop) (l : list A) : Prop :=
  match l with
  | [] => True
  | x :: r => match r with [] => True | y :: _ => R x y end /\ consec R r
  end.

Lemma before_app_inv : forall {A} (x y : A) p q,
  NoDup (p ++ y :: q) -> before x y (p ++ y :: q) -> In x p.
Proof.
  intros A x y p q ND (a & b & c & E).
  assert (E2 : p ++ y :: q = (a ++ x :: b) ++ y :: c).
  { rewrite E. rewrite <- app_assoc. reflexivity. }
  assert (Heq : p = a ++ x :: b).
  { clear E. revert p E2 ND. induction (a ++ x :: b) as [| z r IH]; intros p E2 ND.
    - destruct p as [| p0 p]; auto. simpl in E2. inversion E2; subst.
      simpl in ND. inversion ND as [| ? ? Hn ?]; subst. exfalso. apply Hn.
      apply in_or_app. right. left. auto.
    - destruct p as [| p0 p]; simpl in E2; inversion E2; subst.
      + simpl in ND. inversion ND as [| ? ? Hn ?]; subst. exfalso. apply Hn.
        apply in_or_app. right. left. auto.
      + f_equal. apply IH; auto. simpl in ND. inversion ND; auto. }
  subst. apply in_or_app. right. left. auto.
Qed.

Lemma before_split : forall {A} (x y : A) p q, In x p -> before x y (p ++ y :: q).
Proof.
  intros A x y p q H. apply in_split in H. destruct H as (a & b & E). subst.
  exists a, b, q. rewrite <- app_assoc. reflexivity.
Qed.

Lemma before_cons : forall {A} (x y a : A) l,
  before x y (a :: l) <-> (x = a /\ In y l) \/ before x y l.
Proof.
  intros A x y a l. split.
  - intros (p & q & r & E). destruct p as [| p0 p]; simpl in E; inversion E; subst.
    + left. split; auto. apply in_or_app. right. left. auto.
    + right. exists p, q, r. auto.
  - intros [[E H] | (p & q & r & E)]; subst.
    + apply in_split in H. destruct H as (p & q & E). subst. exists [], p, q. reflexivity.
    + exists (a :: p), q, r. reflexivity.
Qed.

Lemma consec_tail_In : forall {A} (a : A) r L x,
  consec (fun x y => before x y (a :: L)) (x :: r) -> forall y, In y r -> In y L.
Proof.
  intros A a r. induction r as [| z r IH]; intros L x Hc y Hy; [destruct Hy |].
  destruct Hc as [Hb Hc]. destruct Hy as [E | Hy].
  - subst. apply before_cons in Hb. destruct Hb as [[_ H] | H]; auto.
    apply before_In in H. tauto.
  - apply (IH L z); auto.
Qed.

Lemma consec_drop : forall {A} (a : A) L l,
  ~ In a L -> (forall y, In y l -> In y L) ->
  consec (fun x y => before x y (a :: L)) l -> consec (fun x y => before x y L) l.
Proof.
  intros A a L l Hn. induction l as [| x r IH]; intros Hin Hc; simpl; auto.
  destruct Hc as [Hb Hc]. split.
  - destruct r as [| y r]; auto. apply before_cons in Hb. destruct Hb as [[E _] | H]; auto.
    subst. exfalso. apply Hn. apply Hin. left. auto.
  - apply IH; auto. intros y Hy. apply Hin. right. auto.
Qed.

Lemma consec_subl : forall {A} (L l : list A),
  NoDup L -> (forall x, In x l -> In x L) -> consec (fun x y => before x y L) l -> subl l L.
Proof.
  intros A L. induction L as [| a L IH]; intros l ND Hin Hc.
  - destruct l as [| x r]; [constructor |]. destruct (Hin x). left. auto.
  - destruct l as [| x r]; [constructor |].
    inversion ND as [| ? ? Hn ND']; subst.
    assert (Hr : forall y, In y r -> In y L) by (eapply consec_tail_In; eauto).
    destruct (Hin x (or_introl eq_refl)) as [E | Hx].
    + subst. apply subl_take. apply IH; auto. apply (consec_drop x); auto. destruct Hc; auto.
    + apply subl_skip. apply IH; auto.
      * intros y [E | Hy]; subst; auto.
      * apply (consec_drop a); auto. intros y [E | Hy]; subst; auto.
Qed.

Lemma subl_consec : forall {A} (l L : list A),
  subl l L -> consec (fun x y => before x y L) l.
Proof.
  intros A l L H. induction l as [| x r IH]; simpl; auto. split.
  - destruct r as [| y r]; auto. apply (subl_before x y (x :: y :: r) L H).
    exists [], [], r. reflexivity.
  - apply IH. apply (subl_trans _ (x :: r)); auto. apply subl_skip. apply subl_refl.
Qed.

Lemma Forall2_impl : forall {A B} (P Q : A -> B -> Prop) l1 l2,
  (forall a b, P a b -> Q a b) -> Forall2 P l1 l2 -> Forall2 Q l1 l2.
Proof. intros A B P Q l1 l2 H F. induction F; constructor; auto. Qed.

Lemma filter_split : forall {A} (p : A -> bool) l l1 x l2, filter p l = l1 ++ x :: l2 ->
  exists q1 q2, l = q1 ++ x :: q2 /\ filter p q1 = l1 /\ filter p q2 = l2.
Proof.
  intros A p l. induction l as [| y r IH]; intros l1 x l2 H; simpl in H.
  - destruct l1; discriminate.
  - destruct (p y) eqn:E.
    + destruct l1 as [| z l1]; simpl in H; inversion H; subst.
      * exists [], r. auto.
      * destruct (IH l1 x l2) as (q1 & q2 & E1 & E2 & E3); auto. exists (z :: q1), q2. subst.
        split; auto. simpl. rewrite E. auto.
    + destruct (IH l1 x l2 H) as (q1 & q2 & E1 & E2 & E3). exists (y :: q1), q2. subst.
      split; auto. simpl. rewrite E. auto.
Qed.

Lemma Forall2_len : forall {A B} (P : A -> B -> Prop) l1 l2, Forall2 P l1 l2 -> length l1 = length l2.
Proof. intros A B P l1 l2 F. induction F; simpl; auto. Qed.
