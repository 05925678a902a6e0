(** Attributes that the receiver does not know have no effect on a sum; what becomes of a
    delta with the operation replace on its root. *)
From Coq Require Import String Ascii List Bool Arith ZArith Lia Permutation.
From Verif Require Import Base BaseP XmlM CalcM CalcP NetconfM ConfigM ListP DataSpec DataP DeltaSpec ConfigSpec AlikeP RoundP SumP.
Import ListNotations.
Open Scope string_scope.
Open Scope list_scope.

(** ** Pairs of children *)
Definition E2 (e e' : uid * xml) : Prop := fst e = fst e' /\ Alike (snd e) (snd e').
Definition E3 (e e' : uid * xml * xml) : Prop := fst e = fst e' /\ Alike (snd e) (snd e').
Definition Both {A} (R : A -> A -> Prop) (r r' : res A) : Prop :=
  match r, r' with Ok x, Ok y => R x y | Err e, Err e' => e = e' | _, _ => False end.

Lemma both_index : forall s l l' seen, Forall2 Alike l l' -> Both (Forall2 E2) (index_from s seen l) (index_from s seen l').
Proof.
  intros s l l' seen H. revert seen. induction H as [| c c' l l' H HF IH]; intro seen; simpl; auto.
  rewrite <- (Alike_uid s c c' H). destruct (uid_of s c) as [u |]; simpl; auto. destruct (mem uid_eqb u seen); simpl; auto.
  specialize (IH (u :: seen)). destruct (index_from s (u :: seen) l), (index_from s (u :: seen) l'); simpl in *; auto; try contradiction.
  constructor; auto. split; auto.
Qed.

Lemma E2_keys : forall l l', Forall2 E2 l l' -> map fst l = map fst l'.
Proof. intros l l' H. induction H as [| e e' l l' [H _] HF IH]; simpl; congruence. Qed.

Definition GAlike (g g' : groups) : Prop :=
  in_1_not_2 g = in_1_not_2 g' /\ Forall2 E2 (in_2_not_1 g) (in_2_not_1 g') /\ Forall2 E3 (in_1_and_2 g) (in_1_and_2 g').

Lemma both_group : forall s l k k', Forall2 Alike k k' -> Both GAlike (group_kids s l k) (group_kids s l k').
Proof.
  intros s l k k' H. unfold group_kids, pair_children. destruct (index_kids s l) as [ones |]; simpl; auto.
  assert (I := both_index s k k' [] H). unfold index_kids.
  destruct (index_from s [] k) as [t |], (index_from s [] k') as [t' |]; simpl in *; auto; try contradiction.
  rewrite <- (E2_keys t t' I). induction (map fst ones ++ _) as [| u r IH]; simpl.
  - repeat split; constructor.
  - destruct IH as (G1 & G2 & G3). assert (A := Alike_assoc u t t' I). unfold oalike in A.
    destruct (assoc uid_eqb u ones), (assoc uid_eqb u t), (assoc uid_eqb u t'); try contradiction; repeat split; simpl; auto; try congruence;
      constructor; auto; split; auto.
Qed.

(** ** The loops of [node_add] *)
Lemma ref_alike : forall ty c c' l, Alike c c' -> ref_sibling ty c l = ref_sibling ty c' l.
Proof.
  intros ty c c' l H. destruct (Alike_attr c c' H) as (_ & _ & E1 & E2). assert (T : xtag c = xtag c') by (inversion H; auto).
  unfold ref_sibling. rewrite E1, E2, T. reflexivity.
Qed.

Lemma place_alike : forall cs c c' e l, Alike c c' -> place_new cs c e l = place_new cs c' e l.
Proof.
  intros cs c c' e l H. destruct (Alike_attr c c' H) as (_ & E1 & _ & _). assert (T : xtag c = xtag c') by (inversion H; auto).
  unfold place_new. rewrite E1, T, (ref_alike (sty cs) c c' l H). reflexivity.
Qed.

Lemma move_alike : forall cs c c' e l, Alike c c' -> move_peer cs c e l = move_peer cs c' e l.
Proof.
  intros cs c c' e l H. destruct (Alike_attr c c' H) as (_ & E1 & _ & _). assert (T : xtag c = xtag c') by (inversion H; auto).
  unfold move_peer. rewrite E1, T, (ref_alike (sty cs) c c' l H). reflexivity.
Qed.

Lemma keys_alike : forall cs c c', Alike c c' -> key_copies cs c = key_copies cs c'.
Proof.
  intros cs c c' H. unfold key_copies. apply mapM_ext. intros k _.
  assert (F := Alike_find k (xkids c) (xkids c')). destruct (find_kid k (xkids c)), (find_kid k (xkids c')); 
    (assert (F' := F ltac:(inversion H; auto)); simpl in F'); try contradiction; auto. rewrite (Alike_del _ _ F'). auto.
Qed.

Lemma foldM_ext2 : forall {A B S} (R : A -> B -> Prop) (f : S -> A -> res S) (g : S -> B -> res S) l l' a,
  Forall2 R l l' -> (forall x y b, In x l -> R x y -> f b x = g b y) -> foldM f a l = foldM g a l'.
Proof.
  intros A B S0 R f g l l' a H. revert a. induction H as [| x y l l' H HF IH]; intros a E; simpl; auto.
  rewrite (E x y a (or_introl eq_refl) H). destruct (g a y); simpl; auto. apply IH. intros. apply E; auto. right. auto.
Qed.

Theorem foreign_add : forall f s x d d', Alike d d' -> node_add f s x d = node_add f s x d'.
Proof.
  induction f as [| f IH]; intros s x d d' H; [reflexivity |]. cbn [node_add].
  assert (G := both_group s (xkids x) (xkids d) (xkids d')). 
  destruct (group_kids s (xkids x) (xkids d)) as [g |], (group_kids s (xkids x) (xkids d')) as [g' |];
    (assert (G' := G ltac:(inversion H; auto)); simpl in G'); try contradiction; cbn [bind]; [| congruence].
  destruct G' as (G1 & G2 & G3). destruct (index_kids s (xkids x)) as [l0 |]; cbn [bind]; auto.
  rewrite (foldM_ext2 E2 (add_new (node_add f) s) (add_new (node_add f) s) _ _ l0 G2).
  - destruct (foldM (add_new (node_add f) s) l0 (in_2_not_1 g')) as [l1 |]; cbn [bind]; auto.
    rewrite (foldM_ext2 E3 (add_peer (node_add f) s) (add_peer (node_add f) s) _ _ l1 G3); auto.
    intros [[u a] c] [[u' a'] c'] l _ [E A]. cbn [fst snd] in E, A. injection E as <- <-. unfold add_peer.
    destruct (schema_child s (xtag a)) as [cs |]; cbn [bind]; auto.
    assert (TX : xtext c = xtext c') by (inversion A; auto).
    rewrite (Alike_op c c' A), (Alike_del c c' A), TX, (move_alike cs c c' (u, a) l A).
    destruct (sty cs); auto.
    + rewrite (IH cs a c c' A). auto.
    + destruct (op_of c'); auto. destruct (move_peer cs c' (u, a) l); cbn [bind]; auto. rewrite (IH cs a c c' A). auto.
  - intros [u c] [u' c'] l _ [E A]. cbn [fst snd] in E, A. subst u'. unfold add_new.
    assert (T : xtag c = xtag c') by (inversion A; auto).
    rewrite (Alike_op c c' A), (Alike_del c c' A), T. destruct (schema_child s (xtag c')) as [cs |]; cbn [bind]; auto.
    assert (P := place_alike cs c c').
    destruct (op_of c'); auto; destruct (sty cs); auto; rewrite ?P; auto; [rewrite (IH cs _ c c' A); auto |].
    rewrite (keys_alike cs c c' A). destruct (key_copies cs c') as [ks |]; cbn [bind]; auto. rewrite P; auto.
    destruct (place_new cs c' _ l) as [[l' |] |]; cbn [bind]; auto. rewrite (IH cs _ c c' A). auto.
Qed.

Lemma alike_height : forall d d', Alike d d' -> height d = height d'.
Proof.
  intro d. induction d as [t tx a ks IH] using xml_ind'. intros [t' tx' a' ks'] H. inversion H as [? ? _ _ _ F]; subst. simpl in *. f_equal.
  clear H. revert ks' F. induction IH as [| c r Hc _ IHr]; intros ks' F; inversion F; subst; simpl; auto.
Qed.

Theorem foreign_sum : forall s x d d', Alike d d' -> nc_add s x d = nc_add s x d'.
Proof. intros s x d d' H. unfold nc_add. rewrite (alike_height d d' H). apply foreign_add. auto. Qed.

(** ** diff_type='minimum-replace' *)
Lemma minimum_sub : forall c r d n m f s z x y,
  node_sub f (Opts c r d DMinimumReplace n) s z x y = node_sub f (Opts c r d DMinimum m) s z x y.
Proof.
  intros c r d n m. induction f as [| f IH]; intros s z x y; [reflexivity |]. cbn [node_sub o_replace o_type o_create o_delete].
  destruct (match r with PRMerge => _ | PRReplace => _ end) as [b |]; cbn [bind]; auto. destruct b; auto.
  destruct (group_kids s (xkids x) (xkids y)) as [g |]; cbn [bind]; auto.
  destruct (index_kids s (xkids x)) as [l1 |]; cbn [bind]; auto. destruct (index_kids s (xkids y)) as [l2 |]; cbn [bind]; auto.
  assert (F1 : forall l st, foldM (sub_only_self (Opts c r d DMinimumReplace n) s) st l = foldM (sub_only_self (Opts c r d DMinimum m) s) st l).
  { intros l st. apply (foldM_ext2 eq); [apply Forall2_refl; auto |]. intros q q' b _ <-. reflexivity. }
  assert (F2 : forall l st, foldM (sub_only_other (Opts c r d DMinimumReplace n) s) st l = foldM (sub_only_other (Opts c r d DMinimum m) s) st l).
  { intros l st. apply (foldM_ext2 eq); [apply Forall2_refl; auto |]. intros q q' b _ <-. reflexivity. }
  rewrite F1. destruct (foldM _ _ (in_1_not_2 g)) as [st1 |]; cbn [bind]; auto.
  rewrite F2. destruct (foldM _ _ (in_2_not_1 g)) as [st2 |]; cbn [bind]; auto.
  rewrite (foldM_ext2 eq _ (sub_both (Opts c r d DMinimum m) (fun cs a b => node_sub f (Opts c r d DMinimum m) cs (z + 1) a b) s) _ (in_1_and_2 g) st2); auto.
  - apply Forall2_refl; auto.
  - intros [[u a] b] q' st _ <-. unfold sub_both. destruct (schema_child s (xtag a)) as [cs |]; cbn [bind]; auto. rewrite IH. reflexivity.
Qed.

Theorem marks_ignored : forall c r d n m s x a b,
  config_add_delta s x (Delta a b (Opts c r d DMinimumReplace n)) = config_add_delta s x (Delta a b (Opts c r d DMinimum m)).
Proof.
  intros c r d n m s x a b. unfold config_add_delta, delta_nc, config_add, nc_sub. cbn [d_opts d_dst d_src o_type o_depth].
  rewrite (minimum_sub c r d n m). destruct (node_sub _ _ s 0 b a) as [q |]; cbn [bind]; auto.
  rewrite (foreign_sum s x (fst q) (mark_depth (n + 1) (fst q)) (mark_Alike (fst q) (n + 1))). reflexivity.
Qed.

(** ** The operation replace on the root *)
Lemma root_attr : forall f s x d v, node_add f s x (set_attr operation_tag v d) = node_add f s x d.
Proof. intros [| f] s x [t tx a k] v; reflexivity. Qed.

Theorem root_replaced : forall o s a b, wfs s = true -> sty s = TRoot -> IsConfig s a -> IsConfig s b -> ~ RootKept o s a b ->
  config_add_delta s a (Delta a b o) = config_add s a b.
Proof.
  intros o s a b W R (Va & Ta & _) (Vb & Tb & _) N.
  assert (HR : o_replace o = PRReplace) by (destruct (o_replace o) eqn:E; auto; exfalso; apply N; left; auto).
  assert (HL : leaf_lists_differ s (xkids b) (xkids a) = Ok true).
  { apply differ_iff; auto. intro X. apply N. right. right. auto. }
  assert (HS : forall z, node_sub (height b) o s z b a = Ok (set_attr operation_tag "replace" b, set_attr operation_tag "replace" a)).
  { intro z. destruct b as [t tx at_ k]. cbn [height node_sub]. rewrite HR. cbn [xkids] in *. rewrite HL. reflexivity. }
  assert (HN : forall m, nc_add s a (mark_depth m (set_attr operation_tag "replace" b)) = nc_add s a b).
  { intro m. rewrite <- (foreign_sum s a (set_attr operation_tag "replace" b) _ (mark_Alike _ m)). unfold nc_add. rewrite root_attr.
    destruct b; reflexivity. }
  assert (H0 : nc_add s a (set_attr operation_tag "replace" b) = nc_add s a b) by (unfold nc_add; rewrite root_attr; destruct b; reflexivity).
  unfold config_add_delta, delta_nc, config_add, nc_sub. cbn [d_opts d_dst d_src].
  destruct (o_type o) eqn:T; rewrite ?HS; cbn [bind fst].
  - rewrite H0. auto.
  - rewrite HN. auto.
  - destruct (Z.eqb_spec (o_depth o) 0) as [D | D]; [exfalso; apply N; right; left; auto |]. cbn [bind fst]. rewrite H0. auto.
Qed.
