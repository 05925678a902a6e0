(** Attributes outside of the NETCONF and YANG namespaces do not change what an edit
    does. *)
From Coq Require Import String Ascii List Bool Arith ZArith Lia.
From Verif Require Import Base BaseP XmlM CalcM CalcP NetconfM ConfigM ListP DataSpec DataP DeltaSpec DeltaR NameP AddP AddStepP RoundP
  PruneSpec PruneP ReorderM ReorderSpec ReorderP ConfigSpec ConfigP DeltaPropsP MarkM MarkSpec.
Import ListNotations.
Open Scope string_scope.
Open Scope list_scope.

(** ** node_add on edits that are alike *)
Definition ealike (e e' : ent) : Prop := fst e = fst e' /\ Alike (snd e) (snd e').
Definition palike (p p' : uid * xml * xml) : Prop := fst p = fst p' /\ Alike (snd p) (snd p').

Lemma Alike_height : forall x y, Alike x y -> height x = height y.
Proof.
  intro x. induction x as [t tx a ks IH] using CalcP.xml_ind'. intros y H. inversion H as [? ? _ _ _ H4]; subst.
  destruct y as [t' tx' a' ks']. cbn [xkids height] in *. f_equal. clear H.
  revert ks' H4. induction IH as [| c r Hc _ IHr]; intros ks' H4; inversion H4; subst; cbn [fold_right]; auto.
Qed.

Lemma Alike_index_from : forall s l l' seen, Forall2 Alike l l' ->
  match index_from s seen l, index_from s seen l' with
  | Ok a, Ok b => Forall2 ealike a b
  | Err e, Err e' => e = e'
  | _, _ => False
  end.
Proof.
  intros s l l' seen H. revert seen. induction H as [| x y l l' A F IH]; intro seen; cbn [index_from]; [constructor |].
  rewrite (Alike_uid s x y A). destruct (uid_of s y) as [u | e]; cbn [bind]; [| reflexivity].
  destruct (mem uid_eqb u seen); [reflexivity |]. specialize (IH (u :: seen)).
  destruct (index_from s (u :: seen) l) as [a | e], (index_from s (u :: seen) l') as [b | e']; cbn [bind]; auto; try contradiction.
  constructor; auto. split; auto.
Qed.

Lemma ealike_fst : forall l l', Forall2 ealike l l' -> map fst l = map fst l'.
Proof. intros l l' H. induction H as [| x y l l' [E _] F IH]; cbn; congruence. Qed.

Lemma ealike_assoc : forall u l l', Forall2 ealike l l' -> oalike (assoc uid_eqb u l) (assoc uid_eqb u l').
Proof. intros u l l' H. apply Alike_assoc. exact H. Qed.

Lemma Alike_group : forall s l m m', Forall2 Alike m m' ->
  match group_kids s l m, group_kids s l m' with
  | Ok g, Ok g' => Forall2 ealike (in_2_not_1 g) (in_2_not_1 g') /\ Forall2 palike (in_1_and_2 g) (in_1_and_2 g')
  | Err e, Err e' => e = e'
  | _, _ => False
  end.
Proof.
  intros s l m m' H. unfold group_kids, pair_children. destruct (index_kids s l) as [ones | e]; cbn [bind]; [| reflexivity].
  assert (G := Alike_index_from s m m' [] H). unfold index_kids.
  destruct (index_from s [] m) as [tw | e], (index_from s [] m') as [tw' | e']; cbn [bind]; try contradiction; [| exact G].
  rewrite <- (ealike_fst tw tw' G).
  set (keys := map fst ones ++ filter (fun u => negb (mem uid_eqb u (map fst ones))) (map fst tw)). clearbody keys.
  induction keys as [| u r IH]; cbn [map fold_right]; [split; constructor |].
  assert (A := ealike_assoc u tw tw' G). destruct IH as [I1 I2].
  destruct (assoc uid_eqb u ones) as [a |], (assoc uid_eqb u tw) as [b |], (assoc uid_eqb u tw') as [b' |]; cbn [oalike] in A;
    try contradiction; cbn [in_2_not_1 in_1_and_2]; split; auto; constructor; auto; split; auto.
Qed.

Lemma Alike_tag : forall x y, Alike x y -> xtag x = xtag y.
Proof. intros x y H. inversion H; auto. Qed.

Lemma Alike_ref : forall ty c c' l, Alike c c' -> ref_sibling ty c l = ref_sibling ty c' l.
Proof.
  intros ty c c' l A. destruct (Alike_attr c c' A) as (_ & _ & E3 & E4). unfold ref_sibling.
  rewrite E3, E4, (Alike_tag c c' A). reflexivity.
Qed.

Lemma Alike_place : forall cs c c' e l, Alike c c' -> place_new cs c e l = place_new cs c' e l.
Proof.
  intros cs c c' e l A. destruct (Alike_attr c c' A) as (_ & E2 & _). unfold place_new.
  rewrite E2, (Alike_tag c c' A), (Alike_ref (sty cs) c c' l A). reflexivity.
Qed.

Lemma Alike_move : forall cs c c' e l, Alike c c' -> move_peer cs c e l = move_peer cs c' e l.
Proof.
  intros cs c c' e l A. destruct (Alike_attr c c' A) as (_ & E2 & _). unfold move_peer.
  rewrite E2, (Alike_tag c c' A), (Alike_ref (sty cs) c c' l A). reflexivity.
Qed.

Definition RecAlike (rec : snode -> xml -> xml -> res xml) : Prop :=
  forall s x d d', Alike d d' -> rec s x d = rec s x d'.

Lemma Alike_new : forall rec s l p p', RecAlike rec -> ealike p p' -> add_new rec s l p = add_new rec s l p'.
Proof.
  intros rec s l (u, c) (u', c') R [E A]. cbn [fst snd] in E, A. subst u'. unfold add_new.
  rewrite (Alike_op c c' A), (Alike_tag c c' A), (Alike_del c c' A).
  assert (RC : forall cs x, rec cs x c = rec cs x c') by (intros; apply R; auto).
  destruct (op_of c'); auto; destruct (schema_child s (xtag c')) as [cs |]; cbn [bind]; auto;
    destruct (sty cs); auto; rewrite ?(Alike_place cs c c' _ l A); auto; rewrite ?RC; auto.
  rewrite (Alike_copies cs c c' A). destruct (key_copies cs c') as [ks |]; cbn [bind]; auto.
  rewrite (Alike_place cs c c' _ l A). destruct (place_new cs c' (u, Elem (xtag c') None [] ks) l) as [[l' |] |]; cbn [bind]; auto.
  rewrite RC. reflexivity.
Qed.

Lemma Alike_peer : forall rec s l p p', RecAlike rec -> palike p p' -> add_peer rec s l p = add_peer rec s l p'.
Proof.
  intros rec s l ((u, x), c) ((u', x'), c') R [E A]. cbn [fst snd] in E, A. injection E as <- <-. unfold add_peer.
  assert (T : xtext c = xtext c') by (inversion A; auto).
  rewrite (Alike_op c c' A), (Alike_del c c' A), T.
  destruct (schema_child s (xtag x)) as [cs |]; cbn [bind]; auto. rewrite (Alike_move cs c c' (u, x) l A), (R cs x c c' A). reflexivity.
Qed.

Lemma foldM_alike : forall {A S} (R : A -> A -> Prop) (f : S -> A -> res S) l l', Forall2 R l l' ->
  (forall s a a', R a a' -> f s a = f s a') -> forall s, foldM f s l = foldM f s l'.
Proof.
  intros A S R f l l' H G. induction H as [| a a' l l' Ha F IH]; intro s; cbn [foldM]; auto.
  rewrite (G s a a' Ha). destruct (f s a'); cbn [bind]; auto.
Qed.

Lemma bind_ext : forall {A B} (e e' : res A) (k k' : A -> res B), e = e' -> (forall x, k x = k' x) -> bind e k = bind e' k'.
Proof. intros A B e e' k k' -> H. destruct e'; cbn [bind]; auto. Qed.

Theorem node_add_alike : forall f s x d d', Alike d d' -> node_add f s x d = node_add f s x d'.
Proof.
  induction f as [| f IH]; intros s x d d' A; [reflexivity |]. cbn [node_add].
  assert (G := Alike_group s (xkids x) (xkids d) (xkids d') (Alike_kids d d' A)).
  destruct (group_kids s (xkids x) (xkids d)) as [g | e], (group_kids s (xkids x) (xkids d')) as [g' | e']; cbn [bind]; try contradiction;
    [| congruence].
  destruct G as [G1 G2]. destruct (index_kids s (xkids x)) as [l0 |]; cbn [bind]; auto.
  apply bind_ext.
  - apply (foldM_alike ealike _ _ _ G1). intros st p p' P. apply Alike_new; [exact IH | exact P].
  - intro l1. apply bind_ext; [| reflexivity].
    apply (foldM_alike palike _ _ _ G2). intros st p p' P. apply Alike_peer; [exact IH | exact P].
Qed.

Theorem nc_add_alike : forall s x d d', Alike d d' -> nc_add s x d = nc_add s x d'.
Proof. intros s x d d' A. unfold nc_add. rewrite (Alike_height d d' A). apply node_add_alike. exact A. Qed.

(** ** The relation by positions *)
Definition same1 (e e' : list nat * xml) : Prop :=
  fst e = fst e' /\ xtag (snd e) = xtag (snd e') /\ xtext (snd e) = xtext (snd e') /\
  forall m, In m edit_names -> get_attr m (snd e) = get_attr m (snd e').

Lemma places_length_pos : forall x p e, In e (places p x) -> exists r, fst e = p ++ r.
Proof.
  intro x. induction x as [t tx a ks IH] using CalcP.xml_ind'. intros p e H. rewrite places_eq in H. destruct H as [<- | H].
  - exists []. rewrite app_nil_r. reflexivity.
  - cbn [xkids] in H. revert H. generalize 0. induction IH as [| c r Hc _ IHr]; intros n H; [destruct H |].
    cbn [places_kids] in H. apply in_app_or in H. destruct H as [H | H]; [| exact (IHr _ H)].
    destruct (Hc _ _ H) as (q & ->). exists (n :: q). rewrite <- app_assoc. reflexivity.
Qed.

Definition under (p : list nat) (n : nat) (e : list nat * xml) : bool :=
  match skipn (length p) (fst e) with i :: _ => Nat.eqb i n | [] => false end.

Lemma under_in : forall c p n e, In e (places (p ++ [n]) c) -> under p n e = true.
Proof.
  intros c p n e H. apply places_length_pos in H. destruct H as (r & E). unfold under. rewrite E, <- app_assoc.
  rewrite skipn_app, Nat.sub_diag, skipn_all. cbn. apply Nat.eqb_refl.
Qed.

Lemma under_later : forall l p n m e, In e (places_kids p n l) -> m < n -> under p m e = false.
Proof.
  intro l. induction l as [| c r IH]; intros p n m e H L; [destruct H |]. cbn [places_kids] in H. apply in_app_or in H.
  destruct H as [H | H]; [| apply (IH p (S n) m e); [exact H | lia]].
  apply places_length_pos in H. destruct H as (q & E). unfold under. rewrite E, <- app_assoc.
  rewrite skipn_app, Nat.sub_diag, skipn_all. cbn. apply Nat.eqb_neq. lia.
Qed.

Lemma filter_all : forall {A} (f : A -> bool) l, (forall x, In x l -> f x = true) -> filter f l = l.
Proof. intros A f l H. induction l as [| x l IH]; cbn; [reflexivity |]. rewrite (H x) by (left; auto). f_equal. apply IH. intros; apply H; right; auto. Qed.
Lemma filter_no : forall {A} (f : A -> bool) l, (forall x, In x l -> f x = false) -> filter f l = [].
Proof. intros A f l H. induction l as [| x l IH]; cbn; [reflexivity |]. rewrite (H x) by (left; auto). apply IH. intros; apply H; right; auto. Qed.

Lemma Forall2_filter : forall {A} (R : A -> A -> Prop) (f : A -> bool) l l', (forall a b, R a b -> f a = f b) ->
  Forall2 R l l' -> Forall2 R (filter f l) (filter f l').
Proof.
  intros A R f l l' C H. induction H as [| a b l l' Hab F IH]; cbn; [constructor |]. rewrite (C a b Hab).
  destruct (f b); auto.
Qed.

Lemma kids_split : forall (R : list nat * xml -> list nat * xml -> Prop) p l l' n,
  (forall a b, R a b -> fst a = fst b) ->
  Forall2 R (places_kids p n l) (places_kids p n l') ->
  length l = length l' /\
  forall i c c', nth_error l i = Some c -> nth_error l' i = Some c' -> Forall2 R (places (p ++ [n + i]) c) (places (p ++ [n + i]) c').
Proof.
  intros R p l. induction l as [| c r IH]; intros l' n RF H.
  - destruct l' as [| c' r']; [split; auto; intros i ? ? X; destruct i; discriminate |].
    cbn [places_kids] in H. rewrite places_eq in H. inversion H.
  - destruct l' as [| c' r']; [cbn [places_kids] in H; rewrite places_eq in H; inversion H |].
    assert (C : forall m a b, R a b -> under p m a = under p m b) by (intros m a b X; unfold under; rewrite (RF a b X); reflexivity).
    assert (H1 := Forall2_filter R (under p n) _ _ (C n) H).
    assert (H2 := Forall2_filter R (fun e => negb (under p n e)) _ _ (fun a b X => f_equal negb (C n a b X)) H).
    cbn [places_kids] in H1, H2. rewrite !filter_app in H1, H2.
    rewrite !(filter_all (under p n) (places _ _)) in H1 by (intros e I; eapply under_in; eauto).
    rewrite !(filter_no (under p n) (places_kids p (S n) _)), !app_nil_r in H1 by (intros e I; eapply under_later; [exact I | lia]).
    rewrite !(filter_no (fun e => negb (under p n e)) (places _ _)) in H2 by (intros e I; rewrite (under_in _ _ _ _ I); reflexivity).
    rewrite !(filter_all (fun e => negb (under p n e)) (places_kids p (S n) _)) in H2
      by (intros e I; erewrite under_later; [reflexivity | exact I | lia]).
    cbn [app] in H2. destruct (IH r' (S n) RF H2) as [L P]. split; [cbn; congruence |].
    intros i d d' D D'. destruct i as [| i]; cbn [nth_error] in D, D'.
    + injection D as <-. injection D' as <-. rewrite Nat.add_0_r. exact H1.
    + replace (n + S i) with (S n + i) by lia. apply P; auto.
Qed.

Lemma SameEdit_gen : forall x y p, Forall2 same1 (places p x) (places p y) -> Alike x y.
Proof.
  intro x. induction x as [t tx a ks IH] using CalcP.xml_ind'. intros y p H. rewrite (places_eq p (Elem t tx a ks)), (places_eq p y) in H.
  inversion H as [| ? ? ? ? (_ & E1 & E2 & E3) H']; subst. cbn [fst snd] in E1, E2, E3. apply alike; auto.
  - unfold edit_attrs. rewrite !E3; [reflexivity | | | |]; cbn; tauto.
  - cbn [xkids] in *. destruct (kids_split same1 p ks (xkids y) 0 (fun a b X => proj1 X) H') as [L P]. clear H H' E1 E2 E3.
    revert L P. generalize (xkids y) 0. induction IH as [| c r Hc _ IHr]; intros l' n L P; destruct l' as [| c' r']; try discriminate; constructor.
    + apply (Hc c' (p ++ [n + 0])). apply (P 0); reflexivity.
    + apply (IHr r' (S n)); [cbn in L; lia |]. intros i d d' D D'. replace (S n + i) with (n + S i) by lia. apply P; auto.
Qed.

Lemma Alike_places : forall x y p, Alike x y -> Forall2 same1 (places p x) (places p y).
Proof.
  intro x. induction x as [t tx a ks IH] using CalcP.xml_ind'. intros y p A. inversion A as [? ? E1 E2 E3 E4]; subst.
  rewrite (places_eq p (Elem t tx a ks)), (places_eq p y). constructor.
  - repeat split; auto. intros m Hm. cbn [snd]. unfold edit_attrs in E3. injection E3 as X1 X2 X3 X4.
    cbn in Hm. destruct Hm as [<- | [<- | [<- | [<- | []]]]]; auto.
  - cbn [xkids] in *. clear A E1 E2 E3. revert E4. generalize (xkids y) 0. induction IH as [| c r Hc _ IHr]; intros l' n E4; inversion E4; subst; cbn [places_kids]; [constructor |].
    apply Forall2_app; auto.
Qed.

Theorem SameEdit_Alike : forall x y, SameEdit x y <-> Alike x y.
Proof. intros x y. split; intro H; [exact (SameEdit_gen x y [] H) | exact (Alike_places x y [] H)]. Qed.

Theorem same_edit_add : forall s x d d', SameEdit d d' -> nc_add s x d = nc_add s x d'.
Proof. intros s x d d' H. apply nc_add_alike. apply SameEdit_Alike. exact H. Qed.

Theorem same_edit_config : forall s x d d', SameEdit d d' -> config_add s x d = config_add s x d'.
Proof. intros s x d d' H. unfold config_add. rewrite (same_edit_add s x d d' H). reflexivity. Qed.

(** ** Marking *)
Fixpoint mark_kids_sel (sel : list nat -> bool) (n v : string) (p : list nat) (i : nat) (l : list xml) : list xml :=
  match l with
  | [] => []
  | c :: r => mark_sel sel n v (p ++ [i]) c :: mark_kids_sel sel n v p (S i) r
  end.

Lemma mark_sel_eq : forall sel n v p x, mark_sel sel n v p x =
  set_kids (mark_kids_sel sel n v p 0 (xkids x)) (if sel p then set_attr n v x else x).
Proof.
  intros sel n v p [t tx a ks]. cbn [mark_sel xkids].
  assert (G : forall l i, (fix go (i : nat) (l : list xml) : list xml :=
     match l with [] => [] | c :: r => mark_sel sel n v (p ++ [i]) c :: go (S i) r end) i l = mark_kids_sel sel n v p i l).
  { induction l as [| c r IHl]; intro i; cbn [mark_kids_sel]; [reflexivity |]. rewrite IHl. reflexivity. }
  rewrite G. destruct (sel p); reflexivity.
Qed.

Definition mark1 (n v : string) (sel : list nat -> bool) (e e' : list nat * xml) : Prop :=
  fst e = fst e' /\ xtag (snd e) = xtag (snd e') /\ xtext (snd e) = xtext (snd e') /\
  forall m, get_attr m (snd e') = if String.eqb m n && sel (fst e) then Some v else get_attr m (snd e).

Lemma mark_sel_places : forall sel n v x p, Forall2 (mark1 n v sel) (places p x) (places p (mark_sel sel n v p x)).
Proof.
  intros sel n v x. induction x as [x IH] using PruneP.xml_ind'. intro p. rewrite (places_eq p x), places_eq, mark_sel_eq.
  assert (Y : forall l y, xtag (set_kids l y) = xtag y /\ xtext (set_kids l y) = xtext y /\ forall m, get_attr m (set_kids l y) = get_attr m y).
  { intros l [t tx a k]. auto. }
  rewrite kids_set. constructor.
  - unfold mark1. cbn [fst snd]. match goal with |- context [set_kids ?l ?y] => destruct (Y l y) as (Y1 & Y2 & Y3) end. rewrite Y1, Y2.
    split; [reflexivity |]. split; [destruct (sel p); destruct x; reflexivity |]. split; [destruct (sel p); destruct x; reflexivity |].
    intro m. rewrite Y3. destruct (sel p); [| rewrite andb_false_r; reflexivity]. rewrite get_set_attr, andb_true_r. reflexivity.
  - assert (G : forall l i, (forall c, In c l -> In c (xkids x)) ->
      Forall2 (mark1 n v sel) (places_kids p i l) (places_kids p i (mark_kids_sel sel n v p i l))).
    { induction l as [| c r IHr]; intros i I; cbn [places_kids mark_kids_sel]; [constructor |]. apply Forall2_app.
      - apply IH. apply I. left. reflexivity.
      - apply IHr. intros d D. apply I. right. exact D. }
    apply G. auto.
Qed.

Lemma mark_sel_marked : forall sel n v x, MarkedAt n v (fun p => sel p = true) x (mark_sel sel n v [] x).
Proof.
  intros sel n v x. unfold MarkedAt. assert (H := mark_sel_places sel n v x []). revert H.
  generalize (places [] x) (places [] (mark_sel sel n v [] x)). intros l l' H. induction H as [| e e' l l' (E1 & E2 & E3 & E4) F IH]; constructor; auto.
  repeat split; auto.
  - intro C. rewrite E4, String.eqb_refl, C. reflexivity.
  - intro C. rewrite E4. destruct (sel (fst e)); [congruence |]. rewrite andb_false_r. reflexivity.
  - intros m Hm. rewrite E4. destruct (String.eqb_spec m n); [contradiction | reflexivity].
Qed.

Lemma no_mark : forall n v x, MarkedAt n v (fun _ => False) x x.
Proof.
  intros n v x. unfold MarkedAt. generalize (places [] x). intro l. induction l; constructor; auto. repeat split; auto. intros [].
Qed.

(** The delta with replace_xpath is the minimal one with the elements that the expression
    selects in it marked; there is none if the value of the expression is no set of
    nodes. *)
Theorem xpath_marks : forall q o s b a, o_type o = DMinimumReplace ->
  match nc_sub_xpath (Some q) o s b a with
  | Ok y => exists e, nc_sub (as_minimum o) s b a = Ok e /\
      ((exists sel, q e = XNodes sel /\ MarkedAt "operation" "replace" (fun p => sel p = true) e y) \/
       ((q e = XTexts 0 \/ q e = XString "") /\ y = e))
  | Err x => nc_sub (as_minimum o) s b a = Err x \/
      exists e, nc_sub (as_minimum o) s b a = Ok e /\
      ((exists n, q e = XTexts (S n) /\ x = AttributeError) \/ (exists c r, q e = XString (String c r) /\ x = AttributeError) \/
       (q e = XNumber /\ x = TypeError) \/ q e = XRaise x)
  end.
Proof.
  intros q o s b a T. unfold nc_sub_xpath. rewrite T.
  assert (E : nc_sub (as_minimum o) s b a = let! p := node_sub (height b) o s 0 b a in Ok (fst p)).
  { unfold nc_sub. cbn [as_minimum o_type]. rewrite (node_sub_minimum (height b) o s 0 b a T).
    destruct (node_sub (height b) (as_minimum o) s 0 b a); reflexivity. }
  rewrite E. destruct (node_sub (height b) o s 0 b a) as [p | x]; cbn [bind]; [| left; reflexivity].
  unfold add_attribute_by_xpath. destruct (q (fst p)) as [sel | [| n] | [| c r] | | x] eqn:Q.
  - exists (fst p). split; auto. left. exists sel. split; [exact Q | apply mark_sel_marked].
  - exists (fst p). split; auto.
  - right. exists (fst p). split; auto. left. eauto.
  - exists (fst p). split; auto.
  - right. exists (fst p). split; auto. right. left. eauto.
  - right. exists (fst p). split; auto.
  - right. exists (fst p). split; auto.
Qed.

Lemma mark_same : forall n v C x y, ~ In n edit_names -> MarkedAt n v C x y -> SameEdit x y.
Proof.
  intros n v C x y N H. unfold SameEdit, MarkedAt in *. induction H as [| e e' l l' (E1 & E2 & E3 & _ & _ & E4) F IH]; constructor; auto.
  repeat split; auto. intros m Hm. symmetry. apply E4. intro X. subst m. contradiction.
Qed.

(** A mark called "operation" is none of the attributes of an edit. *)
Lemma plain_operation : ~ In "operation" edit_names.
Proof. cbn. intros [H | [H | [H | [H | []]]]]; discriminate. Qed.

Theorem xpath_sum : forall q o s b a y, o_type o = DMinimumReplace -> nc_sub_xpath q o s b a = Ok y ->
  exists e, nc_sub (as_minimum o) s b a = Ok e /\ SameEdit e y /\ forall x, config_add s x y = config_add s x e.
Proof.
  intros q o s b a y T H.
  assert (G : exists e, nc_sub (as_minimum o) s b a = Ok e /\ SameEdit e y).
  { destruct q as [q |].
    - assert (X := xpath_marks q o s b a T). rewrite H in X. destruct X as (e & E & X). exists e. split; auto.
      destruct X as [(sel & _ & M) | [_ ->]].
      + eapply mark_same; [apply plain_operation | exact M].
      + apply (mark_same "operation" "replace" (fun _ => False)); [apply plain_operation | apply no_mark].
    - unfold nc_sub_xpath in H. rewrite T in H. destruct (sub_marked o s b a y T H) as (e & E & M). exists e. split; auto.
      unfold SameEdit. unfold Marked in M. revert M. generalize (places [] e) (places [] y). intros l l' M.
      induction M as [| u u' l l' (E1 & E2 & E3 & E4) F IH]; constructor; auto. repeat split; auto.
      intros m Hm. rewrite E4. destruct (String.eqb_spec m "operation") as [X | X]; [subst m; destruct (plain_operation Hm) | reflexivity]. }
  destruct G as (e & E & S). exists e. split; auto. split; auto. intro x. symmetry. apply same_edit_config. exact S.
Qed.

Theorem xpath_reaches : forall q o s a b y,
  wfs s = true -> sty s = TRoot -> IsConfig s a -> IsConfig s b -> Comparable s a b -> RootKept o s a b ->
  o_type o = DMinimumReplace -> nc_sub_xpath q o s b a = Ok y -> Reaches s (config_add s a y) b.
Proof.
  intros q o s a b y W T Ca Cb C K M H. destruct (xpath_sum q o s b a y M H) as (e & E & _ & G). rewrite G.
  assert (X := reaches (as_minimum o) s a b W T Ca Cb C). unfold config_add_delta, delta_nc in X. cbn [d_opts d_src d_dst] in X.
  rewrite E in X. apply X. unfold RootKept in *. cbn [as_minimum o_type o_depth o_replace]. destruct K as [K | [K | K]]; auto.
  destruct K as [K _]. congruence.
Qed.

Theorem xpath_no_operation : forall q o s b a y, o_type o = DMinimumReplace -> nc_sub_xpath q o s b a = Ok y ->
  exists e, nc_sub (as_minimum o) s b a = Ok e /\
    map (fun p => get_attr operation_tag (snd p)) (places [] y) = map (fun p => get_attr operation_tag (snd p)) (places [] e).
Proof.
  intros q o s b a y M H. destruct (xpath_sum q o s b a y M H) as (e & E & S & _). exists e. split; auto.
  unfold SameEdit in S. induction S as [| u u' l l' (_ & _ & _ & X) F IH]; cbn [map]; [reflexivity |].
  rewrite IH, X; [reflexivity | cbn; tauto].
Qed.
