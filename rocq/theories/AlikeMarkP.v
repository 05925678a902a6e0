(** Alike trees: the marks, deletions and comparisons a difference is made of. *)
From Coq Require Import String Ascii List Bool Arith ZArith Lia Permutation.
From Verif Require Import Base BaseP XmlM CalcM CalcP NetconfM DataSpec DataP ListP NameP PlainP CompareP DeltaSpec DeltaR AddP RoundP AlikeSpec AlikeP AlikeAddP AlikeStepP AlikeSumP AlikeDataP AlikeCheckP SubP.
Import ListNotations.
Open Scope string_scope.
Open Scope list_scope.

Lemma alike_set : forall s x y n v, Alike s x y -> Alike s (set_attr n v x) (set_attr n v y).
Proof.
  intros s x y n v H. apply alike_inv in H. destruct H as (H1 & H2 & H3 & H4). destruct x as [t tx a k], y as [t' tx' a' k']. simpl in *. subst.
  apply alike_intro; auto.
Qed.

Lemma alike_pop : forall s x y n, Alike s x y -> Alike s (pop_attr n x) (pop_attr n y).
Proof.
  intros s x y n H. apply alike_inv in H. destruct H as (H1 & H2 & H3 & H4). destruct x as [t tx a k], y as [t' tx' a' k']. simpl in *. subst.
  apply alike_intro; auto.
Qed.

Lemma alike_set_kids : forall s x y k k', Alike s x y -> AKids s k k' -> Alike s (set_kids k x) (set_kids k' y).
Proof.
  intros s x y k k' H K. apply alike_inv in H. destruct H as (H1 & H2 & H3 & _). destruct x as [t tx a l], y as [t' tx' a' l']. simpl in *. subst.
  apply alike_intro; auto.
Qed.

(** One new node per child *)
Lemma kids_alike1 : forall s k k' (f f' : xml -> res xml), AKids s k k' ->
  (forall c d, f c = Ok d -> xtag d = xtag c) -> (forall c d, f' c = Ok d -> xtag d = xtag c) ->
  (forall c c', In c k -> AK s (xtag c) c c' -> Alikewise (AK s (xtag c)) (f c) (f' c')) ->
  Alikewise (AKids s) (mapM f k) (mapM f' k').
Proof.
  intros s k k' f f' K HT HT' H.
  assert (E : forall (g : xml -> res xml) l, mapM (fun c => let! d := g c in Ok [d]) l = let! ds := mapM g l in Ok (map (fun d => [d]) ds)).
  { intros g l. induction l as [| c r IH]; simpl; auto. destruct (g c) as [d |]; simpl; auto. rewrite IH. destruct (mapM g r); auto. }
  assert (C : forall ds : list xml, concat (map (fun d => [d]) ds) = ds) by (induction ds; simpl; congruence).
  assert (A := kids_alike s k k' (fun c => let! d := f c in Ok [d]) (fun c => let! d := f' c in Ok [d]) K).
  rewrite !E in A. assert (B : Alikewise (fun a b => AKids s (concat a) (concat b)) (let! ds := mapM f k in Ok (map (fun d => [d]) ds)) (let! ds := mapM f' k' in Ok (map (fun d => [d]) ds))).
  { apply A.
    - intros c r d X Hd. apply bind_ok in X. destruct X as (d0 & X & Y). injection Y as <-. destruct Hd as [Hd | []]. subst. eauto.
    - intros c r d X Hd. apply bind_ok in X. destruct X as (d0 & X & Y). injection Y as <-. destruct Hd as [Hd | []]. subst. eauto.
    - intros c c' Hc R. specialize (H c c' Hc R). destruct (f c), (f' c'); simpl in *; auto. }
  destruct (mapM f k), (mapM f' k'); simpl in *; auto. rewrite !C in B. auto.
Qed.

Lemma alike_mark_depth : forall x d s y, Alike s x y -> Alike s (mark_depth d x) (mark_depth d y).
Proof.
  induction x as [t tx a k IH] using CalcP.xml_ind'. intros d s y H. rewrite Forall_forall in IH.
  apply alike_inv in H. destruct H as (H1 & H2 & H3 & K). destruct y as [t' tx' a' k']. simpl in H1, H2, H3, K. subst. simpl.
  assert (TT : forall e z, xtag (mark_depth e z) = xtag z) by (intros e [? ? ? ?]; simpl; destruct (Z.eqb e 0); auto).
  assert (A : Alike s (Elem t' tx' a' (map (mark_depth (d - 1)) k)) (Elem t' tx' a' (map (mark_depth (d - 1)) k'))).
  { apply alike_intro; auto. simpl. intro n. assert (G : forall l, kids_tagged n (map (mark_depth (d - 1)) l) = map (mark_depth (d - 1)) (kids_tagged n l)).
    { intro l. unfold kids_tagged. rewrite filter_map. f_equal. apply filter_ext. intro z. rewrite TT. auto. }
    rewrite !G. apply Matched_map. apply (Matched_impl _ _ _ _ _ _ (K n)); auto. intros c c' Hc _ [E | (cs & D & B)]; [left; congruence |].
    right. exists cs. split; auto. apply IH; auto. apply kids_tagged_In in Hc. tauto. }
  destruct (Z.eqb d 0); auto. apply (alike_set s _ _ "operation" "replace" A).
Qed.

(** ** set_create *)
Definition sc_kid (s : snode) (c : xml) : res xml :=
  let! ce := schema_entry s (xtag c) in
  if mem pos_eqb (ce_pos ce) (default_pos [] s) then Ok c else set_create (ce_node ce) c.

Lemma set_create_eq : forall s x, set_create s x =
  if np_container s then let! ks := mapM (sc_kid s) (xkids x) in Ok (set_kids ks x) else Ok (set_attr operation_tag "create" x).
Proof.
  intros s [t tx a k]. simpl. destruct (np_container s); auto.
  match goal with |- bind (?f k) _ = _ => assert (E : forall l, f l = mapM (sc_kid s) l) end.
  { induction l as [| c r IH]; simpl; auto. rewrite IH. unfold sc_kid. destruct (schema_entry s (xtag c)); simpl; auto. }
  rewrite E. auto.
Qed.

Lemma set_create_tag : forall s x y, set_create s x = Ok y -> xtag y = xtag x.
Proof.
  intros s x y H. rewrite set_create_eq in H. destruct (np_container s).
  - apply bind_ok in H. destruct H as (ks & _ & H). injection H as <-. destruct x; auto.
  - injection H as <-. destruct x; auto.
Qed.

Lemma sc_kid_tag : forall s c d, sc_kid s c = Ok d -> xtag d = xtag c.
Proof.
  intros s c d H. unfold sc_kid in H. apply bind_ok in H. destruct H as (ce & _ & H). destruct (mem pos_eqb (ce_pos ce) (default_pos [] s)).
  - injection H as <-. auto.
  - apply set_create_tag in H. auto.
Qed.

Lemma set_create_alike : forall x s y, Alike s x y -> Alikewise (Alike s) (set_create s x) (set_create s y).
Proof.
  induction x as [t tx a k IH] using CalcP.xml_ind'. intros s y H. rewrite Forall_forall in IH. rewrite !set_create_eq.
  destruct (np_container s); [| exact (alike_set s _ _ operation_tag "create" H)].
  apply (aw_bind (AKids s)); [| intros ks ks' K; apply alike_set_kids; auto].
  apply kids_alike1; [apply alike_inv in H; tauto | apply sc_kid_tag | apply sc_kid_tag |].
  simpl. intros c c' Hc R. assert (P := AK_parts _ _ _ _ R). destruct P as (P1 & _). unfold sc_kid. rewrite <- P1.
  destruct (schema_entry s (xtag c)) as [ce |] eqn:E; simpl; auto. assert (E' : schema_child s (xtag c) = Ok (ce_node ce)) by (apply schema_child_entry; eauto).
  destruct (mem pos_eqb (ce_pos ce) (default_pos [] s)); simpl; auto.
  apply (aw_impl (Alike (ce_node ce))); [intros u v B; eapply AK_make; eauto |]. apply IH; auto. eapply AK_child; eauto.
Qed.

Lemma mark_create_alike : forall o cs x y, Alike cs x y -> Alikewise (Alike cs) (mark_create o cs x) (mark_create o cs y).
Proof.
  intros o cs x y H. unfold mark_create. destruct (o_create o); simpl; auto.
  - apply set_create_alike. auto.
  - apply alike_set. auto.
Qed.

(** ** Deletions *)
Lemma del_keys_alike : forall cs x y ts, Alike cs x y -> key_tuple cs x = Ok ts -> del_keys cs x = del_keys cs y.
Proof.
  intros cs x y ts A K. apply key_tuple_Forall2 in K. unfold del_keys. apply mapM_ext. intros k Hk.
  assert (X : exists u, kids_tagged k (xkids x) = [u]).
  { clear -K Hk. induction K as [| k0 t l ts (c & C & _) K IH]; [destruct Hk |]. destruct Hk as [E | Hk]; [subst; eauto | auto]. }
  destruct (alike_find cs x y k A X) as (u & v & E1 & E2 & R). rewrite E1, E2. apply AK_parts in R. destruct R as (_ & R & _). rewrite R. auto.
Qed.

Lemma del_one_tag : forall s c d, del_one s c = Ok d -> xtag d = xtag c.
Proof.
  intros s c d H. unfold del_one in H. apply bind_ok in H. destruct H as (cs & _ & H).
  destruct (sty cs); try (injection H as <-; auto; fail); try (apply bind_ok in H; destruct H as (kk & _ & H); injection H as <-; auto; fail);
    destruct (np_container cs); try (injection H as <-; auto; fail); apply bind_ok in H; destruct H as (kk & _ & H); injection H as <-; auto.
Qed.

Lemma mk_del_tag : forall o cs c d, mk_del o cs c = Ok d -> xtag d = xtag c.
Proof.
  intros o cs c d H. unfold mk_del in H.
  destruct (sty cs); try (injection H as <-; auto; fail); try (apply bind_ok in H; destruct H as (kk & _ & H); injection H as <-; auto; fail);
    destruct (np_container cs && _); try (injection H as <-; auto; fail); apply bind_ok in H; destruct H as (kk & _ & H); injection H as <-; auto.
Qed.

Lemma alike_elem : forall cs t tx a k k', AKids cs k k' -> Alike cs (Elem t tx a k) (Elem t tx a k').
Proof. intros. apply alike_intro; auto. Qed.

Lemma kid_keys : forall s x c cs, valid s x = true -> In c (xkids x) -> schema_child s (xtag c) = Ok cs -> sty cs = TList -> exists ts, key_tuple cs c = Ok ts.
Proof.
  intros s x c cs V Hc Hs T. destruct (valid_inv s x V) as (_ & (l & I) & _). destruct (Index_In s _ l c I Hc) as (u & Hu).
  assert (U := Index_uid s _ l u c I Hu). apply (uid_list s c cs Hs T) in U. destruct U as (ts & U & _). eauto.
Qed.

Lemma kid_valid : forall s x c cs, valid s x = true -> In c (xkids x) -> schema_child s (xtag c) = Ok cs -> valid cs c = true.
Proof. intros s x c cs V Hc Hs. destruct (valid_inv s x V) as (_ & _ & K). destruct (K c Hc) as (cs' & H & H'). congruence. Qed.

Lemma del_kids_alike : forall x s y, valid s x = true -> Alike s x y -> Alikewise (AKids s) (del_kids s x) (del_kids s y).
Proof.
  induction x as [t tx a k IH] using CalcP.xml_ind'. intros s y V A. rewrite Forall_forall in IH. rewrite !del_kids_eq. assert (K := A). apply alike_inv in K. destruct K as (_ & _ & _ & K).
  apply kids_alike1; [exact K | apply del_one_tag | apply del_one_tag |]. intros c c' Hc R. assert (P := AK_parts _ _ _ _ R). destruct P as (P1 & P2 & _).
  unfold del_one. rewrite <- P1, <- P2. destruct (schema_child s (xtag c)) as [cs |] eqn:Hs; simpl; auto.
  assert (AC := AK_child _ _ _ _ _ R Hs). assert (VC := kid_valid s _ c cs V Hc Hs).
  destruct (sty cs) eqn:T; simpl; auto using AK_refl; try (destruct (np_container cs); simpl; auto using AK_refl;
    apply (aw_bind (AKids cs)); [apply IH; auto | intros kk kk' KK; apply (AK_make _ _ _ _ cs Hs); apply alike_elem; auto]).
  destruct (kid_keys s _ c cs V Hc Hs T) as (ts & KT). rewrite (del_keys_alike cs c c' ts AC KT). destruct (del_keys cs c'); simpl; auto using AK_refl.
Qed.

Lemma mk_del_alike : forall o cs x y, valid cs x = true -> (sty cs = TList -> exists ts, key_tuple cs x = Ok ts) -> Alike cs x y ->
  Alikewise (Alike cs) (mk_del o cs x) (mk_del o cs y).
Proof.
  intros o cs x y V KT A. assert (P := A). apply alike_inv in P. destruct P as (P1 & P2 & _). unfold mk_del. rewrite <- P1, <- P2.
  destruct (sty cs) eqn:T; simpl; auto using alike_refl; try (destruct (np_container cs && _); simpl; auto using alike_refl;
    apply (aw_bind (AKids cs)); [apply del_kids_alike; auto | intros kk kk' KK; apply alike_elem; auto]).
  destruct (KT eq_refl) as (ts & K). rewrite (del_keys_alike cs x y ts A K). destruct (del_keys cs y); simpl; auto using alike_refl.
Qed.

(** ** Comparisons *)
Lemma same_text_alike : forall cs a a' b b', Alike cs a a' -> Alike cs b b' -> same_text cs a b = same_text cs a' b'.
Proof.
  intros cs a a' b b' A B. apply alike_inv in A. apply alike_inv in B. destruct A as (_ & A & _), B as (_ & B & _).
  unfold same_text, parse_text. rewrite A, B. auto.
Qed.

Lemma node_eq_alike : forall cs a a' b b', valid cs a = true -> valid cs b = true -> Alike cs a a' -> Alike cs b b' -> node_eq cs a b = node_eq cs a' b'.
Proof. intros cs a a' b b' Va Vb A B. unfold node_eq. rewrite (le_alike cs a a' b b'), (le_alike cs b b' a a'); auto. Qed.

Lemma strip_alike : forall cs x y, Alike cs x y -> Alikewise (Alike cs) (strip_to_keys cs x) (strip_to_keys cs y).
Proof.
  intros cs x y A. unfold strip_to_keys. apply (aw_bind (fun a b => AKids cs (concat a) (concat b))); [| intros a b K; simpl; apply alike_set_kids; auto].
  apply kids_alike; [apply alike_inv in A; tauto | | |].
  - intros c r d H Hd. apply bind_ok in H. destruct H as (ks & _ & H). injection H as <-. destruct (s_is_key (si ks)); [| destruct Hd]. destruct Hd as [Hd | []]. congruence.
  - intros c r d H Hd. apply bind_ok in H. destruct H as (ks & _ & H). injection H as <-. destruct (s_is_key (si ks)); [| destruct Hd]. destruct Hd as [Hd | []]. congruence.
  - intros c c' Hc R. assert (P := AK_parts _ _ _ _ R). destruct P as (P1 & _). rewrite <- P1. destruct (schema_child cs (xtag c)) as [ks |]; simpl; auto.
    destruct (s_is_key (si ks)); auto.
Qed.

Lemma strip_tag : forall cs x y, strip_to_keys cs x = Ok y -> xtag y = xtag x.
Proof. intros cs x y H. unfold strip_to_keys in H. apply bind_ok in H. destruct H as (ks & _ & H). injection H as <-. destruct x; auto. Qed.

(** ** Leaf-lists *)
Lemma eq_F2 : forall {A} (l l' : list A), Forall2 eq l l' -> l = l'.
Proof. intros A l l' H. induction H; congruence. Qed.

Lemma same_leaf_list_alike : forall s t k1 k1' k2 k2', AKids s k1 k1' -> AKids s k2 k2' -> same_leaf_list s t k1 k2 = same_leaf_list s t k1' k2'.
Proof.
  intros s t k1 k1' k2 k2' K1 K2. unfold same_leaf_list. destruct (schema_child s t) as [cs |] eqn:Hs; simpl; auto.
  assert (M : forall k k', AKids s k k' -> Matched (UserTag s t) eq (map (parse_text cs) (kids_tagged t k)) (map (parse_text cs) (kids_tagged t k'))).
  { intros k k' K. apply Matched_map. apply (Matched_impl _ _ _ _ _ _ (K t)); auto. intros x y _ _ R. apply AK_parts in R. destruct R as (_ & R & _). unfold parse_text. rewrite R. auto. }
  assert (M1 := M k1 k1' K1). assert (M2 := M k2 k2' K2). destruct (s_user (si cs)) eqn:U.
  - assert (O : UserTag s t) by (exists cs; split; auto; apply schema_child_Defines; auto).
    rewrite (eq_F2 _ _ (proj1 M1 O)), (eq_F2 _ _ (proj1 M2 O)). auto.
  - apply Matched_eq_perm in M1. apply Matched_eq_perm in M2. f_equal.
    assert (F : forall l1 l1' l2 l2', Permutation l1 l1' -> Permutation l2 l2' -> forallb (fun v => mem ostr_eqb v l2) l1 = true -> forallb (fun v => mem ostr_eqb v l2') l1' = true).
    { intros l1 l1' l2 l2' P Q H. rewrite forallb_forall in *. intros v Hv. apply (Permutation_in v (Permutation_sym P)) in Hv. specialize (H v Hv).
      apply (mem_In ostr_eqb ostr_eqb_ok). apply (mem_In ostr_eqb ostr_eqb_ok) in H. apply (Permutation_in v Q H). }
    apply eq_true_iff_eq. rewrite !andb_true_iff. split; intros (X & Y); split.
    + apply (F _ _ _ _ M1 M2 X).
    + apply (F _ _ _ _ M2 M1 Y).
    + apply (F _ _ _ _ (Permutation_sym M1) (Permutation_sym M2) X).
    + apply (F _ _ _ _ (Permutation_sym M2) (Permutation_sym M1) Y).
Qed.

Lemma leaf_lists_differ_alike : forall s x x' y y', valid s x = true -> valid s y = true -> Alike s x x' -> Alike s y y' ->
  leaf_lists_differ s (xkids x) (xkids y) = leaf_lists_differ s (xkids x') (xkids y').
Proof.
  intros s x x' y y' Vx Vy A B. destruct (alike_valid x s x' Vx A) as (Vx' & _). destruct (alike_valid y s y' Vy B) as (Vy' & _).
  assert (KD : forall z, valid s z = true -> forall c, In c (xkids z) -> exists cs, schema_child s (xtag c) = Ok cs).
  { intros z V c Hc. destruct (valid_inv s z V) as (_ & _ & K). destruct (K c Hc) as (cs & H & _). eauto. }
  destruct (leaf_lists_total s (xkids x) (xkids y) (KD x Vx) (KD y Vy)) as (e & E). destruct (leaf_lists_total s (xkids x') (xkids y') (KD x' Vx') (KD y' Vy')) as (e' & E').
  rewrite E, E'. f_equal. assert (G := leaf_lists_differ_iff _ _ _ _ E). assert (G' := leaf_lists_differ_iff _ _ _ _ E').
  apply alike_inv in A. apply alike_inv in B. destruct A as (_ & _ & _ & KA), B as (_ & _ & _ & KB).
  assert (S1 : forall t, same_leaf_list s t (xkids x) (xkids y) = same_leaf_list s t (xkids x') (xkids y')) by (intro t; apply same_leaf_list_alike; auto).
  apply eq_true_iff_eq. rewrite G, G'. split; intros (t & cs & c1 & c2 & A1 & A2 & A3 & A4 & A5 & A6 & A7).
  - destruct (AKids_In_l _ _ _ c1 KA A3) as (d1 & D1 & R1). destruct (AKids_In_l _ _ _ c2 KB A5) as (d2 & D2 & R2). apply AK_parts in R1. apply AK_parts in R2.
    exists t, cs, d1, d2. rewrite <- S1. destruct R1, R2. repeat split; auto; congruence.
  - destruct (AKids_In_r _ _ _ c1 KA A3) as (d1 & D1 & R1). destruct (AKids_In_r _ _ _ c2 KB A5) as (d2 & D2 & R2). apply AK_parts in R1. apply AK_parts in R2.
    exists t, cs, d1, d2. rewrite S1. destruct R1, R2. repeat split; auto; congruence.
Qed.
