(** Lemmas about trees that are equal but for the order of siblings. *)
From Coq Require Import String Ascii List Bool Arith ZArith Lia Permutation.
From Verif Require Import Base BaseP XmlM CalcM CalcP NetconfM DataSpec DataP ListP AlikeSpec.
Import ListNotations.
Open Scope string_scope.
Open Scope list_scope.

(** ** Outcomes *)
Lemma aw_bind : forall {A B C D} (P : A -> B -> Prop) (Q : C -> D -> Prop) r1 r2 f g,
  Alikewise P r1 r2 -> (forall x y, P x y -> Alikewise Q (f x) (g y)) -> Alikewise Q (bind r1 f) (bind r2 g).
Proof. intros A B C D P Q [x | e] [y | e'] f g H1 H2; simpl in *; auto; contradiction. Qed.

Lemma aw_bindE : forall {A B C D} (P : A -> B -> Prop) (Q : C -> D -> Prop) r1 r2 f g,
  Alikewise P r1 r2 -> (forall x y, r1 = Ok x -> r2 = Ok y -> P x y -> Alikewise Q (f x) (g y)) -> Alikewise Q (bind r1 f) (bind r2 g).
Proof. intros A B C D P Q [x | e] [y | e'] f g H1 H2; simpl in *; auto; contradiction. Qed.

Lemma aw_impl : forall {A B} (P Q : A -> B -> Prop) r1 r2, (forall x y, P x y -> Q x y) -> Alikewise P r1 r2 -> Alikewise Q r1 r2.
Proof. intros A B P Q [x | e] [y | e'] H1 H2; simpl in *; auto. Qed.

Lemma aw_refl : forall {A} (P : A -> A -> Prop) r, (forall x, P x x) -> Alikewise P r r.
Proof. intros A P [x | e] H; simpl; auto. Qed.

Lemma aw_eq : forall {A} (r1 r2 : res A), r1 = r2 -> Alikewise eq r1 r2.
Proof. intros A r1 r2 H. subst. apply aw_refl. auto. Qed.

Lemma aw_sym : forall {A B} (P : A -> B -> Prop) (Q : B -> A -> Prop) r1 r2, (forall x y, P x y -> Q y x) -> Alikewise P r1 r2 -> Alikewise Q r2 r1.
Proof. intros A B P Q [x | e] [y | e'] H1 H2; simpl in *; auto. Qed.

Lemma aw_trans : forall {A B C} (P : A -> B -> Prop) (Q : B -> C -> Prop) (R : A -> C -> Prop) r1 r2 r3,
  (forall x y z, P x y -> Q y z -> R x z) -> Alikewise P r1 r2 -> Alikewise Q r2 r3 -> Alikewise R r1 r3.
Proof. intros A B C P Q R [x | e] [y | e'] [z | e''] H1 H2 H3; simpl in *; eauto; contradiction. Qed.

Lemma aw_mapM : forall {A B C D} (P : A -> B -> Prop) (Q : C -> D -> Prop) f g l1 l2,
  Forall2 P l1 l2 -> (forall x y, P x y -> Alikewise Q (f x) (g y)) -> Alikewise (Forall2 Q) (mapM f l1) (mapM g l2).
Proof.
  intros A B C D P Q f g l1 l2 H HP. induction H as [| x y r1 r2 H1 H2 IH]; simpl; [constructor |].
  apply (aw_bind Q); auto. intros u v U. apply (aw_bind (Forall2 Q)); auto. intros us vs V. simpl. constructor; auto.
Qed.

Lemma aw_foldM : forall {A B S T} (P : A -> B -> Prop) (Q : S -> T -> Prop) f g l1 l2 s t,
  Forall2 P l1 l2 -> Q s t -> (forall s t x y, Q s t -> P x y -> Alikewise Q (f s x) (g t y)) ->
  Alikewise Q (foldM f s l1) (foldM g t l2).
Proof.
  intros A B S T P Q f g l1 l2 s t H. revert s t. induction H as [| x y r1 r2 H1 H2 IH]; intros s t HQ HP; simpl; auto.
  apply (aw_bind Q); auto.
Qed.

(** ** Matched lists *)
Lemma Forall2_refl : forall {A} (R : A -> A -> Prop) l, (forall x, In x l -> R x x) -> Forall2 R l l.
Proof. intros A R l H. induction l as [| x r IH]; constructor; [apply H; left; auto | apply IH; intros; apply H; right; auto]. Qed.

Lemma Forall2_In_l : forall {A B} (R : A -> B -> Prop) l1 l2 x, Forall2 R l1 l2 -> In x l1 -> exists y, In y l2 /\ R x y.
Proof.
  intros A B R l1 l2 x H. induction H as [| a b r1 r2 H1 H2 IH]; [intros [] | intros [E | Hx]]; subst.
  - exists b. split; auto. left. auto.
  - destruct (IH Hx) as (y & Hy & HR). exists y. split; auto. right. auto.
Qed.

Lemma Forall2_In_r : forall {A B} (R : A -> B -> Prop) l1 l2 y, Forall2 R l1 l2 -> In y l2 -> exists x, In x l1 /\ R x y.
Proof.
  intros A B R l1 l2 y H. induction H as [| a b r1 r2 H1 H2 IH]; [intros [] | intros [E | Hx]]; subst.
  - exists a. split; auto. left. auto.
  - destruct (IH Hx) as (x & Hy & HR). exists x. split; auto. right. auto.
Qed.

Lemma Forall2_flip : forall {A B} (R : A -> B -> Prop) l1 l2, Forall2 R l1 l2 -> Forall2 (fun y x => R x y) l2 l1.
Proof. intros A B R l1 l2 H. induction H; constructor; auto. Qed.

Lemma Forall2_In_impl : forall {A B} (R R' : A -> B -> Prop) l1 l2, Forall2 R l1 l2 ->
  (forall x y, In x l1 -> In y l2 -> R x y -> R' x y) -> Forall2 R' l1 l2.
Proof.
  intros A B R R' l1 l2 H. induction H as [| a b r1 r2 H1 H2 IH]; intro G; constructor.
  - apply G; auto; left; auto.
  - apply IH. intros x y Hx Hy. apply G; right; auto.
Qed.

Lemma Forall2_trans : forall {A B C} (P : A -> B -> Prop) (Q : B -> C -> Prop) (R : A -> C -> Prop) l1 l2,
  Forall2 P l1 l2 -> forall l3, (forall x y z, P x y -> Q y z -> R x z) -> Forall2 Q l2 l3 -> Forall2 R l1 l3.
Proof.
  intros A B C P Q R l1 l2 H. induction H as [| a b r1 r2 H1 H2 IH]; intros l3 G F; inversion F; subst; constructor; eauto.
Qed.

(** A permutation of the second list can be followed by the first. *)
Lemma Forall2_perm_r : forall {A B} (R : A -> B -> Prop) l2 l2', Permutation l2 l2' -> forall l1, Forall2 R l1 l2 ->
  exists l1', Permutation l1 l1' /\ Forall2 R l1' l2'.
Proof.
  intros A B R l2 l2' P. induction P as [| x r1 r2 P IH | x y r | r1 r2 r3 P1 IH1 P2 IH2]; intros l1 H.
  - exists l1. split; auto.
  - inversion H as [| a b q1 q2 Ha Hq]; subst. destruct (IH q1 Hq) as (q & Q1 & Q2). exists (a :: q). split; auto.
  - inversion H as [| a b q1 q2 Ha Hq]; subst. inversion Hq as [| a' b' q1' q2' Ha' Hq']; subst.
    exists (a' :: a :: q1'). split; [apply perm_swap |]. auto.
  - destruct (IH1 l1 H) as (q & Q1 & Q2). destruct (IH2 q Q2) as (q' & Q1' & Q2'). exists q'. split; auto.
    apply (perm_trans Q1 Q1').
Qed.

Lemma Matched_ordered : forall {A B} o (R : A -> B -> Prop) l1 l2, Forall2 R l1 l2 -> Matched o R l1 l2.
Proof. intros A B o R l1 l2 H. split; auto. exists l2. auto. Qed.

Lemma Matched_refl : forall {A} o (R : A -> A -> Prop) l, (forall x, In x l -> R x x) -> Matched o R l l.
Proof. intros A o R l H. apply Matched_ordered. apply Forall2_refl. auto. Qed.

Lemma Matched_impl : forall {A B} (o o' : Prop) (R R' : A -> B -> Prop) l1 l2, Matched o R l1 l2 -> (o' -> o) ->
  (forall x y, In x l1 -> In y l2 -> R x y -> R' x y) -> Matched o' R' l1 l2.
Proof.
  intros A B o o' R R' l1 l2 (M0 & m & M1 & M2) Ho H. split.
  - intro O. apply (Forall2_In_impl R); auto.
  - exists m. split; auto. apply (Forall2_In_impl R); auto. intros x y X Y. apply H; auto. apply (Permutation_in y M1); auto.
Qed.

Lemma Matched_In_l : forall {A B} o (R : A -> B -> Prop) l1 l2 x, Matched o R l1 l2 -> In x l1 -> exists y, In y l2 /\ R x y.
Proof.
  intros A B o R l1 l2 x (_ & m & M1 & M3) Hx. destruct (Forall2_In_l R l1 m x M3 Hx) as (y & Hy & HR).
  exists y. split; auto. apply (Permutation_in y M1); auto.
Qed.

Lemma Matched_In_r : forall {A B} o (R : A -> B -> Prop) l1 l2 y, Matched o R l1 l2 -> In y l2 -> exists x, In x l1 /\ R x y.
Proof.
  intros A B o R l1 l2 y (_ & m & M1 & M3) Hy. apply (Forall2_In_r R l1 m y M3).
  apply (Permutation_in y (Permutation_sym M1)); auto.
Qed.

Lemma Matched_length : forall {A B} o (R : A -> B -> Prop) l1 l2, Matched o R l1 l2 -> length l1 = length l2.
Proof. intros A B o R l1 l2 (_ & m & M1 & M3). apply Forall2_len in M3. apply Permutation_length in M1. congruence. Qed.

Lemma Matched_sym : forall {A B} o (R : A -> B -> Prop) l1 l2, Matched o R l1 l2 -> Matched o (fun y x => R x y) l2 l1.
Proof.
  intros A B o R l1 l2 (M0 & m & M1 & M3). split; [intro O; apply Forall2_flip; auto |].
  destruct (Forall2_perm_r R m l2 M1 l1 M3) as (m' & P & F).
  exists m'. split; [apply Permutation_sym; auto |]. apply Forall2_flip. auto.
Qed.

Lemma Matched_trans : forall {A B C} o (P : A -> B -> Prop) (Q : B -> C -> Prop) (R : A -> C -> Prop) l1 l2 l3,
  (forall x y z, P x y -> Q y z -> R x z) -> Matched o P l1 l2 -> Matched o Q l2 l3 -> Matched o R l1 l3.
Proof.
  intros A B C o P Q R l1 l2 l3 H (M0 & m & M1 & M3) (N0 & n & N1 & N3). split.
  - intro O. apply (Forall2_trans P Q R l1 l2); auto.
  - destruct (Forall2_perm_r (fun y x => Q x y) l2 m (Permutation_sym M1) n (Forall2_flip _ _ _ N3)) as (n' & P' & F).
    exists n'. split; [apply (perm_trans (Permutation_sym P') N1) |].
    apply (Forall2_trans P Q R l1 m); auto. apply Forall2_flip in F. exact F.
Qed.

Lemma Forall2_filter : forall {A B} (R : A -> B -> Prop) p q l1 l2, Forall2 R l1 l2 ->
  (forall x y, R x y -> p x = q y) -> Forall2 R (filter p l1) (filter q l2).
Proof.
  intros A B R p q l1 l2 H G. induction H as [| a b r1 r2 H1 H2 IH]; simpl; auto.
  rewrite (G a b H1). destruct (q b); auto.
Qed.

Lemma perm_filter : forall {A} (p : A -> bool) l1 l2, Permutation l1 l2 -> Permutation (filter p l1) (filter p l2).
Proof.
  intros A p l1 l2 H. induction H; simpl; auto.
  - destruct (p x); auto.
  - destruct (p x), (p y); auto. apply perm_swap.
  - apply (perm_trans IHPermutation1 IHPermutation2).
Qed.

Lemma Matched_filter : forall {A B} o (R : A -> B -> Prop) p q l1 l2, Matched o R l1 l2 ->
  (forall x y, R x y -> p x = q y) -> Matched o R (filter p l1) (filter q l2).
Proof.
  intros A B o R p q l1 l2 (M0 & m & M1 & M3) G. split; [intro O; apply Forall2_filter; auto |].
  exists (filter q m). split; [apply perm_filter; auto | apply Forall2_filter; auto].
Qed.

Lemma Forall2_map : forall {A B C D} (R : C -> D -> Prop) (f : A -> C) (g : B -> D) l1 l2,
  Forall2 (fun x y => R (f x) (g y)) l1 l2 -> Forall2 R (map f l1) (map g l2).
Proof. intros A B C D R f g l1 l2 H. induction H; simpl; auto. Qed.

Lemma Matched_map : forall {A B C D} o (R : C -> D -> Prop) (f : A -> C) (g : B -> D) l1 l2,
  Matched o (fun x y => R (f x) (g y)) l1 l2 -> Matched o R (map f l1) (map g l2).
Proof.
  intros A B C D o R f g l1 l2 (M0 & m & M1 & M3). split; [intro O; apply Forall2_map; auto |].
  exists (map g m). split; [apply Permutation_map; auto | apply Forall2_map; auto].
Qed.

Lemma Matched_eq_perm : forall {A} o (l1 l2 : list A), Matched o eq l1 l2 -> Permutation l1 l2.
Proof.
  intros A o l1 l2 (_ & m & M1 & M3). assert (E : l1 = m) by (clear M1; induction M3; subst; auto). subst. auto.
Qed.

Lemma Matched_one : forall {A B} o (R : A -> B -> Prop) l1 l2 x, Matched o R l1 l2 -> l1 = [x] -> exists y, l2 = [y] /\ R x y.
Proof.
  intros A B o R l1 l2 x M E. assert (L := Matched_length _ _ _ _ M). subst. destruct l2 as [| y [|]]; try discriminate.
  destruct (Matched_In_l o R [x] [y] x M) as (y' & [Y | []] & HR); [left; auto |]. subst. exists y'. auto.
Qed.

(** ** Alike trees *)
Definition AK (s : snode) (n : string) (c c' : xml) : Prop := c = c' \/ exists cs, Defines s n cs /\ Alike cs c c'.
Definition AKids (s : snode) (k1 k2 : list xml) : Prop := forall n, Matched (UserTag s n) (AK s n) (kids_tagged n k1) (kids_tagged n k2).

Lemma alike_inv : forall s x y, Alike s x y -> xtag x = xtag y /\ xtext x = xtext y /\ xattrs x = xattrs y /\ AKids s (xkids x) (xkids y).
Proof. intros s x y H. inversion H; subst. simpl. auto. Qed.

Lemma alike_intro : forall s x y, xtag x = xtag y -> xtext x = xtext y -> xattrs x = xattrs y -> AKids s (xkids x) (xkids y) -> Alike s x y.
Proof. intros s [t tx a k] [t' tx' a' k'] H1 H2 H3 H4. simpl in *. subst. apply alike. exact H4. Qed.

Lemma AKids_refl : forall s k, AKids s k k.
Proof. intros s k n. apply Matched_refl. intros x _. left. auto. Qed.

Lemma alike_refl : forall s x, Alike s x x.
Proof. intros s x. apply alike_intro; auto. apply AKids_refl. Qed.

Lemma AK_refl : forall s n c, AK s n c c.
Proof. left. auto. Qed.

Lemma AK_parts : forall s n c c', AK s n c c' -> xtag c = xtag c' /\ xtext c = xtext c' /\ xattrs c = xattrs c'.
Proof. intros s n c c' [H | (cs & _ & H)]; [subst; auto |]. apply alike_inv in H. tauto. Qed.

Lemma AK_child : forall s n c c' cs, AK s n c c' -> schema_child s n = Ok cs -> Alike cs c c'.
Proof.
  intros s n c c' cs [H | (cs' & D & H)] E; [subst; apply alike_refl |].
  apply (Defines_schema_child s n cs) in D; auto. subst. auto.
Qed.

Lemma AK_make : forall s n c c' cs, schema_child s n = Ok cs -> Alike cs c c' -> AK s n c c'.
Proof. intros s n c c' cs E H. right. exists cs. split; auto. apply schema_child_Defines. auto. Qed.

Lemma kids_tagged_In : forall n l c, In c (kids_tagged n l) <-> In c l /\ xtag c = n.
Proof. intros n l c. unfold kids_tagged. rewrite filter_In. rewrite (string_eqb_ok (xtag c) n). tauto. Qed.

Lemma AKids_In_l : forall s k1 k2 c, AKids s k1 k2 -> In c k1 -> exists c', In c' k2 /\ AK s (xtag c) c c'.
Proof.
  intros s k1 k2 c H Hc. destruct (Matched_In_l _ _ _ _ c (H (xtag c))) as (c' & Hc' & R); [apply kids_tagged_In; auto |].
  apply kids_tagged_In in Hc'. exists c'. tauto.
Qed.

Lemma AKids_In_r : forall s k1 k2 c', AKids s k1 k2 -> In c' k2 -> exists c, In c k1 /\ AK s (xtag c') c c'.
Proof.
  intros s k1 k2 c' H Hc. destruct (Matched_In_r _ _ _ _ c' (H (xtag c'))) as (c & Hc' & R); [apply kids_tagged_In; auto |].
  apply kids_tagged_In in Hc'. exists c. tauto.
Qed.

Lemma alike_sym : forall x s y, Alike s x y -> Alike s y x.
Proof.
  induction x as [t tx a k IH] using CalcP.xml_ind'. intros s y H. apply alike_inv in H. destruct H as (H1 & H2 & H3 & H4).
  apply alike_intro; auto. intro n. apply (Matched_impl _ _ _ _ _ _ (Matched_sym _ _ _ _ (H4 n))); auto.
  intros c' c Hc' Hc [E | (cs & D & A)]; [left; auto |]. right. exists cs. split; auto. rewrite Forall_forall in IH.
  apply IH; auto. apply kids_tagged_In in Hc. tauto.
Qed.

Lemma alike_no_kids : forall s x y, Alike s x y -> (xkids x = [] <-> xkids y = []).
Proof.
  intros s x y H. apply alike_inv in H. destruct H as (_ & _ & _ & K). split; intro E.
  - destruct (xkids y) as [| c r] eqn:F; auto. destruct (AKids_In_r s _ _ c K) as (c' & Hc & _); [left; auto |]. rewrite E in Hc. destruct Hc.
  - destruct (xkids x) as [| c r] eqn:F; auto. destruct (AKids_In_l s _ _ c K) as (c' & Hc & _); [left; auto |]. rewrite E in Hc. destruct Hc.
Qed.

(** Heights *)
Lemma height_le : forall x y, (forall c, In c (xkids x) -> exists c', In c' (xkids y) /\ height c <= height c') -> height x <= height y.
Proof.
  intros [t tx a k] [t' tx' a' k'] H. simpl in *. apply le_n_S.
  assert (G : forall l n, (forall c, In c l -> height c <= n) -> fold_right (fun c n => Nat.max (height c) n) 0 l <= n).
  { induction l as [| c r IH]; intros n Hn; simpl; [lia |]. assert (height c <= n) by (apply Hn; left; auto).
    assert (fold_right (fun c n => Nat.max (height c) n) 0 r <= n) by (apply IH; intros; apply Hn; right; auto). lia. }
  assert (M : forall l c, In c l -> height c <= fold_right (fun c n => Nat.max (height c) n) 0 l).
  { induction l as [| c r IH]; intros d; [intros [] | intros [E | Hd]]; simpl; subst; [lia |]. assert (K := IH d Hd). lia. }
  apply G. intros c Hc. destruct (H c Hc) as (c' & Hc' & L). assert (K := M k' c' Hc'). lia.
Qed.

Lemma alike_height_le : forall x s y, Alike s x y -> height x <= height y.
Proof.
  induction x as [t tx a k IH] using CalcP.xml_ind'. intros s y H. rewrite Forall_forall in IH.
  apply alike_inv in H. destruct H as (_ & _ & _ & K). apply height_le. intros c Hc.
  destruct (AKids_In_l s _ _ c K Hc) as (c' & Hc' & [E | (cs & _ & A)]).
  - exists c'. subst. auto.
  - exists c'. split; auto. apply (IH c Hc cs). auto.
Qed.

Lemma alike_height : forall s x y, Alike s x y -> height x = height y.
Proof. intros s x y H. assert (H1 := alike_height_le x s y H). assert (H2 := alike_height_le y s x (alike_sym x s y H)). lia. Qed.

(** Copies without attributes *)
Lemma kids_tagged_del : forall n k, kids_tagged n (map del_attrib k) = map del_attrib (kids_tagged n k).
Proof. intros n k. unfold kids_tagged. rewrite filter_map. f_equal. apply filter_ext. intros [t tx a l]. reflexivity. Qed.

Lemma alike_del : forall x s y, Alike s x y -> Alike s (del_attrib x) (del_attrib y).
Proof.
  induction x as [t tx a k IH] using CalcP.xml_ind'. intros s y H. rewrite Forall_forall in IH.
  apply alike_inv in H. destruct H as (H1 & H2 & _ & K). destruct y as [t' tx' a' k']. simpl in *.
  apply alike_intro; auto. simpl. intro n. rewrite !kids_tagged_del. apply Matched_map.
  apply (Matched_impl _ _ _ _ _ _ (K n)); auto. intros c c' Hc _ [E | (cs & D & A)]; [left; congruence |].
  right. exists cs. split; auto. apply IH; auto. apply kids_tagged_In in Hc. tauto.
Qed.

Lemma AK_del : forall s n c c', AK s n c c' -> AK s n (del_attrib c) (del_attrib c').
Proof. intros s n c c' [E | (cs & D & A)]; [left; congruence |]. right. exists cs. split; auto. apply alike_del. auto. Qed.

(** ** Identities *)
Lemma alike_find_one : forall s x y k, Alike s x y -> match find_one_child k x, find_one_child k y with
  | Ok c, Ok c' => AK s k c c' | Err e, Err e' => e = e' | _, _ => False end.
Proof.
  intros s x y k H. apply alike_inv in H. destruct H as (_ & _ & _ & K). specialize (K k). unfold find_one_child.
  assert (L := Matched_length _ _ _ _ K).
  destruct (kids_tagged k (xkids x)) as [| c [| c2 r]] eqn:E1; destruct (kids_tagged k (xkids y)) as [| d [| d2 r']] eqn:E2; try discriminate; auto.
  destruct (Matched_one _ _ _ _ c K eq_refl) as (y' & E & R). injection E as E. subst. auto.
Qed.

Lemma alike_key_tuple : forall cs x y, Alike cs x y -> key_tuple cs x = key_tuple cs y.
Proof.
  intros cs x y H. unfold key_tuple. apply mapM_ext. intros k _. assert (F := alike_find_one cs x y k H).
  destruct (find_one_child k x) as [c | e], (find_one_child k y) as [c' | e']; try contradiction; simpl.
  - apply AK_parts in F. destruct F as (_ & F & _). unfold parse_text. rewrite F. auto.
  - congruence.
Qed.

Lemma AK_uid : forall s c c', AK s (xtag c) c c' -> uid_of s c = uid_of s c'.
Proof.
  intros s c c' H. assert (P := AK_parts _ _ _ _ H). destruct P as (P1 & P2 & _). unfold uid_of. rewrite <- P1.
  destruct (schema_child s (xtag c)) as [cs | e] eqn:E; simpl; auto.
  assert (A := AK_child _ _ _ _ _ H E). rewrite (alike_key_tuple cs c c' A). unfold parse_text. rewrite P2. auto.
Qed.

(** ** Entries *)
Definition flt (t : string) (l : list ent) : list ent := filter (has_tag t) l.
Definition Tg (l : list ent) : Prop := forall e, In e l -> fst (fst e) = xtag (snd e).
Definition ER (s : snode) (e e' : ent) : Prop := fst e = fst e' /\ AK s (xtag (snd e)) (snd e) (snd e').
Definition LR (s : snode) (l l' : list ent) : Prop := forall t, Matched (UserTag s t) (ER s) (flt t l) (flt t l').

Lemma flt_In : forall t l e, In e (flt t l) <-> In e l /\ xtag (snd e) = t.
Proof. intros t l e. unfold flt. rewrite filter_In. unfold has_tag. rewrite (string_eqb_ok (xtag (snd e)) t). tauto. Qed.

Lemma Index_Tg : forall s k l, Index s k l -> Tg l.
Proof. intros s k l H [u c] He. apply (Index_tag s k l u c H He). Qed.

Lemma flt_snd : forall t l, map snd (flt t l) = kids_tagged t (map snd l).
Proof. intros t l. unfold flt, kids_tagged. rewrite filter_map. reflexivity. Qed.

Lemma NoDup_flt : forall (l : list ent), (forall t, NoDup (uids (flt t l))) -> Tg l -> NoDup (uids l).
Proof.
  induction l as [| [u c] r IH]; intros H T; [constructor |]. simpl. constructor.
  - intro Hin. unfold uids in Hin. apply in_map_iff in Hin. destruct Hin as ([v d] & E & Hd). simpl in E. subst v.
    assert (T1 : u = u -> fst u = xtag c) by (intro; apply (T (u, c)); left; auto).
    assert (T2 : fst u = xtag d) by (apply (T (u, d)); right; auto).
    specialize (H (xtag c)). unfold flt in H. simpl in H. unfold has_tag at 1 in H. simpl in H. rewrite String.eqb_refl in H.
    simpl in H. inversion H as [| ? ? N _]. apply N. unfold uids. apply in_map_iff. exists (u, d). split; auto.
    apply filter_In. split; auto. unfold has_tag. simpl. apply (string_eqb_ok). rewrite <- T2. apply T1. auto.
  - apply IH.
    + intro t. specialize (H t). unfold flt in H. simpl in H. destruct (has_tag t (u, c)); auto. simpl in H. inversion H; auto.
    + intros e He. apply T. right. auto.
Qed.

Lemma ER_uids : forall s o l l', Matched o (ER s) l l' -> Permutation (uids l) (uids l').
Proof.
  intros s o l l' H. apply (Matched_eq_perm o). apply Matched_map. apply (Matched_impl _ _ _ _ _ _ H); auto.
  intros x y _ _ (E & _). auto.
Qed.

Lemma index_exists : forall s k, (forall c, In c k -> exists u, uid_of s c = Ok u) -> exists l, map snd l = k /\ Forall (fun e => uid_of s (snd e) = Ok (fst e)) l.
Proof.
  intros s k. induction k as [| c r IH]; intro H; [exists []; auto |].
  destruct (H c (or_introl eq_refl)) as (u & U). destruct IH as (l & L1 & L2); [intros; apply H; right; auto |].
  exists ((u, c) :: l). simpl. split; [congruence | auto].
Qed.

Lemma AKids_entries : forall s k k' l l', AKids s k k' -> map snd l = k -> map snd l' = k' ->
  Forall (fun e => uid_of s (snd e) = Ok (fst e)) l -> Forall (fun e => uid_of s (snd e) = Ok (fst e)) l' -> LR s l l'.
Proof.
  intros s k k' l l' K E E' F F' t. subst k k'. specialize (K t). rewrite <- !flt_snd in K.
  assert (G : forall q q', Forall (fun e => uid_of s (snd e) = Ok (fst e)) q -> Forall (fun e => uid_of s (snd e) = Ok (fst e)) q' ->
    (forall e, In e q -> xtag (snd e) = t) -> Forall2 (AK s t) (map snd q) (map snd q') -> Forall2 (ER s) q q').
  { induction q as [| e q IH]; intros [| e' q'] Hq Hq' Ht H; simpl in H; inversion H; subst; constructor.
    - inversion Hq; subst. inversion Hq'; subst. assert (T : xtag (snd e) = t) by (apply Ht; left; auto).
      split; [| rewrite T; auto]. assert (U : uid_of s (snd e) = uid_of s (snd e')) by (apply AK_uid; rewrite T; auto). congruence.
    - inversion Hq; subst. inversion Hq'; subst. apply IH; auto. intros; apply Ht; right; auto. }
  assert (F1 : forall q p, Forall (fun e => uid_of s (snd e) = Ok (fst e)) q -> Forall (fun e => uid_of s (snd e) = Ok (fst e)) (filter p q)).
  { intros q p H. rewrite Forall_forall in *. intros e He. apply filter_In in He. apply H. tauto. }
  assert (T : forall e, In e (flt t l) -> xtag (snd e) = t) by (intros e He; apply flt_In in He; tauto).
  destruct K as (K0 & m & M1 & M3). split.
  - intro O. apply G; auto; apply F1; auto.
  - apply Permutation_map_inv in M1. destruct M1 as (q & Eq & M1). subst m.
    exists q. split; [apply Permutation_sym; auto |]. apply G; auto; [apply F1; auto |].
    rewrite Forall_forall in *. intros e He. apply F'. apply (Permutation_in e (Permutation_sym M1)) in He. apply flt_In in He. tauto.
Qed.

Lemma AKids_index : forall s k k' l, AKids s k k' -> Index s k l -> exists l', Index s k' l' /\ LR s l l'.
Proof.
  intros s k k' l K I. destruct (index_exists s k') as (l' & E' & F').
  { intros c' Hc'. destruct (AKids_In_r s k k' c' K Hc') as (c & Hc & R). destruct (Index_In s k l c I Hc) as (u & Hu).
    exists u. rewrite <- (AK_uid s c c'); [apply (Index_uid s k l u c I Hu) |]. destruct (AK_parts _ _ _ _ R) as (T & _). rewrite T. auto. }
  assert (L : LR s l l') by (destruct I as (E & F & _); apply (AKids_entries s k k'); auto).
  exists l'. split; auto. split; [| split]; auto. apply NoDup_flt.
  - intro t. apply (Permutation_NoDup (ER_uids _ _ _ _ (L t))). unfold flt. apply (NoDup_map_filter fst). apply I.
  - intros [u c] He. rewrite Forall_forall in F'. apply (uid_tag s c u). apply (F' (u, c) He).
Qed.

Lemma AKids_sym : forall s k k', AKids s k k' -> AKids s k' k.
Proof.
  intros s k k' K n. apply (Matched_impl _ _ _ _ _ _ (Matched_sym _ _ _ _ (K n))); auto.
  intros c' c _ _ [E | (cs & D & A)]; [left; auto |]. right. exists cs. split; auto. apply alike_sym. auto.
Qed.

Lemma aw_index : forall s k k', AKids s k k' ->
  Alikewise (fun l l' => Index s k l /\ Index s k' l' /\ LR s l l') (index_kids s k) (index_kids s k').
Proof.
  intros s k k' K. destruct (index_kids s k) as [l | e] eqn:E; destruct (index_kids s k') as [l' | e'] eqn:E'; simpl; auto.
  - apply index_ok in E. apply index_ok in E'. destruct (AKids_index s k k' l K E) as (l2 & I & L).
    rewrite (Index_fun s k' l' l2 E' I). auto.
  - apply index_ok in E. destruct (AKids_index s k k' l K E) as (l2 & I & L). apply index_ok in I. congruence.
  - apply index_ok in E'. destruct (AKids_index s k' k l' (AKids_sym _ _ _ K) E') as (l2 & I & L). apply index_ok in I. congruence.
Qed.
