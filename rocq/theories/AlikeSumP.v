(** Sums of alike trees are alike. *)
From Coq Require Import String Ascii List Bool Arith ZArith Lia Permutation.
From Verif Require Import Base BaseP XmlM CalcM CalcP NetconfM DataSpec DataP ListP AlikeSpec AlikeP AlikeAddP AlikeStepP.
Import ListNotations.
Open Scope string_scope.
Open Scope list_scope.

Lemma LR_In : forall s l l' e, LR s l l' -> In e l -> exists e', In e' l' /\ ER s e e'.
Proof.
  intros s l l' e L H. destruct (Matched_In_l _ _ _ _ e (L (xtag (snd e)))) as (e' & H' & R); [apply flt_In; auto |].
  apply flt_In in H'. exists e'. tauto.
Qed.

Lemma LR_In_r : forall s l l' e', LR s l l' -> In e' l' -> exists e, In e l /\ ER s e e'.
Proof.
  intros s l l' e L H. destruct (Matched_In_r _ _ _ _ e (L (xtag (snd e)))) as (e' & H' & R); [apply flt_In; auto |].
  apply flt_In in H'. exists e'. tauto.
Qed.

Lemma LR_uids : forall s l l' u, LR s l l' -> (In u (uids l) <-> In u (uids l')).
Proof.
  intros s l l' u L. unfold uids. rewrite !in_map_iff. split; intros (e & E & H).
  - destruct (LR_In s l l' e L H) as (e' & H' & R & _). exists e'. split; auto. congruence.
  - destruct (LR_In_r s l l' e L H) as (e' & H' & R & _). exists e'. split; auto. congruence.
Qed.

Lemma LR_mem : forall s l l' u, LR s l l' -> mem uid_eqb u (uids l) = mem uid_eqb u (uids l').
Proof.
  intros s l l' u L. assert (H := LR_uids s l l' u L). destruct (mem uid_eqb u (uids l)) eqn:E.
  - symmetry. apply (mem_In uid_eqb uid_eqb_ok) in E. apply (mem_In uid_eqb uid_eqb_ok). tauto.
  - symmetry. apply (mem_not_In uid_eqb uid_eqb_ok) in E. apply (mem_not_In uid_eqb uid_eqb_ok). tauto.
Qed.

Lemma LR_assoc : forall s l l' u, LR s l l' -> NoDup (uids l) -> NoDup (uids l') ->
  match assoc uid_eqb u l, assoc uid_eqb u l' with
  | Some b, Some b' => AK s (xtag b) b b'
  | None, None => True
  | _, _ => False
  end.
Proof.
  intros s l l' u L N N'. assert (H := LR_uids s l l' u L).
  destruct (assoc uid_eqb u l) as [b |] eqn:E.
  - apply (assoc_In uid_eqb uid_eqb_ok) in E. destruct (LR_In s l l' (u, b) L E) as ([v b'] & H' & R1 & R2). simpl in R1, R2. subst v.
    rewrite (assoc_NoDup uid_eqb uid_eqb_ok u b' l'); auto.
  - apply (assoc_None uid_eqb uid_eqb_ok) in E. destruct (assoc uid_eqb u l') as [b' |] eqn:E'; auto.
    apply (assoc_In uid_eqb uid_eqb_ok) in E'. apply (in_map fst) in E'. apply E. apply H. exact E'.
Qed.

Lemma only_flt : forall t la lb, filter (ptag (uid * xml) (fun p => xtag (snd p)) t) (only_in la lb) = only_in (flt t la) lb.
Proof. intros. unfold only_in, flt. apply filter_comm. Qed.

Lemma both_flt : forall t la lb, filter (ptag (uid * xml * xml) (fun p => xtag (snd (fst p))) t) (both_in la lb) = both_in (flt t la) lb.
Proof.
  intros t la lb. unfold both_in, flt. induction la as [| e r IH]; simpl; auto. rewrite filter_app'. rewrite IH.
  assert (HT : has_tag t e = String.eqb (xtag (snd e)) t) by reflexivity. rewrite HT.
  destruct (String.eqb (xtag (snd e)) t) eqn:E; simpl; destruct (assoc uid_eqb (fst e) lb) as [b |]; simpl; auto;
    unfold ptag; simpl; rewrite E; auto.
Qed.

Lemma both_F2 : forall s lb lb', LR s lb lb' -> NoDup (uids lb) -> NoDup (uids lb') ->
  forall la la', Forall2 (ER s) la la' -> Forall2 (PR s) (both_in la lb) (both_in la' lb').
Proof.
  intros s lb lb' L N N' la la' F. induction F as [| e e' r r' (E1 & E2) F IH]; simpl; auto.
  apply Forall2_app; auto. rewrite <- E1. assert (A := LR_assoc s lb lb' (fst e) L N N').
  destruct (assoc uid_eqb (fst e) lb) as [b |], (assoc uid_eqb (fst e) lb') as [b' |]; try contradiction; auto.
  constructor; auto. split; auto.
Qed.

Lemma both_perm : forall lb la la', Permutation la la' -> Permutation (both_in la lb) (both_in la' lb).
Proof. intros. unfold both_in. apply Permutation_flat_map. auto. Qed.

Lemma Matched_both : forall s lb lb' t la la', LR s lb lb' -> NoDup (uids lb) -> NoDup (uids lb') -> LR s la la' ->
  Matched (UserTag s t) (PR s) (filter (ptag (uid * xml * xml) (fun p => xtag (snd (fst p))) t) (both_in la lb))
    (filter (ptag (uid * xml * xml) (fun p => xtag (snd (fst p))) t) (both_in la' lb')).
Proof.
  intros s lb lb' t la la' L N N' K. rewrite !both_flt. destruct (K t) as (K0 & m & K1 & K2). split.
  - intro U. apply both_F2; auto.
  - exists (both_in m lb'). split; [apply both_perm; auto | apply both_F2; auto].
Qed.

Lemma Matched_only : forall s lb lb' t la la', LR s lb lb' -> LR s la la' ->
  Matched (UserTag s t) (ER s) (filter (ptag (uid * xml) (fun p => xtag (snd p)) t) (only_in la lb))
    (filter (ptag (uid * xml) (fun p => xtag (snd p)) t) (only_in la' lb')).
Proof.
  intros s lb lb' t la la' L K. rewrite !only_flt. apply Matched_filter; auto.
  intros x y (E & _). f_equal. rewrite E. apply (LR_mem s); auto.
Qed.

Lemma Index_NoDup : forall s k l, Index s k l -> NoDup (uids l).
Proof. intros s k l H. destruct H as (_ & _ & H). auto. Qed.

Lemma NoDup_both : forall la lb, NoDup (uids la) -> NoDup (map (fun p : uid * xml * xml => fst (fst p)) (both_in la lb)).
Proof.
  intros la lb. induction la as [| e r IH]; simpl; intro N; [constructor |]. inversion N as [| ? ? N1 N2]; subst.
  destruct (assoc uid_eqb (fst e) lb); simpl; auto. constructor; auto. intro H. apply N1. apply in_map_iff in H.
  destruct H as ([[u a] b] & E & H). simpl in E. subst. apply both_in_In in H. destruct H as (H & _). apply (in_map fst) in H. exact H.
Qed.

Lemma node_add_tag : forall f s x y r, node_add f s x y = Ok r -> xtag r = xtag x.
Proof.
  intros [| f] s x y r H; [discriminate |]. simpl in H.
  apply bind_ok in H. destruct H as (g & _ & H). apply bind_ok in H. destruct H as (l0 & _ & H).
  apply bind_ok in H. destruct H as (l1 & _ & H). apply bind_ok in H. destruct H as (l2 & _ & H). injection H as H. subst. destruct x; auto.
Qed.

Theorem node_add_alike : forall f s x x' y y', Alike s x x' -> Alike s y y' ->
  Alikewise (Alike s) (node_add f s x y) (node_add f s x' y').
Proof.
  induction f as [| f IH]; intros s x x' y y' HX HY; [exact I |]. simpl.
  assert (KX := HX). apply alike_inv in KX. destruct KX as (X1 & X2 & X3 & KX).
  assert (KY := HY). apply alike_inv in KY. destruct KY as (_ & _ & _ & KY).
  assert (AX := aw_index s _ _ KX). assert (AY := aw_index s _ _ KY).
  destruct (index_kids s (xkids x)) as [la | e] eqn:EA, (index_kids s (xkids x')) as [la' | e'] eqn:EA'; simpl in AX; try contradiction.
  2:{ assert (G : forall z k, index_kids s z = Err k -> forall w, exists e0, group_kids s z w = Err e0).
      { intros z k Hz w. destruct (group_kids s z w) as [g |] eqn:Hg; eauto. apply group_inv in Hg. destruct Hg as (a & b & A & _).
        apply index_ok in A. congruence. }
      destruct (G _ _ EA (xkids y)) as (e1 & G1). destruct (G _ _ EA' (xkids y')) as (e2 & G2). rewrite G1, G2. exact I. }
  destruct AX as (IA & IA' & LA).
  destruct (index_kids s (xkids y)) as [lb | e] eqn:EB, (index_kids s (xkids y')) as [lb' | e'] eqn:EB'; simpl in AY; try contradiction.
  2:{ assert (G : forall z k, index_kids s z = Err k -> forall w, exists e0, group_kids s w z = Err e0).
      { intros z k Hz w. destruct (group_kids s w z) as [g |] eqn:Hg; eauto. apply group_inv in Hg. destruct Hg as (a & b & _ & B & _).
        apply index_ok in B. congruence. }
      destruct (G _ _ EB (xkids x)) as (e1 & G1). destruct (G _ _ EB' (xkids x')) as (e2 & G2). rewrite G1, G2. exact I. }
  destruct AY as (IB & IB' & LB).
  rewrite (group_ok s _ _ la lb IA IB), (group_ok s _ _ la' lb' IA' IB'). simpl.
  assert (NA := Index_NoDup _ _ _ IA). assert (NA' := Index_NoDup _ _ _ IA'). assert (NB := Index_NoDup _ _ _ IB). assert (NB' := Index_NoDup _ _ _ IB').
  assert (GN : forall k l l2, Index s k l -> Forall (GoodN s) (only_in l l2)).
  { intros k l l2 H. apply Forall_forall. intros [u c] Hp. apply only_in_In in Hp. destruct Hp as (Hp & _). unfold GoodN. simpl. eapply Index_uid; eauto. }
  assert (GP : forall k k2 l l2, Index s k l -> Index s k2 l2 -> Forall GoodP (both_in l l2)).
  { intros k k2 l l2 H H2. apply Forall_forall. intros [[u a] b] Hp. apply both_in_In in Hp. destruct Hp as (Hp & Hq).
    apply (assoc_In uid_eqb uid_eqb_ok) in Hq. assert (T1 := Index_Tg _ _ _ H _ Hp). assert (T2 := Index_Tg _ _ _ H2 _ Hq). simpl in T1, T2.
    split; simpl; congruence. }
  eapply aw_bindE.
  - apply (fold_alike (uid * xml) (fun p => xtag (snd p)) fst (add_new (node_add f) s) s (ER s) (GoodN s)).
    + intros l p T G. assert (Q := new_loc s (node_add f) (node_add_tag f) p l T G). unfold ML, LocAt in Q.
      destruct (add_new (node_add f) s l p) as [l' |]; auto. tauto.
    + intros k k' p p' F R G _. apply new_lock; auto. apply node_add_tag.
    + intros p G U. apply new_eff; auto.
    + intros p p' (E & R). apply AK_parts in R. tauto.
    + apply (Index_Tg _ _ _ IA).
    + apply (Index_Tg _ _ _ IA').
    + exact LA.
    + eapply GN; eauto.
    + eapply GN; eauto.
    + intro t. apply Matched_only; auto.
    + unfold only_in. apply NoDup_map_filter. exact NB.
  - intros l1 l1' _ _ (T1 & T1' & L1). eapply aw_bindE.
    + apply (fold_alike (uid * xml * xml) (fun p => xtag (snd (fst p))) (fun p => fst (fst p)) (add_peer (node_add f) s) s (PR s) GoodP).
      * intros l p T (G1 & G2). assert (Q := peer_loc s (node_add f) (node_add_tag f) p l T G1 G2). unfold ML, LocAt in Q.
        destruct (add_peer (node_add f) s l p) as [l' |]; auto. tauto.
      * intros k k' p p' F R G _. apply peer_lock; auto. apply node_add_tag.
      * intros p G U. apply peer_eff; auto.
      * intros p p' (E & R & _). apply AK_parts in R. tauto.
      * exact T1.
      * exact T1'.
      * exact L1.
      * eapply GP; eauto.
      * eapply GP; eauto.
      * intro t. apply Matched_both; auto.
      * apply NoDup_both. exact NA.
    + intros l2 l2' _ _ (T2 & T2' & L2). simpl. destruct x as [t tx a k], x' as [t' tx' a' k']. simpl in *. subst.
      apply alike_intro; simpl; auto. intro n. specialize (L2 n). rewrite <- !flt_snd. apply Matched_map.
      apply (Matched_impl _ _ _ _ _ _ L2); auto. intros e e' He _ (_ & R). apply flt_In in He. destruct He as (_ & He). rewrite He in R. exact R.
Qed.

Theorem nc_add_alike : forall s x x' y y', Alike s x x' -> Alike s y y' -> Alikewise (Alike s) (nc_add s x y) (nc_add s x' y').
Proof.
  intros s x x' y y' HX HY. unfold nc_add. rewrite (alike_height s y y' HY). apply node_add_alike; auto.
Qed.
