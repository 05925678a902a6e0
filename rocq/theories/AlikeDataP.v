(** Alike trees: removal of defaults, sums of configs, and trees with the same data. *)
From Coq Require Import String Ascii List Bool Arith ZArith Lia Permutation.
From Verif Require Import Base BaseP XmlM CalcM CalcP NetconfM ConfigM DataSpec DataP ListP DeltaR NameP AddP TrimP ConfigSpec ConfigP AlikeSpec AlikeP AlikeSumP.
Import ListNotations.
Open Scope string_scope.
Open Scope list_scope.

(** ** Removal of defaults *)
Lemma flat_F2 : forall {A B C D} (R : A -> B -> Prop) (R' : C -> D -> Prop) (f : A -> list C) (g : B -> list D) l l',
  Forall2 R l l' -> (forall x y, In x l -> In y l' -> R x y -> Forall2 R' (f x) (g y)) -> Forall2 R' (flat_map f l) (flat_map g l').
Proof.
  intros A B C D R R' f g l l' H. induction H as [| x y l l' H HF IH]; intro G; simpl; auto.
  apply Forall2_app; [apply G; simpl; auto | apply IH; intros; apply G; simpl; auto].
Qed.

Lemma Matched_flat : forall {A B C D} o (R : A -> B -> Prop) (R' : C -> D -> Prop) (f : A -> list C) (g : B -> list D) l l',
  Matched o R l l' -> (forall x y, In x l -> In y l' -> R x y -> Forall2 R' (f x) (g y)) -> Matched o R' (flat_map f l) (flat_map g l').
Proof.
  intros A B C D o R R' f g l l' (M0 & m & M1 & M2) G. split.
  - intro O. apply (flat_F2 R); auto.
  - exists (flat_map g m). split; [apply Permutation_flat_map; auto |]. apply (flat_F2 R); auto.
    intros x y Hx Hy. apply G; auto. apply (Permutation_in y M1 Hy).
Qed.

Definition tk (s : snode) (all : list xml) (c : xml) : list xml := match trim_kid s all c with Ok l => l | Err _ => [] end.

Lemma mapM_tk : forall s all l kss, mapM (trim_kid s all) l = Ok kss <->
  (forall c, In c l -> exists r, trim_kid s all c = Ok r) /\ kss = map (tk s all) l.
Proof.
  intros s all l. induction l as [| c r IH]; intro kss; simpl.
  - split; [intro H; injection H as H; subst; split; auto; intros c [] | intros (_ & H); subst; auto].
  - unfold tk at 1. destruct (trim_kid s all c) as [a |] eqn:E; simpl.
    + split.
      * intro H. apply bind_ok in H. destruct H as (ks & H & H2). injection H2 as H2. subst. apply IH in H. destruct H as (H & H'). subst.
        split; auto. intros d [D | D]; [subst; eauto | auto].
      * intros (H & H'). subst. assert (X : mapM (trim_kid s all) r = Ok (map (tk s all) r)) by (apply IH; split; auto). rewrite X. auto.
    + split; [discriminate |]. intros (H & _). destruct (H c (or_introl eq_refl)) as (a & A). congruence.
Qed.

Lemma trim_ok : forall s x y, trim s x = Ok y <-> (forall c, In c (xkids x) -> exists l, trim_kid s (xkids x) c = Ok l) /\
  y = set_kids (flat_map (tk s (xkids x)) (xkids x)) x.
Proof.
  intros s x y. rewrite trim_eq, flat_map_concat_map. assert (G := mapM_tk s (xkids x) (xkids x)). split.
  - intro H. apply bind_ok in H. destruct H as (kss & H & H2). injection H2 as H2. apply G in H. destruct H as (H & H'). subst kss y. auto.
  - intros (H & H'). rewrite (proj2 (G _) (conj H eq_refl)). subst y. auto.
Qed.

Lemma tk_tag : forall s all c d, In d (tk s all c) -> xtag d = xtag c.
Proof.
  intros s all c d H. unfold tk in H. destruct (trim_kid s all c) as [l |] eqn:E; [| destruct H].
  apply trim_kid_inv in E. destruct E as (cs & c' & _ & T & X). subst l. destruct (trim_drops cs all c'); [destruct H |]. destruct H as [H | []]. subst.
  apply trim_parts in T. tauto.
Qed.

Lemma kids_tagged_flat : forall s all n l, kids_tagged n (flat_map (tk s all) l) = flat_map (tk s all) (kids_tagged n l).
Proof.
  intros s all n l. induction l as [| c r IH]; simpl; auto. rewrite kids_tagged_app, IH.
  assert (T := fun d => tk_tag s all c d). destruct (String.eqb (xtag c) n) eqn:E; simpl.
  - f_equal. unfold kids_tagged. apply filter_all. intros d Hd. rewrite (T d Hd). auto.
  - assert (X : kids_tagged n (tk s all c) = []); [| rewrite X; auto]. unfold kids_tagged.
    destruct (filter (fun c0 => String.eqb (xtag c0) n) (tk s all c)) as [| d q] eqn:F; auto.
    assert (Hd : In d (d :: q)) by (left; auto). rewrite <- F in Hd. apply filter_In in Hd. destruct Hd as (Hd & Q). rewrite (T d Hd) in Q. congruence.
Qed.

Lemma trim_alike : forall x s x', Alike s x x' -> Alikewise (Alike s) (trim s x) (trim s x').
Proof.
  induction x as [t tx a k IH] using CalcP.xml_ind'. intros s x' H. rewrite Forall_forall in IH.
  assert (K := H). apply alike_inv in K. destruct K as (H1 & H2 & H3 & K). destruct x' as [t' tx' a' k']. simpl in H1, H2, H3, K. subst t' tx' a'.
  set (x := Elem t tx a k) in *. set (x' := Elem t tx a k') in *.
  assert (D : forall cs n c c', schema_child s n = Ok cs -> xtag c = n -> Alike cs c c' -> trim_drops cs k c = trim_drops cs k' c').
  { intros cs n c c' Hs Hc A. assert (B := alike_no_kids cs c c' A). assert (P := alike_inv cs c c' A). destruct P as (P1 & P2 & _).
    assert (NK : no_kids c = no_kids c').
    { unfold no_kids. destruct (xkids c), (xkids c'); auto; destruct B as (B1 & B2); [discriminate B1; auto | discriminate B2; auto]. }
    unfold trim_drops. rewrite NK, P2, <- P1, Hc. destruct (sty cs); auto. destruct (K n) as (K0 & m & K1 & K2).
    assert (E2 : forall (l1 l2 : list xml), Forall2 (AK s n) l1 l2 -> map xtext l1 = map xtext l2).
    { intros l1 l2 F. induction F as [| c1 c2 l1 l2 R F IHF]; simpl; auto. apply AK_parts in R. destruct R as (_ & R & _). congruence. }
    apply ll_is_default_congr.
    - intro U. apply E2. apply K0. exists cs. split; auto. apply schema_child_Defines. auto.
    - intro v. rewrite (E2 _ _ K2). split; apply Permutation_in; [| apply Permutation_sym]; apply Permutation_map; auto. }
  assert (TKE : forall c c', In c k -> AK s (xtag c) c c' -> Alikewise (Forall2 (AK s (xtag c))) (trim_kid s k c) (trim_kid s k' c')).
  { intros c c' Hc R. assert (P := AK_parts _ _ _ _ R). destruct P as (P1 & _). unfold trim_kid. rewrite <- P1.
    destruct (schema_child s (xtag c)) as [cs |] eqn:Hs; simpl; auto.
    assert (A := AK_child _ _ _ _ _ R Hs). assert (T := IH c Hc cs c' A).
    destruct (trim cs c) as [d |] eqn:E, (trim cs c') as [d' |] eqn:E'; simpl in T; try contradiction; simpl; auto.
    assert (TD : xtag d = xtag c) by (apply trim_parts in E; tauto).
    rewrite (D cs (xtag c) d d' Hs TD T). destruct (trim_drops cs k' d'); constructor; auto. eapply AK_make; eauto. }
  assert (OK : forall c c', In c k -> AK s (xtag c) c c' -> ((exists l, trim_kid s k c = Ok l) <-> (exists l, trim_kid s k' c' = Ok l))).
  { intros c c' Hc R. specialize (TKE c c' Hc R). destruct (trim_kid s k c), (trim_kid s k' c'); simpl in TKE; try contradiction; split; intros (l & L); eauto; discriminate. }
  destruct (trim s x) as [y |] eqn:E, (trim s x') as [y' |] eqn:E'; simpl; auto.
  - apply trim_ok in E. apply trim_ok in E'. destruct E as (_ & E), E' as (_ & E'). subst y y'. apply alike_intro; simpl; auto.
    intro n. rewrite !kids_tagged_flat. apply (Matched_flat _ (AK s n)); auto.
    intros c c' Hc _ R. apply kids_tagged_In in Hc. destruct Hc as (Hc & N). subst n. specialize (TKE c c' Hc R).
    unfold tk. destruct (trim_kid s k c), (trim_kid s k' c'); simpl in TKE; try contradiction; auto.
  - apply trim_ok in E. destruct E as (E & _). simpl in E.
    assert (X : trim s x' = Ok (set_kids (flat_map (tk s k') k') x')); [| congruence]. apply trim_ok. split; auto. simpl.
    intros c' Hc'. destruct (AKids_In_r s k k' c' K Hc') as (c & Hc & R). assert (P := AK_parts _ _ _ _ R). destruct P as (P1 & _). rewrite <- P1 in R.
    apply (OK c c' Hc R). auto.
  - apply trim_ok in E'. destruct E' as (E' & _). simpl in E'.
    assert (X : trim s x = Ok (set_kids (flat_map (tk s k) k) x)); [| congruence]. apply trim_ok. split; auto. simpl.
    intros c Hc. destruct (AKids_In_l s k k' c K Hc) as (c' & Hc' & R). apply (OK c c' Hc R). auto.
Qed.

Lemma retrieve_alike : forall s x x', xtag x = config_tag -> Alike s x x' -> Alike s (retrieve x) (retrieve x').
Proof.
  intros s x x' T A. apply alike_inv in A. destruct A as (A1 & _ & _ & K). rewrite !retrieve_config; [| congruence | auto]. apply alike_intro; auto.
Qed.

Lemma nc_add_tag : forall s x y r, nc_add s x y = Ok r -> xtag r = xtag x.
Proof. intros s x y r. apply node_add_tag. Qed.

Theorem config_add_alike : forall s x x' y y', xtag x = config_tag -> Alike s x x' -> Alike s y y' ->
  Alikewise (Alike s) (config_add s x y) (config_add s x' y').
Proof.
  intros s x x' y y' T A B. unfold config_add. eapply aw_bindE; [apply nc_add_alike; eauto |].
  intros r r' E _ R. assert (Tr : xtag r = config_tag) by (apply nc_add_tag in E; congruence). unfold config_new.
  assert (Z := trim_alike _ _ _ (retrieve_alike s r r' Tr R)).
  destruct (trim s (retrieve r)), (trim s (retrieve r')); simpl in *; auto.
Qed.

(** ** Trees with the same data *)
Lemma flt_uids : forall t l, Tg l -> uids (flt t l) = seqt t l.
Proof.
  intros t l T. unfold flt, seqt, uids. induction l as [| e r IH]; simpl; auto.
  assert (T' : Tg r) by (intros x Hx; apply T; right; auto). unfold has_tag at 1. rewrite <- (T e (or_introl eq_refl)).
  destruct (String.eqb (fst (fst e)) t); simpl; rewrite IH; auto.
Qed.

Lemma uid_single : forall s k l t cs u v, Index s k l -> schema_child s t = Ok cs -> sty cs <> TLeafList -> sty cs <> TList ->
  In u (seqt t l) -> In v (seqt t l) -> u = v.
Proof.
  intros s k l t cs u v I Hs H1 H2 Hu Hv. assert (G : forall w, In w (seqt t l) -> w = (t, KNone)).
  { intros w Hw. apply seqt_In in Hw. destruct Hw as (Hw & E). unfold uids in Hw. apply in_map_iff in Hw. destruct Hw as ([w' c] & W & Hw). simpl in W. subst w'.
    assert (T := Index_Tg _ _ _ I _ Hw). simpl in T. assert (U := Index_uid _ _ _ _ _ I Hw). unfold uid_of in U. rewrite <- T, E, Hs in U. simpl in U.
    destruct (sty cs); try congruence. }
  rewrite (G u Hu), (G v Hv). auto.
Qed.

Lemma short_perm : forall {A} (l l' : list A), Permutation l l' -> (forall x y, In x l -> In y l -> x = y) -> NoDup l -> l = l'.
Proof.
  intros A l l' P H N. destruct l as [| a [| b r]].
  - apply Permutation_nil in P. auto.
  - apply Permutation_length_1_inv in P. auto.
  - exfalso. assert (E : a = b) by (apply H; simpl; auto). subst. inversion N as [| ? ? N1]; subst. apply N1. left. auto.
Qed.

Lemma F2_by_uid : forall s (l l' : list ent), uids l = uids l' -> NoDup (uids l') ->
  (forall u c, In (u, c) l -> exists c', In (u, c') l' /\ AK s (xtag c) c c') -> Forall2 (ER s) l l'.
Proof.
  intros s l. induction l as [| [u c] r IH]; intros [| [u' c'] r'] E N H; simpl in *; try discriminate; auto. injection E as E1 E2. subst u'.
  inversion N as [| ? ? N1 N2]; subst. constructor.
  - split; simpl; auto. destruct (H u c (or_introl eq_refl)) as (d & [Hd | Hd] & A); [injection Hd as Hd; subst; auto |].
    exfalso. apply N1. apply (in_map fst) in Hd. exact Hd.
  - apply IH; auto. intros v d Hd. destruct (H v d (or_intror Hd)) as (d' & [Hd' | Hd'] & A); [| eauto]. injection Hd' as X Y. subst v d'.
    exfalso. apply N1. rewrite <- E2. apply (in_map fst) in Hd. exact Hd.
Qed.

Theorem same_alike : forall x s y, valid s x = true -> valid s y = true -> Same s x y -> Alike s x y.
Proof.
  induction x as [t tx a k IH] using CalcP.xml_ind'. intros s y Vx Vy E. rewrite Forall_forall in IH.
  destruct (valid_inv s _ Vx) as (Ax & (lx & Ix) & Kx). destruct (valid_inv s y Vy) as (Ay & (ly & Iy) & Ky).
  assert (Tg1 := Index_Tg _ _ _ Ix). assert (Tg2 := Index_Tg _ _ _ Iy).
  assert (TX : xtext (Elem t tx a k) = xtext y).
  { destruct (leafish (sty s)) eqn:L; [apply (Same_text s); auto |].
    rewrite (valid_text s _ Vx), (valid_text s y Vy); auto; intro X; rewrite X in L; discriminate. }
  apply alike_intro; [apply (Same_tag s); auto | auto | congruence |].
  assert (SK : forall n u c, In (u, c) (flt n lx) -> exists c', In (u, c') (flt n ly) /\ AK s (xtag c) c c').
  { intros n u c Hin. apply flt_In in Hin. destruct Hin as (Hin & N). simpl in N. assert (Hc := Index_assoc s _ lx u c Ix). apply Hc in Hin.
    destruct (Same_assoc s _ y lx ly u c E Ix Iy Hin) as (c' & cs & H1 & H2 & H3).
    apply (assoc_In uid_eqb uid_eqb_ok) in H1. exists c'. assert (T := Same_tag cs c c' H3). split; [apply flt_In; simpl; split; [auto | congruence] |].
    apply Hc in Hin. assert (Kc := Index_kid s _ lx u c Ix Hin). assert (Kc' := Index_kid s _ ly u c' Iy H1).
    apply (AK_make _ _ _ _ cs); auto. apply IH; auto.
    - destruct (Kx c Kc) as (cs' & X1 & X2). rewrite X1 in H2. injection H2 as H2. subst. auto.
    - destruct (Ky c' Kc') as (cs' & X1 & X2). rewrite <- T, H2 in X1. injection X1 as X1. subst. auto. }
  assert (US : forall n u, In u (seqt n lx) <-> In u (seqt n ly)).
  { intros n u. split; [apply (Same_seqt_In s (Elem t tx a k) y lx ly) | apply (Same_seqt_In s y (Elem t tx a k) ly lx)]; auto. apply Same_sym. exact E. }
  assert (NX : NoDup (uids lx)) by (destruct Ix as (_ & _ & N); auto). assert (NY : NoDup (uids ly)) by (destruct Iy as (_ & _ & N); auto).
  assert (PM : forall n, Permutation (seqt n lx) (seqt n ly)).
  { intro n. apply NoDup_Permutation; auto using seqt_NoDup. }
  intro n. change (xkids (Elem t tx a k)) with k. assert (E1 : k = map snd lx) by (destruct Ix as (X & _); auto). assert (E2 : xkids y = map snd ly) by (destruct Iy as (X & _); auto).
  rewrite E1, E2, <- !flt_snd. apply Matched_map.
  apply (Matched_impl (UserTag s n) (UserTag s n) (ER s)); auto.
  2:{ intros e e' He _ (_ & R). apply flt_In in He. destruct He as (_ & He). rewrite He in R. auto. }
  split.
  - intros (cs & D & U). apply F2_by_uid; [| rewrite flt_uids; auto using seqt_NoDup | apply SK].
    rewrite !flt_uids; auto. destruct (schema_child s n) as [cs' |] eqn:Hs.
    + assert (cs' = cs) by (symmetry; eapply Defines_schema_child; eauto). subst cs'.
      destruct (is_user_seq cs) eqn:Q; [eapply Same_seqt; eauto |]. unfold is_user_seq in Q. rewrite U in Q. simpl in Q. apply orb_false_iff in Q. destruct Q as (Q1 & Q2).
      apply short_perm; auto using seqt_NoDup. intros u v. apply (uid_single s k lx n cs); auto; intro X; rewrite X in *; discriminate.
    + assert (Z : forall l k0, Index s k0 l -> seqt n l = []).
      { intros l k0 I. destruct (seqt n l) as [| u r] eqn:F; auto. assert (Hu : In u (seqt n l)) by (rewrite F; left; auto). apply seqt_In in Hu. destruct Hu as (Hu & N).
        unfold uids in Hu. apply in_map_iff in Hu. destruct Hu as ([w c] & W & Hw). simpl in W. subst w. assert (T := Index_Tg _ _ _ I _ Hw). simpl in T.
        assert (X := Index_uid _ _ _ _ _ I Hw). unfold uid_of in X. rewrite <- T, N, Hs in X. discriminate. }
      rewrite (Z lx k Ix), (Z ly _ Iy). auto.
  - set (pick := fun e : ent => (fst e, match assoc uid_eqb (fst e) (flt n ly) with Some c' => c' | None => snd e end)).
    assert (NF : forall l, NoDup (uids l) -> NoDup (uids (flt n l))) by (intros; apply NoDup_map_filter; auto).
    exists (map pick (flt n lx)). split.
    + assert (UM : uids (map pick (flt n lx)) = uids (flt n lx)) by (unfold uids; rewrite map_map; apply map_ext; auto).
      apply NoDup_Permutation.
      * apply (NoDup_map_inv fst). change (NoDup (uids (map pick (flt n lx)))). rewrite UM. auto.
      * apply (NoDup_map_inv fst). change (NoDup (uids (flt n ly))). auto.
      * assert (G : forall e, In e (map pick (flt n lx)) -> In e (flt n ly)).
        { intros e He. apply in_map_iff in He. destruct He as ([u c] & X & He). destruct (SK n u c He) as (c' & Hc' & _).
          assert (Y : assoc uid_eqb u (flt n ly) = Some c') by (apply (assoc_NoDup uid_eqb uid_eqb_ok); auto; apply NF; auto).
          unfold pick in X. simpl in X. rewrite Y in X. subst e. auto. }
        intros e. split; auto. destruct e as [u c']. intro He.
        assert (Hu : In u (uids (flt n lx))).
        { rewrite flt_uids; auto. apply US. rewrite <- flt_uids; auto. apply (in_map fst) in He. exact He. }
        unfold uids in Hu. apply in_map_iff in Hu. destruct Hu as ([w c] & W & Hw). simpl in W. subst w.
        apply in_map_iff. exists (u, c). split; auto. unfold pick. simpl. rewrite (assoc_NoDup uid_eqb uid_eqb_ok u c' (flt n ly)); auto.
    + apply F2_by_uid.
      * unfold uids. rewrite map_map. apply map_ext. auto.
      * unfold uids. rewrite map_map. simpl. apply NF. auto.
      * intros u c Hin. destruct (SK n u c Hin) as (c' & Hc' & A). exists c'. split; auto. apply in_map_iff. exists (u, c). split; auto.
        unfold pick. simpl. rewrite (assoc_NoDup uid_eqb uid_eqb_ok u c' (flt n ly)); auto.
Qed.

Theorem alike_valid : forall x s y, valid s x = true -> Alike s x y -> valid s y = true /\ Same s x y.
Proof.
  induction x as [t tx a k IH] using CalcP.xml_ind'. intros s y Vx A. rewrite Forall_forall in IH.
  destruct (valid_inv s _ Vx) as (Ax & (lx & Ix) & Kx). assert (B := A). apply alike_inv in B. destruct B as (T & TX & TA & K). simpl in T, TX, TA, K, Ax, Ix, Kx.
  destruct (AKids_index s k (xkids y) lx K Ix) as (ly & Iy & L).
  assert (NX := Index_NoDup _ _ _ Ix). assert (NY := Index_NoDup _ _ _ Iy).
  assert (G : forall c c', In c k -> AK s (xtag c) c c' -> exists cs, schema_child s (xtag c) = Ok cs /\ valid cs c' = true /\ Same cs c c').
  { intros c c' Hc R. destruct (Kx c Hc) as (cs & Hs & Vc). exists cs. split; auto. apply IH; auto. apply (AK_child _ _ _ _ _ R Hs). }
  assert (V : valid s y = true).
  { destruct y as [t' tx' a' k']. simpl in T, TX, TA, K, Iy. subst t' tx' a'. clear Ax.
    assert (NK : k = [] <-> k' = []) by (apply (alike_no_kids s _ _ A)).
    simpl in Vx |- *. rewrite !andb_true_iff in Vx |- *. destruct Vx as (((V1 & V2) & V3) & V4). repeat split; auto.
    - destruct k as [| c0 r0], k' as [| c1 r1]; auto; exfalso; destruct NK as (N1 & N2); [discriminate N1; auto | discriminate N2; auto].
    - apply index_ok in Iy. rewrite Iy. auto.
    - apply forallb_forall. intros c' Hc'. destruct (AKids_In_r s k k' c' K Hc') as (c & Hc & R). assert (P := AK_parts _ _ _ _ R). destruct P as (P & _).
      rewrite <- P in R. destruct (G c c' Hc R) as (cs & X1 & X2 & _). rewrite <- P, X1. auto. }
  split; auto.
  destruct (leafish (sty s)) eqn:LF.
  - assert (k = []) by (simpl in Vx; rewrite !andb_true_iff in Vx; destruct Vx as (((_ & V2) & _) & _); destruct (sty s); try discriminate; destruct k; auto; discriminate).
    subst k. assert (E : xkids y = []) by (apply (alike_no_kids s _ _ A); auto). destruct y. simpl in *. subst. apply Same_refl. auto.
  - assert (TN : tx = None) by (apply (valid_text s _ Vx); intro X; rewrite X in LF; discriminate). subst tx.
    apply (Same_intro s _ y lx ly); auto; [congruence | |].
    + intro u. assert (Q := LR_assoc s lx ly u L NX NY). destruct (assoc uid_eqb u lx) as [c |] eqn:E, (assoc uid_eqb u ly) as [c' |]; auto.
      apply (assoc_In uid_eqb uid_eqb_ok) in E. assert (Hc := Index_kid s _ lx u c Ix E). destruct (G c c' Hc Q) as (cs & X1 & _ & X2). eauto.
    + intros n cs Hs U. rewrite <- !flt_uids; [| apply (Index_Tg _ _ _ Iy) | apply (Index_Tg _ _ _ Ix)].
      destruct (L n) as (L0 & _). assert (UT : UserTag s n).
      { exists cs. split; [apply schema_child_Defines; auto |]. unfold is_user_seq in U. apply andb_true_iff in U. tauto. }
      specialize (L0 UT). clear -L0. induction L0 as [| e e' l l' (E & _) F IHF]; simpl; auto. unfold uids in *. simpl. congruence.
Qed.

Lemma alike_same_iff : forall s x y, valid s x = true -> valid s y = true -> xtag x = xtag y -> (Alike s x y <-> SameData s x y).
Proof.
  intros s x y Vx Vy T. split; intro H.
  - apply Same_SameData; auto. apply (alike_valid x s y); auto.
  - apply same_alike; auto. apply SameData_Same; auto.
Qed.
