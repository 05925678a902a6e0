(** Alike trees: validation, comparison, and configs built from them. *)
From Coq Require Import String Ascii List Bool Arith ZArith Lia Permutation.
From Verif Require Import Base BaseP XmlM CalcM CalcP NetconfM ConfigM DataSpec DataP ListP CompareP DeltaR NameP AddP TrimP ConfigSpec ConfigP
  FilterP AlikeSpec AlikeP AlikeSumP AlikeDataP.
Import ListNotations.
Open Scope string_scope.
Open Scope list_scope.

Definition all_or {A} (f : A -> res (list xml)) (c : A) : list xml := match f c with Ok l => l | Err _ => [] end.

Lemma mapM_all : forall {A} (f : A -> res (list xml)) l kss, mapM f l = Ok kss <->
  (forall c, In c l -> exists r, f c = Ok r) /\ kss = map (all_or f) l.
Proof.
  intros A f l. induction l as [| c r IH]; intro kss; simpl.
  - split; [intro H; injection H as H; subst; split; auto; intros c [] | intros (_ & H); subst; auto].
  - unfold all_or at 1. destruct (f c) as [a |] eqn:E; simpl.
    + split.
      * intro H. apply bind_ok in H. destruct H as (ks & H & H2). injection H2 as H2. subst. apply IH in H. destruct H as (H & H'). subst.
        split; auto. intros d [D | D]; [subst; eauto | auto].
      * intros (H & H'). subst. assert (X : mapM f r = Ok (map (all_or f) r)) by (apply IH; split; auto). rewrite X. auto.
    + split; [discriminate |]. intros (H & _). destruct (H c (or_introl eq_refl)) as (a & A0). congruence.
Qed.

Lemma tagged_flat : forall (f : xml -> res (list xml)) n l, (forall c r d, f c = Ok r -> In d r -> xtag d = xtag c) ->
  kids_tagged n (flat_map (all_or f) l) = flat_map (all_or f) (kids_tagged n l).
Proof.
  intros f n l HT. induction l as [| c r IH]; simpl; auto. rewrite kids_tagged_app, IH.
  assert (T : forall d, In d (all_or f c) -> xtag d = xtag c).
  { intros d Hd. unfold all_or in Hd. destruct (f c) eqn:E; [| destruct Hd]. eapply HT; eauto. }
  destruct (String.eqb (xtag c) n) eqn:E; simpl.
  - f_equal. unfold kids_tagged. apply filter_all. intros d Hd. rewrite (T d Hd). auto.
  - assert (X : kids_tagged n (all_or f c) = []); [| rewrite X; auto]. unfold kids_tagged.
    destruct (filter (fun c0 => String.eqb (xtag c0) n) (all_or f c)) as [| d q] eqn:F; auto.
    assert (Hd : In d (d :: q)) by (left; auto). rewrite <- F in Hd. apply filter_In in Hd. destruct Hd as (Hd & Q). rewrite (T d Hd) in Q. congruence.
Qed.

Lemma kids_alike : forall s k k' (f f' : xml -> res (list xml)), AKids s k k' ->
  (forall c r d, f c = Ok r -> In d r -> xtag d = xtag c) -> (forall c r d, f' c = Ok r -> In d r -> xtag d = xtag c) ->
  (forall c c', In c k -> AK s (xtag c) c c' -> Alikewise (Forall2 (AK s (xtag c))) (f c) (f' c')) ->
  Alikewise (fun a b => AKids s (concat a) (concat b)) (mapM f k) (mapM f' k').
Proof.
  intros s k k' f f' K HT HT' H.
  assert (OK : forall c c', In c k -> AK s (xtag c) c c' -> ((exists l, f c = Ok l) <-> (exists l, f' c' = Ok l))).
  { intros c c' Hc R. specialize (H c c' Hc R). destruct (f c), (f' c'); simpl in H; try contradiction; split; intros (l & L); eauto; discriminate. }
  destruct (mapM f k) as [a |] eqn:E, (mapM f' k') as [a' |] eqn:E'; simpl; auto.
  - apply mapM_all in E. apply mapM_all in E'. destruct E as (_ & E), E' as (_ & E'). subst a a'. rewrite <- !flat_map_concat_map.
    intro n. rewrite !tagged_flat; auto. apply (Matched_flat _ (AK s n)); auto.
    intros c c' Hc _ R. apply kids_tagged_In in Hc. destruct Hc as (Hc & N). subst n. specialize (H c c' Hc R).
    unfold all_or. destruct (f c), (f' c'); simpl in H; try contradiction; auto.
  - apply mapM_all in E. destruct E as (E & _).
    assert (X : mapM f' k' = Ok (map (all_or f') k')); [| congruence]. apply mapM_all. split; auto.
    intros c' Hc'. destruct (AKids_In_r s k k' c' K Hc') as (c & Hc & R). assert (P := AK_parts _ _ _ _ R). destruct P as (P1 & _). rewrite <- P1 in R.
    apply (OK c c' Hc R). auto.
  - apply mapM_all in E'. destruct E' as (E' & _).
    assert (X : mapM f k = Ok (map (all_or f) k)); [| congruence]. apply mapM_all. split; auto.
    intros c Hc. destruct (AKids_In_l s k k' c K Hc) as (c' & Hc' & R). apply (OK c c' Hc R). auto.
Qed.

Lemma val_kid_tag : forall rd s c r d, val_kid rd s c = Ok r -> In d r -> xtag d = xtag c.
Proof.
  intros rd s c r d H Hd. unfold val_kid in H. apply bind_ok in H. destruct H as (cs & _ & H). apply bind_ok in H. destruct H as (c' & H & H').
  injection H' as H'. subst r. destruct (validate_drops rd cs c'); [destruct Hd |]. destruct Hd as [Hd | []]. subst d.
  unfold val_sub in H. destruct (xkids c); [injection H as H; subst; auto |]. apply validate_inv in H. destruct H as (_ & kss & _ & E). subst. destruct c; auto.
Qed.

Lemma alike_own : forall s x y, Alike s x y -> validate_own s x = validate_own s y.
Proof.
  intros s x y A. apply alike_inv in A. destruct A as (_ & _ & A & K). unfold validate_own.
  assert (E1 : forall n, has_attr n x = has_attr n y) by (intro n; unfold has_attr, get_attr; rewrite A; auto).
  assert (E2 : forall k, (match find_kid k (xkids x) with Some _ => true | None => false end) = (match find_kid k (xkids y) with Some _ => true | None => false end)).
  { intro k. assert (G : forall l, (match find_kid k l with Some _ => true | None => false end) = match kids_tagged k l with [] => false | _ => true end).
    { intro l. unfold find_kid, kids_tagged. induction l as [| c r IH]; simpl; auto. destruct (String.eqb (xtag c) k); auto. }
    rewrite !G. assert (L := Matched_length _ _ _ _ (K k)). destruct (kids_tagged k (xkids x)), (kids_tagged k (xkids y)); auto; discriminate. }
  assert (F1 : forall l, forallb (fun t => negb (has_attr t x)) l = forallb (fun t => negb (has_attr t y)) l).
  { intro l. induction l as [| n r IH]; auto. cbn [forallb]. rewrite E1, IH. auto. }
  assert (F2 : forall l, forallb (fun k => match find_kid k (xkids x) with Some _ => true | None => false end) l =
                         forallb (fun k => match find_kid k (xkids y) with Some _ => true | None => false end) l).
  { intro l. induction l as [| n r IH]; auto. cbn [forallb]. rewrite E2, IH. auto. }
  destruct (sty s); rewrite ?F1, ?F2; auto.
Qed.

Lemma validate_alike : forall x rd s x', Alike s x x' -> Alikewise (Alike s) (validate rd s x) (validate rd s x').
Proof.
  induction x as [t tx a k IH] using CalcP.xml_ind'. intros rd s x' A. rewrite Forall_forall in IH. rewrite !validate_eq, <- (alike_own s _ _ A).
  destruct (negb (validate_own s (Elem t tx a k))); [exact I |]. assert (K := A). apply alike_inv in K. destruct K as (A1 & A2 & A3 & K).
  eapply aw_bindE.
  - apply (kids_alike s); [exact K | apply val_kid_tag | apply val_kid_tag |]. simpl. intros c c' Hc R. assert (P := AK_parts _ _ _ _ R). destruct P as (P1 & _).
    unfold val_kid. rewrite <- P1. destruct (schema_child s (xtag c)) as [cs |] eqn:Hs; simpl; auto.
    assert (AC := AK_child _ _ _ _ _ R Hs). assert (NK := alike_no_kids _ _ _ AC).
    eapply aw_bindE.
    + instantiate (1 := Alike cs). unfold val_sub. destruct (xkids c) eqn:E1, (xkids c') eqn:E2; simpl; auto.
      * exfalso. destruct NK as (N & _). discriminate N; auto.
      * exfalso. destruct NK as (_ & N). discriminate N; auto.
    + intros d d' _ _ B. simpl. assert (NK2 := alike_no_kids _ _ _ B).
      assert (DR : validate_drops rd cs d = validate_drops rd cs d').
      { unfold validate_drops, no_kids. destruct (xkids d), (xkids d'); auto; exfalso; destruct NK2 as (N1 & N2); [discriminate N1; auto | discriminate N2; auto]. }
      rewrite DR. destruct (validate_drops rd cs d'); constructor; auto. eapply AK_make; eauto.
  - intros ka kb _ _ KK. simpl. destruct x' as [t' tx' a' k']. simpl in *. subst. apply alike_intro; auto.
Qed.

Theorem config_new_alike : forall check rd s x x', xtag x = config_tag -> Alike s x x' ->
  Alikewise (Alike s) (config_new check rd s x) (config_new check rd s x').
Proof.
  intros check rd s x x' T A. unfold config_new. eapply aw_bindE; [apply trim_alike; apply retrieve_alike; eauto |].
  intros e e' _ _ B. destruct check; [apply validate_alike; auto | exact B].
Qed.

(** ** Comparison *)
Lemma le_alike : forall s x x' y y', valid s x = true -> valid s y = true -> Alike s x x' -> Alike s y y' -> node_le s x y = node_le s x' y'.
Proof.
  intros s x x' y y' Vx Vy A B. destruct (alike_valid x s x' Vx A) as (Vx' & (X1 & X2)). destruct (alike_valid y s y' Vy B) as (Vy' & (Y1 & Y2)).
  destruct (node_le_total x s y Vx Vy) as (b & E). destruct (node_le_total x' s y' Vx' Vy') as (b' & E'). rewrite E, E'. f_equal.
  destruct b, b'; auto.
  - exfalso. assert (Z : node_le s x' y' = Ok true) by (eapply node_le_trans; [exact X2 |]; eapply node_le_trans; [exact E | exact Y1]). congruence.
  - exfalso. assert (Z : node_le s x y = Ok true) by (eapply node_le_trans; [exact X1 |]; eapply node_le_trans; [exact E' | exact Y2]). congruence.
Qed.
