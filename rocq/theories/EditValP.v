(** Consequences for whole trees: the instances after an edit. *)
From Coq Require Import String Ascii List Bool Arith ZArith Lia Permutation.
From Verif Require Import Base BaseP XmlM CalcM CalcP NetconfM ConfigM ListP DataSpec DataP DeltaSpec DeltaR NameP AddP PlainP AddStepP TrimP EditSpec EditP EditSemP.
Import ListNotations.
Open Scope string_scope.
Open Scope list_scope.
Local Notation Edited := (EditSpec.Edited op_of).
Local Notation Visited := (EditSpec.Visited op_of).
Local Notation Forbidden := (EditSpec.Forbidden op_of).

(** ** Edits of the usual form *)
Lemma edit_ok_inv : forall s d, edit_ok s d = true ->
  (exists l, Index s (xkids d) l) /\
  forall c, In c (xkids d) -> exists cs, schema_child s (xtag c) = Ok cs /\ (Leafy cs \/ Inner cs) /\ (Leafy cs -> xkids c = []) /\
    (s_is_key (si cs) = true -> op_of c = OpMerge) /\ insert_known c = true /\ edit_ok cs c = true.
Proof.
  intros s [t tx a ks] H. cbn [edit_ok] in H. apply andb_true_iff in H. destruct H as [H1 H2]. split.
  - destruct (index_kids s ks) as [l |] eqn:E; [| discriminate]. exists l. apply index_ok. exact E.
  - intros c Hc. rewrite forallb_forall in H2. specialize (H2 c Hc). destruct (schema_child s (xtag c)) as [cs |]; [| discriminate].
    exists cs. split; auto. rewrite !andb_true_iff in H2. destruct H2 as [[[H2 H3] H4] H5].
    split; [| split; [| split; [| split; auto]]].
    + unfold Leafy, Inner. destruct (sty cs); auto; discriminate.
    + intros [L | L]; rewrite L in H2; destruct (xkids c); auto; discriminate.
    + intro K. rewrite K in H3. simpl in H3. unfold op_of. destruct (get_attr operation_tag c); [discriminate | auto].
Qed.

Fixpoint lok (s : snode) (x : xml) : bool :=
  let '(Elem _ _ _ ks) := x in
  forallb (fun c => match schema_child s (xtag c) with
                    | Err _ => true
                    | Ok cs => (negb (leafish (sty cs)) || match xkids c with [] => true | _ => false end) && lok cs c
                    end) ks.

Lemma lok_inv : forall s x c cs, lok s x = true -> In c (xkids x) -> schema_child s (xtag c) = Ok cs ->
  (Leafy cs -> xkids c = []) /\ lok cs c = true.
Proof.
  intros s [t tx a ks] c cs H Hc S. cbn [lok] in H. rewrite forallb_forall in H. specialize (H c Hc). rewrite S in H.
  apply andb_true_iff in H. destruct H as [H1 H2]. split; auto. intros [L | L]; rewrite L in H1; simpl in H1; destruct (xkids c); auto; discriminate.
Qed.

Lemma valid_lok : forall x s, valid s x = true -> lok s x = true.
Proof.
  intro x. induction x as [t tx a ks IH] using xml_ind'. intros s V. cbn [lok]. apply forallb_forall. intros c Hc.
  destruct (valid_inv s _ V) as (_ & _ & K). destruct (K c Hc) as (cs & S & Vc). rewrite S.
  rewrite Forall_forall in IH. rewrite (IH c Hc cs Vc). rewrite andb_true_r.
  destruct (leafish (sty cs)) eqn:L; auto. rewrite (leafish_kids cs c Vc L). auto.
Qed.

(** ** Deleting the attributes *)
Lemma del_parts : forall x, xtag (del_attrib x) = xtag x /\ xtext (del_attrib x) = xtext x /\ xkids (del_attrib x) = map del_attrib (xkids x).
Proof. intros [t tx a k]. auto. Qed.

Lemma kids_tagged_map : forall k l, kids_tagged k (map del_attrib l) = map del_attrib (kids_tagged k l).
Proof.
  intros k l. unfold kids_tagged. rewrite filter_map. f_equal. apply filter_ext. intro c.
  destruct (del_parts c) as (E & _). rewrite E. auto.
Qed.

Lemma key_tuple_del : forall cs x, sty cs = TList -> key_tuple cs (del_attrib x) = key_tuple cs x.
Proof.
  intros cs x T. unfold key_tuple. apply mapM_ext. intros k _. unfold find_one_child.
  destruct (del_parts x) as (_ & _ & E). rewrite E, kids_tagged_map. destruct (kids_tagged k (xkids x)) as [| c [| c' r]]; simpl; auto.
  rewrite !parse_text_id by congruence. destruct (del_parts c) as (_ & E' & _). rewrite E'. auto.
Qed.

Lemma uid_del : forall s x, uid_of s (del_attrib x) = uid_of s x.
Proof.
  intros s x. unfold uid_of. destruct (del_parts x) as (E1 & E2 & E3). rewrite E1. destruct (schema_child s (xtag x)) as [cs |]; simpl; auto.
  destruct (sty cs) eqn:T; auto.
  - unfold parse_text. rewrite E2. destruct (sty cs); auto.
  - rewrite key_tuple_del; auto.
Qed.

Lemma Holds_cons : forall s x u p v, Holds s x (u :: p) v <-> exists cs c, Child s x u cs c /\ Holds cs c p v.
Proof.
  intros s x u p v. split.
  - intros (s' & n & A & E). inversion A; subst. exists cs, c. split; [split; auto |]. exists s', n. auto.
  - intros (cs & c & (C1 & C2 & C3) & (s' & n & A & E)). exists s', n. split; auto. econstructor; eauto.
Qed.

Lemma Holds_nil : forall s x v, Holds s x [] v <-> value_of s x = v.
Proof.
  intros s x v. split.
  - intros (s' & n & A & E). inversion A; subst. auto.
  - intro H. exists s, x. split; auto. constructor.
Qed.

Lemma Child_schema : forall s x l u cs c, Index s (xkids x) l -> Child s x u cs c -> schema_child s (xtag c) = Ok cs.
Proof. intros s x l u cs c I C. apply (Child_assoc s x l u cs c I) in C. tauto. Qed.

Lemma Index_del : forall s l es, Index s l es -> Index s (map del_attrib l) (map (fun e => (fst e, del_attrib (snd e))) es).
Proof.
  intros s l es (E & F & N). split; [| split].
  - subst l. rewrite !map_map. auto.
  - rewrite Forall_map. eapply Forall_impl; [| exact F]. intros [u c] H. simpl in *. rewrite uid_del. auto.
  - unfold uids in *. rewrite map_map. simpl. exact N.
Qed.

Lemma assoc_del_map : forall u (es : list ent), assoc uid_eqb u (map (fun e => (fst e, del_attrib (snd e))) es) = option_map del_attrib (assoc uid_eqb u es).
Proof. intros u es. induction es as [| [v c] r IH]; auto. simpl. destruct (uid_eqb u v); auto. Qed.

Lemma Child_del : forall s x l u cs c, Index s (xkids x) l ->
  (Child s (del_attrib x) u cs c <-> exists c0, c = del_attrib c0 /\ Child s x u cs c0).
Proof.
  intros s x l u cs c I. assert (I' := Index_del s _ l I). destruct (del_parts x) as (_ & _ & E). rewrite <- E in I'.
  rewrite (Child_assoc s _ _ u cs c I'), assoc_del_map. split.
  - intros [H1 H2]. destruct (assoc uid_eqb u l) as [c0 |] eqn:A; [| discriminate]. inversion H1; subst. exists c0. split; auto.
    apply (Child_assoc s x l u cs c0 I). split; auto. destruct (del_parts c0) as (T & _). congruence.
  - intros (c0 & H1 & H2). apply (Child_assoc s x l u cs c0 I) in H2. destruct H2 as [H2 H3]. rewrite H2. subst. split; auto.
    destruct (del_parts c0) as (T & _). congruence.
Qed.

Lemma Holds_del : forall p s x v, edit_ok s x = true -> (Holds s (del_attrib x) p v <-> Holds s x p v).
Proof.
  induction p as [| u p IH]; intros s x v H.
  - rewrite !Holds_nil. unfold value_of. destruct (del_parts x) as (_ & E & _). rewrite E. tauto.
  - destruct (edit_ok_inv s x H) as ((l & I) & K). rewrite !Holds_cons. split.
    + intros (cs & c & C & G). apply (Child_del s x l u cs c I) in C. destruct C as (c0 & E & C). subst c. exists cs, c0. split; auto.
      apply (IH cs c0 v); auto. destruct (K c0) as (cs' & S & _ & _ & _ & _ & O); [apply C |]. rewrite (Child_schema s x l u cs c0 I C) in S. inversion S; subst. auto.
    + intros (cs & c & C & G). exists cs, (del_attrib c). split; [apply (Child_del s x l u cs _ I); eauto |].
      apply IH; auto. destruct (K c) as (cs' & S & _ & _ & _ & _ & O); [apply C |]. rewrite (Child_schema s x l u cs c I C) in S. inversion S; subst. auto.
Qed.

(** ** Identities after the edit *)
Lemma add_tag : forall f s x d r, node_add f s x d = Ok r -> xtag r = xtag x.
Proof.
  intros [| f] s x d r H; [discriminate |]. apply node_add_step in H. destruct H as (lx & ld & lr & _ & _ & E & _). subst. destruct x. auto.
Qed.

Lemma set_text_tag : forall t x, xtag (set_text t x) = xtag x.
Proof. intros t [a b c d]. auto. Qed.
Lemma set_text_text : forall t x, xtext (set_text t x) = t.
Proof. intros t [a b c d]. auto. Qed.
Lemma set_text_kids : forall t x, xkids (set_text t x) = xkids x.
Proof. intros t [a b c d]. auto. Qed.

Lemma new_tag : forall f s c e, NewRes (node_add f) s c (Some e) -> xtag e = xtag c.
Proof.
  intros f s c e H. inversion H; subst; try (apply del_parts); match goal with R : node_add _ _ _ _ = Ok _ |- _ => apply add_tag in R; rewrite R; auto end.
Qed.

Lemma peer_tag : forall f s x c e, PeerRes (node_add f) s x c (Some e) -> xtag x = xtag c -> xtag e = xtag x.
Proof.
  intros f s x c e H T. inversion H; subst; auto.
  - apply set_text_tag.
  - rewrite T. apply del_parts.
  - match goal with R : node_add _ _ _ _ = Ok _ |- _ => apply add_tag in R; rewrite R; auto end.
Qed.

Lemma assoc_fst : forall s l es u c, Index s l es -> assoc uid_eqb u es = Some c -> uid_of s c = Ok u /\ xtag c = fst u /\ In c l.
Proof.
  intros s l es u c I A. apply (Index_assoc s l es u c I) in A. split; [eapply Index_uid; eauto |]. split.
  - symmetry. eapply Index_tag; eauto.
  - eapply Index_kid; eauto.
Qed.

Lemma filter_one : forall k (lr : list ent) u e, NoDup (uids lr) -> assoc uid_eqb u lr = Some e -> xtag e = k ->
  (forall v c, assoc uid_eqb v lr = Some c -> xtag c = k -> v = u) -> kids_tagged k (map snd lr) = [e].
Proof.
  intros k lr u e. unfold kids_tagged. induction lr as [| [v c] r IH]; intros ND A T U; [discriminate |].
  simpl in *. inversion ND as [| ? ? N1 N2]; subst. fold (uids r) in *. destruct (uid_eqb u v) eqn:E.
  - apply uid_eqb_ok in E. subst v. inversion A; subst. rewrite String.eqb_refl. f_equal.
    apply filter_none. intros c' Hc. apply in_map_iff in Hc. destruct Hc as ([w c''] & E & Hc). simpl in E. subst c''.
    apply String.eqb_neq. intro T. assert (Aw : assoc uid_eqb w r = Some c') by (apply (assoc_NoDup uid_eqb uid_eqb_ok); auto).
    assert (W : w = u). { apply (U w c'); auto. destruct (uid_eqb w u) eqn:Ew; auto. apply uid_eqb_ok in Ew. subst w.
      exfalso. apply N1. apply (in_map fst) in Hc. exact Hc. }
    subst w. apply N1. apply (in_map fst) in Hc. exact Hc.
  - assert (T2 : String.eqb (xtag c) (xtag e) = false).
    { apply String.eqb_neq. intro T2. assert (v = u). { apply (U v c); auto. rewrite uid_eqb_refl. auto. } subst v. rewrite uid_eqb_refl in E. discriminate. }
    rewrite T2. apply IH; auto. intros w c' Aw Tw. apply (U w c'); auto. destruct (uid_eqb w v) eqn:Ew; auto.
    apply uid_eqb_ok in Ew. subst w. exfalso. apply N1. apply assoc_Some_uids. eauto.
Qed.

Lemma keys_stay : forall f cs x c e ts, node_add f cs x c = Ok e -> wfs cs = true -> sty cs = TList -> edit_ok cs c = true ->
  key_tuple cs x = Ok ts -> key_tuple cs c = Ok ts -> key_tuple cs e = Ok ts.
Proof.
  intros [| f] cs x c e ts H W T O Kx Kc; [discriminate |].
  apply node_add_step in H. destruct H as (lx & ld & lr & Ix & Id & E & ND & HA).
  apply key_tuple_Forall2. apply key_tuple_Forall2 in Kx, Kc. destruct (wfs_keys cs W T) as [_ WK].
  assert (G : forall k t, In k (s_keys (si cs)) -> (exists c0, kids_tagged k (xkids x) = [c0] /\ parse_text cs c0 = t) ->
                (exists c0, kids_tagged k (xkids c) = [c0] /\ parse_text cs c0 = t) ->
                exists c0, kids_tagged k (xkids e) = [c0] /\ parse_text cs c0 = t).
  { intros k t Hk (kx & X1 & X2) (kc & C1 & C2). destruct (WK k Hk) as (_ & ks & Sk & Tk & Kk).
    rewrite (one_child cs _ lx k ks Ix Sk Tk) in X1. rewrite (one_child cs _ ld k ks Id Sk Tk) in C1.
    assert (Hx : assoc uid_eqb (k, KNone) lx = Some kx) by (destruct (assoc uid_eqb (k, KNone) lx); inversion X1; auto).
    assert (Hc : assoc uid_eqb (k, KNone) ld = Some kc) by (destruct (assoc uid_eqb (k, KNone) ld); inversion C1; auto).
    destruct (assoc_fst cs _ lx _ kx Ix Hx) as (Ux & Tx & Nx). destruct (assoc_fst cs _ ld _ kc Id Hc) as (Uc & Tc & Nc). simpl in Tx, Tc.
    destruct (edit_ok_inv cs c O) as (_ & OK). destruct (OK kc Nc) as (cs' & S' & _ & _ & Mg & _). assert (cs' = ks) by congruence. subst cs'.
    specialize (Mg Kk). assert (HK := HA (k, KNone)). rewrite Hx, Hc in HK.
    assert (LR : assoc uid_eqb (k, KNone) lr = Some (set_text (xtext kc) kx)).
    { inversion HK; subst; auto; try congruence;
        match goal with A : schema_child cs (xtag kx) = Ok ?c0 |- _ => assert (c0 = ks) by congruence; subst c0 end; try congruence;
        match goal with A : Leafy _ \/ Inner _ |- _ => intuition congruence | A : Inner _ |- _ => destruct A; congruence
          | A : np_container _ = true |- _ => unfold np_container in A; rewrite Tk in A; discriminate | _ => idtac end. }
    exists (set_text (xtext kc) kx). subst e. rewrite set_kids_kids. split.
    - apply (filter_one k lr (k, KNone)); auto.
      + rewrite set_text_tag. auto.
      + intros v c0 Av Tv. specialize (HA v). rewrite Av in HA.
        assert (LF : forall c1 l es, Index cs l es -> assoc uid_eqb v es = Some c1 -> fst v = k -> v = (k, KNone)).
        { intros c1 l es I A F. destruct (assoc_fst cs l es v c1 I A) as (U1 & T1 & _). rewrite F in T1.
          rewrite (uid_other cs c1 ks) in U1 by congruence. inversion U1. congruence. }
        destruct (assoc uid_eqb v lx) as [c1 |] eqn:A1; destruct (assoc uid_eqb v ld) as [c2 |] eqn:A2; try discriminate.
        * apply (LF c1 _ lx Ix A1). destruct (assoc_fst cs _ lx v c1 Ix A1) as (_ & F & _). destruct (assoc_fst cs _ ld v c2 Id A2) as (_ & F2 & _).
          apply peer_tag in HA; congruence.
        * apply (LF c1 _ lx Ix A1). destruct (assoc_fst cs _ lx v c1 Ix A1) as (_ & F & _). congruence.
        * apply (LF c2 _ ld Id A2). destruct (assoc_fst cs _ ld v c2 Id A2) as (_ & F & _). apply new_tag in HA. congruence.
    - rewrite parse_text_id in * by congruence. rewrite set_text_text. auto. }
  clear - Kx Kc G. revert G Kc. induction Kx as [| k t ks ts Hx Kx IH]; intros G Kc; [constructor |].
  inversion Kc; subst. constructor; [apply G; auto; left; auto |]. apply IH; auto. intros k' t' Hk. apply G. right. auto.
Qed.

Lemma find_tagged : forall k l c, find_kid k l = Some c -> In c l /\ xtag c = k.
Proof. intros k l c H. apply find_some in H. destruct H as [H1 H2]. apply String.eqb_eq in H2. auto. Qed.

Lemma key_copies_tags : forall cs c ks, key_copies cs c = Ok ks -> map xtag ks = s_keys (si cs).
Proof.
  intros cs c ks H. unfold key_copies in H. apply mapM_ok in H. induction H as [| k y l l' H1 H2 IH]; auto. simpl. rewrite IH. f_equal.
  destruct (find_kid k (xkids c)) as [kn |] eqn:E; [| discriminate]. inversion H1; subst. apply find_tagged in E. destruct (del_parts kn) as (T & _). rewrite T. tauto.
Qed.

Lemma key_copies_In : forall cs c ks y, key_copies cs c = Ok ks -> In y ks ->
  exists k kn, In k (s_keys (si cs)) /\ find_kid k (xkids c) = Some kn /\ y = del_attrib kn.
Proof.
  intros cs c ks y H Hy. unfold key_copies in H. apply mapM_ok in H. induction H as [| k z l l' H1 H2 IH]; [destruct Hy |].
  destruct Hy as [E | Hy].
  - subst z. destruct (find_kid k (xkids c)) as [kn |] eqn:E; [| discriminate]. inversion H1; subst. exists k, kn. split; auto. left. auto.
  - destruct (IH Hy) as (k' & kn & A & B). exists k', kn. split; auto. right. auto.
Qed.

Lemma tagged_nodup : forall l y, NoDup (map xtag l) -> In y l -> kids_tagged (xtag y) l = [y].
Proof.
  intros l y. unfold kids_tagged. induction l as [| z r IH]; intros ND H; [destruct H |]. simpl in *. inversion ND as [| ? ? N1 N2]; subst.
  destruct H as [E | H].
  - subst z. rewrite String.eqb_refl. f_equal. apply filter_none. intros w Hw. apply String.eqb_neq. intro E. apply N1. rewrite <- E. apply in_map. auto.
  - destruct (String.eqb (xtag z) (xtag y)) eqn:E; [| auto]. exfalso. apply N1. apply String.eqb_eq in E. rewrite E. apply in_map. auto.
Qed.

Lemma key_copies_tuple : forall cs c ks t tx a ts, wfs cs = true -> sty cs = TList -> key_copies cs c = Ok ks ->
  key_tuple cs c = Ok ts -> key_tuple cs (Elem t tx a ks) = Ok ts.
Proof.
  intros cs c ks t tx a ts W T H K. assert (TG := key_copies_tags cs c ks H). destruct (wfs_keys cs W T) as [ND _]. rewrite <- TG in ND.
  apply key_tuple_Forall2. apply key_tuple_Forall2 in K. simpl. unfold key_copies in H. apply mapM_ok in H.
  assert (G : forall y, In y ks -> kids_tagged (xtag y) ks = [y]) by (intros y Hy; apply tagged_nodup; auto).
  clear TG ND. assert (Q : incl ks ks) by apply incl_refl. revert Q H. generalize ks at 1 3 as l. intros l Q H. revert l Q H.
  induction K as [| k t0 keys ts (kc & C1 & C2) K IH]; intros l Q H; [constructor |].
  inversion H as [| ? y ? l' H1 H2]; subst. constructor.
  - apply kids_tagged_find in C1. assert (FK := find_tagged _ _ _ C1). rewrite C1 in H1. inversion H1; subst.
    exists (del_attrib kc). destruct (del_parts kc) as (E1 & E2 & _). split.
    + destruct FK as [_ FK]. rewrite <- FK at 1. rewrite <- E1. apply G. apply Q. left. auto.
    + rewrite !parse_text_id by congruence. auto.
  - apply (IH l'); auto. intros z Hz. apply Q. right. auto.
Qed.

Lemma new_uid : forall f s c e u, wfs s = true -> NewRes (node_add f) s c (Some e) -> uid_of s c = Ok u ->
  (forall cs, schema_child s (xtag c) = Ok cs -> edit_ok cs c = true) -> uid_of s e = Ok u.
Proof.
  intros f s c e u W H U O. inversion H; subst; try (rewrite uid_del; auto; fail).
  - match goal with R : node_add _ ?c0 _ _ = Ok _, S : schema_child _ _ = Ok ?c0 |- _ =>
      rewrite (uid_other s c c0) in U by congruence; apply add_tag in R; simpl in R; rewrite (uid_other s e c0) by congruence end. congruence.
  - match goal with R : node_add _ ?c0 _ _ = Ok _, S : schema_child _ _ = Ok ?c0, T : sty ?c0 = TList |- _ =>
      apply (uid_list s c c0 S T) in U; destruct U as (ts & K & E); subst u; assert (TG := add_tag _ _ _ _ _ R); simpl in TG;
      apply (uid_list s e c0); [congruence | auto |]; exists ts; split; [| congruence];
      eapply (keys_stay f c0); [exact R | eapply wfs_child; eauto | auto | auto | eapply key_copies_tuple; eauto; eapply wfs_child; eauto | auto] end.
Qed.

Lemma peer_uid : forall f s x c e u, wfs s = true -> PeerRes (node_add f) s x c (Some e) -> uid_of s x = Ok u -> uid_of s c = Ok u ->
  (forall cs, schema_child s (xtag c) = Ok cs -> edit_ok cs c = true) -> uid_of s e = Ok u.
Proof.
  intros f s x c e u W H Ux Uc O.
  assert (TT : xtag x = xtag c) by (apply uid_tag in Ux, Uc; congruence).
  inversion H; subst; auto.
  - match goal with S : schema_child _ _ = Ok ?c0 |- _ => rewrite (uid_other s x c0) in Ux by congruence;
      rewrite (uid_other s _ c0); rewrite ?set_text_tag; congruence end.
  - rewrite uid_del. auto.
  - match goal with R : node_add _ ?c0 _ _ = Ok _, S : schema_child _ _ = Ok ?c0, I : Inner ?c0 |- _ =>
      assert (TG := add_tag _ _ _ _ _ R); destruct I as [T | T];
      [ rewrite (uid_other s x c0) in Ux by congruence; rewrite (uid_other s e c0) by congruence; congruence
      | apply (uid_list s x c0 S T) in Ux; destruct Ux as (ts & K & E); subst u;
        assert (S2 : schema_child s (xtag c) = Ok c0) by congruence;
        apply (uid_list s c c0 S2 T) in Uc; destruct Uc as (ts' & K' & E); inversion E; subst ts';
        apply (uid_list s e c0); [congruence | auto |]; exists ts; split; [| congruence];
        eapply (keys_stay f c0); [exact R | eapply wfs_child; eauto | auto | auto | auto | auto] ] end.
Qed.

Theorem step_indexes : forall f s x d r, node_add (S f) s x d = Ok r -> wfs s = true -> edit_ok s d = true ->
  exists lx ld lr, Index s (xkids x) lx /\ Index s (xkids d) ld /\ Index s (xkids r) lr /\ r = set_kids (map snd lr) x /\
    (exists l1, foldM (add_new (node_add f) s) lx (only_in ld lx) = Ok l1 /\ foldM (add_peer (node_add f) s) l1 (both_in lx ld) = Ok lr) /\
    forall u, match assoc uid_eqb u lx, assoc uid_eqb u ld with
              | None, None => assoc uid_eqb u lr = None
              | Some c, None => assoc uid_eqb u lr = Some c
              | None, Some cd => NewRes (node_add f) s cd (assoc uid_eqb u lr)
              | Some cx, Some cd => PeerRes (node_add f) s cx cd (assoc uid_eqb u lr)
              end.
Proof.
  intros f s x d r H W O. apply node_add_steps in H. destruct H as (lx & ld & lr & Ix & Id & E & ND & ST & HA).
  exists lx, ld, lr. split; auto. split; auto. split; [| split; auto]. clear ST. subst r. rewrite set_kids_kids. split; auto. split; auto.
  apply Forall_forall. intros [u e] He. simpl. assert (A : assoc uid_eqb u lr = Some e) by (apply (assoc_NoDup uid_eqb uid_eqb_ok); auto).
  specialize (HA u). rewrite A in HA. destruct (edit_ok_inv s d O) as (_ & OK).
  assert (ED : forall cd, assoc uid_eqb u ld = Some cd -> forall cs, schema_child s (xtag cd) = Ok cs -> edit_ok cs cd = true).
  { intros cd Hd cs S. destruct (assoc_fst s _ ld u cd Id Hd) as (_ & _ & Hin). destruct (OK cd Hin) as (cs' & S' & _ & _ & _ & _ & O'). congruence. }
  destruct (assoc uid_eqb u lx) as [cx |] eqn:A1; destruct (assoc uid_eqb u ld) as [cd |] eqn:A2.
  - apply (peer_uid f s cx cd); auto; [apply (assoc_fst s _ lx u cx Ix A1) | apply (assoc_fst s _ ld u cd Id A2)].
  - inversion HA; subst. apply (assoc_fst s _ lx u cx Ix A1).
  - apply (new_uid f s cd); auto. apply (assoc_fst s _ ld u cd Id A2).
  - discriminate.
Qed.

Theorem step_index : forall f s x d r, node_add (S f) s x d = Ok r -> wfs s = true -> edit_ok s d = true ->
  exists lx ld lr, Index s (xkids x) lx /\ Index s (xkids d) ld /\ Index s (xkids r) lr /\ r = set_kids (map snd lr) x /\
    forall u, match assoc uid_eqb u lx, assoc uid_eqb u ld with
              | None, None => assoc uid_eqb u lr = None
              | Some c, None => assoc uid_eqb u lr = Some c
              | None, Some cd => NewRes (node_add f) s cd (assoc uid_eqb u lr)
              | Some cx, Some cd => PeerRes (node_add f) s cx cd (assoc uid_eqb u lr)
              end.
Proof. intros f s x d r H W O. destruct (step_indexes f s x d r H W O) as (lx & ld & lr & H1 & H2 & H3 & H4 & _ & H6). exists lx, ld, lr. auto. Qed.

(** ** Instances after the edit *)
Lemma leaf_Holds : forall cs c p v, Leafy cs -> xkids c = [] -> (Holds cs c p v <-> p = [] /\ v = xtext c).
Proof.
  intros cs c p v L K. destruct p as [| u p].
  - rewrite Holds_nil. unfold value_of. destruct L as [L | L]; rewrite L; intuition congruence.
  - rewrite Holds_cons. split; [| intros [A _]; discriminate]. intros (k & n & (C & _) & _). rewrite K in C. destruct C.
Qed.

Lemma fresh_lok : forall cs c ks t tx a, edit_ok cs c = true -> wfs cs = true -> sty cs = TList -> key_copies cs c = Ok ks ->
  lok cs (Elem t tx a ks) = true.
Proof.
  intros cs c ks t tx a O W T K. cbn [lok]. apply forallb_forall. intros y Hy. destruct (key_copies_In cs c ks y K Hy) as (k & kn & H1 & H2 & E).
  apply find_tagged in H2. destruct H2 as [H2 H3]. destruct (edit_ok_inv cs c O) as (_ & OK). destruct (OK kn H2) as (cs' & S & _ & NK & _).
  destruct (del_parts kn) as (E1 & _ & E3). subst y. rewrite E1, S.
  destruct (wfs_keys cs W T) as (_ & WK). destruct (WK k H1) as (_ & kc & Sk & Tk & _). assert (cs' = kc) by congruence. subst cs'.
  assert (N : xkids kn = []) by (apply NK; left; auto). destruct kn as [t1 t2 t3 t4]. simpl in N. subst t4. simpl. rewrite orb_true_r. auto.
Qed.

Lemma fresh_child : forall cs c ks t tx a u k y l, edit_ok cs c = true -> wfs cs = true -> sty cs = TList -> key_copies cs c = Ok ks ->
  Index cs (xkids c) l -> Child cs (Elem t tx a ks) u k y -> sty k = TLeaf /\ exists kn, Child cs c u k kn.
Proof.
  intros cs c ks t tx a u k y l O W T K I (C1 & C2 & C3). simpl in C1. destruct (key_copies_In cs c ks y K C1) as (k0 & kn & H1 & H2 & E).
  apply find_tagged in H2. destruct H2 as [H2 H3]. destruct (del_parts kn) as (E1 & _ & _).
  destruct (wfs_keys cs W T) as (_ & WK). destruct (WK k0 H1) as (_ & kc & Sk & Tk & _).
  assert (k = kc). { apply (Defines_schema_child cs k0); auto. subst y k0. rewrite <- E1. auto. } subst k. split; auto.
  exists kn. split; auto. subst y. rewrite <- E1. split; auto.
  inversion C3; try congruence. rewrite E1. apply id_other; congruence.
Qed.

Lemma Edited_fresh : forall cs c ks t tx a p v, edit_ok cs c = true -> wfs cs = true -> sty cs = TList -> key_copies cs c = Ok ks ->
  (Edited cs (Elem t tx a ks) c p v <-> Edited cs (Elem t None [] []) c p v).
Proof.
  intros cs c ks t tx a p v O W T K. destruct (edit_ok_inv cs c O) as ((l & I) & _).
  assert (NE : forall u, NoChild cs (Elem t None [] []) u) by (intros u k y (C & _); destruct C).
  split; intro H; inversion H; subst.
  - constructor.
  - match goal with C : Child cs (Elem t tx a ks) ?u ?k ?y, N : NoChild cs c ?u |- _ =>
      destruct (fresh_child cs c ks t tx a u k y l O W T K I C) as (_ & kn & C'); destruct (N _ _ C') end.
  - eapply ed_set; eauto.
  - eapply ed_leaf; eauto.
  - match goal with C : Child cs (Elem t tx a ks) ?u ?k ?y, N : Inner ?k |- _ =>
      destruct (fresh_child cs c ks t tx a u k y l O W T K I C) as (L & _); destruct N; congruence end.
  - eapply ed_new; eauto.
  - constructor.
  - match goal with C : Child cs (Elem t None [] []) _ _ _ |- _ => destruct C as (C & _); destruct C end.
  - eapply ed_set; eauto.
  - eapply ed_leaf; eauto.
  - match goal with C : Child cs (Elem t None [] []) _ _ _ |- _ => destruct C as (C & _); destruct C end.
  - match goal with C : Child cs c ?u ?k _, N : Inner ?k |- _ => apply (ed_new cs _ c u k c0 p0 v); auto;
      intros k' y C'; destruct (fresh_child cs c ks t tx a u k' y l O W T K I C') as (L & kn & C2);
      apply (Child_assoc cs c l) in C2; auto; apply (Child_assoc cs c l) in C; auto; destruct C as [C3 C4]; destruct C2 as [C5 C6];
      assert (k' = k) by congruence; subst k'; destruct N; congruence end.
Qed.

Theorem Edited_iff : forall f s x d r, wfs s = true -> ~ Leafy s -> lok s x = true -> edit_ok s d = true ->
  node_add f s x d = Ok r -> forall p v,
  (Holds s r p v -> Edited s x d p v) /\
  (Edited s x d p v -> (forall c, Target s p c -> np_container c = false) -> Holds s r p v).
Proof.
  induction f as [| f IH]; intros s x d r W NL LX O H p v; [discriminate |].
  assert (H' := step_index f s x d r H W O). destruct H' as (lx & ld & lr & Ix & Id & Ir & _ & HA).
  destruct (edit_ok_inv s d O) as (_ & OK).
  assert (ED : forall u cd cs, assoc uid_eqb u ld = Some cd -> schema_child s (xtag cd) = Ok cs ->
                 Child s d u cs cd /\ (Leafy cs \/ Inner cs) /\ (Leafy cs -> xkids cd = []) /\ insert_known cd = true /\ edit_ok cs cd = true /\ wfs cs = true).
  { intros u cd cs A S. destruct (assoc_fst s _ ld u cd Id A) as (_ & _ & Hin). destruct (OK cd Hin) as (cs' & S' & G1 & G2 & _ & G3 & G4).
    assert (cs' = cs) by congruence. subst cs'. split; [apply (Child_assoc s d ld); auto |]. repeat (split; auto). eapply wfs_child; eauto. }
  assert (EX : forall u cx cs, assoc uid_eqb u lx = Some cx -> schema_child s (xtag cx) = Ok cs ->
                 Child s x u cs cx /\ (Leafy cs -> xkids cx = []) /\ lok cs cx = true).
  { intros u cx cs A S. destruct (assoc_fst s _ lx u cx Ix A) as (_ & _ & Hin). split; [apply (Child_assoc s x lx); auto |].
    apply (lok_inv s x cx cs LX Hin S). }
  assert (TG : forall u cx cd, assoc uid_eqb u lx = Some cx -> assoc uid_eqb u ld = Some cd -> xtag cx = xtag cd).
  { intros u cx cd A1 A2. destruct (assoc_fst s _ lx u cx Ix A1) as (_ & T1 & _). destruct (assoc_fst s _ ld u cd Id A2) as (_ & T2 & _). congruence. }
  assert (LT : forall u cx cd cs, assoc uid_eqb u lx = Some cx -> assoc uid_eqb u ld = Some cd -> schema_child s (xtag cx) = Ok cs -> sty cs = TLeafList -> xtext cx = xtext cd).
  { intros u cx cd cs A1 A2 S T. destruct (assoc_fst s _ lx u cx Ix A1) as (U1 & T1 & _). destruct (assoc_fst s _ ld u cd Id A2) as (U2 & T2 & _).
    rewrite (uid_leaflist s cx cs S T) in U1. rewrite (uid_leaflist s cd cs) in U2 by congruence. congruence. }
  assert (NI : forall cs, Inner cs -> ~ Leafy cs) by (intros cs [T | T] [L | L]; congruence).
  split.
  - (* sound *)
    intro HH. destruct p as [| u p].
    { apply Holds_nil in HH. subst v. unfold value_of. destruct (sty s) eqn:T; try constructor; exfalso; apply NL; [left | right]; auto. }
    apply Holds_cons in HH. destruct HH as (cs & c & C & HH). apply (Child_assoc s r lr u cs c Ir) in C. destruct C as [C S].
    specialize (HA u). rewrite C in HA.
    destruct (assoc uid_eqb u lx) as [cx |] eqn:A1; destruct (assoc uid_eqb u ld) as [cd |] eqn:A2.
    + assert (T1 := TG u cx cd A1 A2). assert (T2 := peer_tag f s cx cd c HA T1). assert (Sx : schema_child s (xtag cx) = Ok cs) by congruence.
      assert (Sd : schema_child s (xtag cd) = Ok cs) by congruence.
      destruct (ED u cd cs A2 Sd) as (Cd & Ty & Nk & _ & Oc & Wc). destruct (EX u cx cs A1 Sx) as (Cx & Nx & Lx).
      inversion HA as [c0 ? ? ? EE | c0 ? ? ? EE | c0 ? ? ? EE | c0 ? ? ? EE | c0 e ? ? ? R ? EE | c0 e ? NPC ? R EK EE | c0 ? ? ? ? ? EE];
        (assert (c0 = cs) by congruence; subst c0); first [subst c | subst e | idtac].
      * assert (L : Leafy cs) by (left; auto). apply (leaf_Holds cs) in HH; [| auto | rewrite set_text_kids; auto]. destruct HH as [E1 E2]. subst p v. rewrite set_text_text.
        match goal with Q : op_of cd = _ \/ _ |- _ => destruct Q end; [eapply ed_leaf; eauto | eapply ed_set; eauto]. apply leaf_Holds; auto.
      * assert (L : Leafy cs) by (right; auto). apply (leaf_Holds cs) in HH; auto. destruct HH as [E1 E2]. subst p v.
        match goal with T : sty cs = TLeafList |- _ => rewrite (LT u cx cd cs A1 A2 Sx T) end.
        match goal with Q : op_of cd = _ \/ _ |- _ => destruct Q end; [eapply ed_leaf; eauto | eapply ed_set; eauto]. apply leaf_Holds; auto.
      * eapply ed_set; [exact Cd | auto |]. apply (Holds_del p cs cd v Oc). exact HH.
      * eapply ed_merge; eauto. eapply (IH cs cx cd); eauto.
      * exfalso. destruct Ty as [[T | T] | [T | T]]; congruence.
    + inversion HA; subst. destruct (EX u cx cs A1 S) as (Cx & _). eapply ed_old; eauto. apply (NoChild_assoc s d ld); auto.
    + assert (T2 := new_tag f s cd c HA). assert (Sd : schema_child s (xtag cd) = Ok cs) by congruence.
      destruct (ED u cd cs A2 Sd) as (Cd & Ty & Nk & _ & Oc & Wc). inversion HA; subst;
        match goal with Q : schema_child s (xtag cd) = Ok ?c0 |- _ => assert (c0 = cs) by congruence; subst c0 | _ => idtac end.
      * assert (L : Leafy cs) by (left; auto). apply (Holds_del p cs cd v Oc) in HH.
        match goal with Q : op_of cd = _ \/ _ |- _ => destruct Q end; [| eapply ed_set; eauto].
        apply leaf_Holds in HH; auto. destruct HH. subst. eapply ed_leaf; eauto.
      * eapply ed_set; [exact Cd | auto |]. apply (Holds_del p cs cd v Oc). exact HH.
      * assert (L : Leafy cs) by (right; auto). apply (Holds_del p cs cd v Oc) in HH.
        match goal with Q : op_of cd = _ \/ _ |- _ => destruct Q end; [| eapply ed_set; eauto].
        apply leaf_Holds in HH; auto. destruct HH. subst. eapply ed_leaf; eauto.
      * eapply ed_new; eauto; [apply (NoChild_assoc s x lx); auto | left; auto |]. eapply (IH cs _ cd); eauto. apply NI. left. auto.
      * eapply ed_new; eauto; [apply (NoChild_assoc s x lx); auto | right; auto |].
        apply (Edited_fresh cs cd ks (xtag cd) None []); auto. eapply (IH cs _ cd); eauto. { apply NI. right. auto. } eapply fresh_lok; eauto.
    + discriminate.
  - (* complete *)
    intros HE NP. destruct HE as [s x d | s x d u cs c p v Cx Nd HH | s x d u cs c p v Cd Op HH | s x d u cs c Cd Op L | s x d u cs cx c p v Cx Cd Op I HE | s x d u cs c p v Nx Cd Op I HE].
    + apply Holds_nil. unfold value_of. destruct (sty s) eqn:T; auto; exfalso; apply NL; [left | right]; auto.
    + specialize (HA u). apply (Child_assoc s x lx u cs c Ix) in Cx. destruct Cx as [A1 S]. apply (NoChild_assoc s d ld u Id) in Nd. rewrite A1, Nd in HA.
      apply Holds_cons. exists cs, c. split; auto. apply (Child_assoc s r lr); auto.
    + specialize (HA u). apply (Child_assoc s d ld u cs c Id) in Cd. destruct Cd as [A2 S]. rewrite A2 in HA.
      destruct (ED u c cs A2 S) as (_ & Ty & Nk & Ik & Oc & Wc).
      assert (DEL : assoc uid_eqb u lr = Some (del_attrib c) -> Holds s r (u :: p) v).
      { intro E. apply Holds_cons. exists cs, (del_attrib c). split; [| apply Holds_del; auto]. apply (Child_assoc s r lr); auto. split; auto.
        destruct (del_parts c) as (T & _). congruence. }
      destruct (assoc uid_eqb u lx) as [cx |] eqn:A1.
      * assert (T1 := TG u cx c A1 A2). assert (Sx : schema_child s (xtag cx) = Ok cs) by congruence. destruct (EX u cx cs A1 Sx) as (_ & Nx & _).
        inversion HA as [c0 ? ? ? EE | c0 ? ? ? EE | c0 ? ? ? EE | c0 ? ? ? EE | c0 e ? ? ? ? ? EE | c0 e ? ? ? ? ? EE | c0 ? ? ? ? ? EE];
          assert (c0 = cs) by congruence; subst c0.
        -- assert (L : Leafy cs) by (left; auto). apply leaf_Holds in HH; auto. destruct HH. subst p v. apply Holds_cons. exists cs, (set_text (xtext c) cx). split.
           ++ apply (Child_assoc s r lr); auto. rewrite set_text_tag. auto.
           ++ apply leaf_Holds; auto; [rewrite set_text_kids; auto | rewrite set_text_text; auto].
        -- assert (L : Leafy cs) by (right; auto). apply leaf_Holds in HH; auto. destruct HH. subst p v. apply Holds_cons. exists cs, cx. split.
           ++ apply (Child_assoc s r lr); auto.
           ++ apply leaf_Holds; auto. split; auto. symmetry. eapply LT; eauto.
        -- exfalso. intuition congruence.
        -- auto.
        -- exfalso. intuition congruence.
        -- exfalso. intuition congruence.
        -- exfalso. destruct Ty as [[T | T] | [T | T]]; congruence.
      * inversion HA as [? EE | c0 ? ? ? EE | c0 ? ? ? EE | c0 ? ? ? ? EE | c0 e ? ? ? ? EE | c0 ks e ? ? ? ? ? ? EE | c0 ? BI ? ? ? EE | c0 ? ? ? ? ? EE ];
          try (assert (c0 = cs) by congruence; subst c0); auto; try (exfalso; intuition congruence).
        -- exfalso. unfold bad_insert in BI. rewrite Ik in BI. simpl in BI. rewrite andb_false_r in BI. discriminate.
        -- exfalso. destruct Ty as [[T | T] | [T | T]]; congruence.
    + specialize (HA u). apply (Child_assoc s d ld u cs c Id) in Cd. destruct Cd as [A2 S]. rewrite A2 in HA.
      destruct (ED u c cs A2 S) as (_ & Ty & Nk & Ik & Oc & Wc).
      assert (NIn : ~ Inner cs) by (intro I; apply (NI cs I L)).
      destruct (assoc uid_eqb u lx) as [cx |] eqn:A1.
      * assert (T1 := TG u cx c A1 A2). assert (Sx : schema_child s (xtag cx) = Ok cs) by congruence. destruct (EX u cx cs A1 Sx) as (_ & Nx & _).
        inversion HA as [c0 ? ? ? EE | c0 ? ? ? EE | c0 ? ? ? EE | c0 ? ? ? EE | c0 e ? ? ? ? ? EE | c0 e ? NPC ? ? ? EE | c0 ? ? ? ? ? EE];
          assert (c0 = cs) by congruence; subst c0.
        -- apply Holds_cons. exists cs, (set_text (xtext c) cx). split.
           ++ apply (Child_assoc s r lr); auto. rewrite set_text_tag. auto.
           ++ apply leaf_Holds; auto; [rewrite set_text_kids; auto | rewrite set_text_text; auto].
        -- apply Holds_cons. exists cs, cx. split.
           ++ apply (Child_assoc s r lr); auto.
           ++ apply leaf_Holds; auto. split; auto. symmetry. eapply LT; eauto.
        -- exfalso. intuition congruence.
        -- exfalso. intuition congruence.
        -- exfalso. auto.
        -- exfalso. unfold np_container in NPC. destruct L as [T | T]; rewrite T in NPC; discriminate.
        -- exfalso. destruct Ty as [[T | T] | [T | T]]; congruence.
      * assert (DEL : assoc uid_eqb u lr = Some (del_attrib c) -> Holds s r [u] (xtext c)).
        { intro E. apply Holds_cons. exists cs, (del_attrib c). split; [| apply Holds_del; auto; apply leaf_Holds; auto]. apply (Child_assoc s r lr); auto. split; auto.
          destruct (del_parts c) as (T & _). congruence. }
        inversion HA as [? EE | c0 ? ? ? EE | c0 ? ? ? EE | c0 ? ? ? ? EE | c0 e ? ? ? ? EE | c0 ks e ? ? ? ? ? ? EE | c0 ? BI ? ? ? EE | c0 ? ? ? ? ? EE ];
          try (assert (c0 = cs) by congruence; subst c0); auto; try (exfalso; intuition congruence).
        -- exfalso. apply NIn. left. auto.
        -- exfalso. apply NIn. right. auto.
        -- exfalso. unfold bad_insert in BI. rewrite Ik in BI. simpl in BI. rewrite andb_false_r in BI. discriminate.
        -- exfalso. destruct Ty as [[T | T] | [T | T]]; congruence.
    + specialize (HA u). apply (Child_assoc s d ld u cs c Id) in Cd. destruct Cd as [A2 S]. apply (Child_assoc s x lx u cs cx Ix) in Cx. destruct Cx as [A1 Sx]. rewrite A1, A2 in HA.
      destruct (ED u c cs A2 S) as (_ & Ty & Nk & Ik & Oc & Wc). destruct (EX u cx cs A1 Sx) as (Cx & Nx & Lx).
      assert (FU : fst u = xtag c) by (symmetry; apply (assoc_fst s _ ld u c Id A2)).
      assert (NP' : forall c1, Target cs p c1 -> np_container c1 = false).
      { intros c1 T. apply NP. apply (tg_down s u p cs); auto. rewrite FU. apply schema_child_Defines. auto. }
      inversion HA as [c0 ? ? ? EE | c0 ? ? ? EE | c0 ? ? ? EE | c0 ? ? ? EE | c0 e ? ? ? R ? EE | c0 e ? NPC ? R EK EE | c0 ? ? ? ? ? EE];
          assert (c0 = cs) by congruence; subst c0; try (exfalso; intuition congruence); try (exfalso; destruct I; congruence).
      * apply Holds_cons. exists cs, e. split.
        -- apply (Child_assoc s r lr); auto. split; auto. rewrite (add_tag _ _ _ _ _ R). auto.
        -- eapply (IH cs cx c); eauto.
      * exfalso. assert (HH : Holds cs e p v) by (eapply (IH cs cx c); eauto). destruct p as [| u' p].
        -- rewrite (NP' cs) in NPC; [discriminate | constructor].
        -- apply Holds_cons in HH. destruct HH as (k & n & (C & _) & _). rewrite EK in C. destruct C.
    + specialize (HA u). apply (Child_assoc s d ld u cs c Id) in Cd. destruct Cd as [A2 S]. apply (NoChild_assoc s x lx u Ix) in Nx. rewrite Nx, A2 in HA.
      destruct (ED u c cs A2 S) as (_ & Ty & Nk & Ik & Oc & Wc).
      assert (FU : fst u = xtag c) by (symmetry; apply (assoc_fst s _ ld u c Id A2)).
      assert (NP' : forall c1, Target cs p c1 -> np_container c1 = false).
      { intros c1 T. apply NP. apply (tg_down s u p cs); auto. rewrite FU. apply schema_child_Defines. auto. }
      inversion HA as [? EE | c0 ? ? ? EE | c0 ? ? ? EE | c0 ? ? ? ? EE | c0 e ? ? ? R EE | c0 ks e ? ? ? KC R BI EE | c0 ? BI ? ? ? EE | c0 ? ? ? ? ? EE ];
        try (assert (c0 = cs) by congruence; subst c0); auto; try (exfalso; intuition congruence); try (exfalso; destruct I; congruence).
      * apply Holds_cons. exists cs, e. split.
        -- apply (Child_assoc s r lr); auto. split; auto. rewrite (add_tag _ _ _ _ _ R). auto.
        -- eapply (IH cs _ c); eauto. reflexivity.
      * apply Holds_cons. exists cs, e. split.
        -- apply (Child_assoc s r lr); auto. split; auto. rewrite (add_tag _ _ _ _ _ R). auto.
        -- apply (proj2 (IH cs (Elem (xtag c) None [] ks) c e Wc (NI cs I) (fresh_lok cs c ks _ _ _ Oc Wc ltac:(auto) KC) Oc R p v)); auto.
           apply Edited_fresh; auto.
      * exfalso. unfold bad_insert in BI. rewrite Ik in BI. simpl in BI. rewrite andb_false_r in BI. discriminate.
Qed.
