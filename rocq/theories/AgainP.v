(** Proofs: a delta that is added to the config it leads to. *)
From Coq Require Import String Ascii List Bool Arith ZArith Lia Permutation.
From Verif Require Import Base BaseP XmlM CalcM CalcP NetconfM ConfigM ListP DataSpec DataP CompareP DeltaSpec MoveSpec MoveP DeltaR NameP AddP AddStepP PlainP WorkP SubP RoundP
  ConfigSpec TrimSpec TrimP ConfigP DeltaPropsP OpsP VocabSpec AgainSpec.
From Verif Require VocabP EditPropsP.
Import ListNotations.
Open Scope string_scope.
Open Scope list_scope.

(** ** The operations that can be carried out once only *)
Definition once (c : xml) : bool := match op_of c with OpDelete | OpCreate => true | _ => false end.
Fixpoint quiet (x : xml) : bool :=
  match x with Elem _ _ _ ks => forallb (fun c => negb (once c) && quiet c) ks end.
Definition okc (c : xml) : bool := negb (once c) && quiet c.

Lemma quiet_eq : forall x, quiet x = forallb okc (xkids x).
Proof. intros [t tx a ks]. reflexivity. Qed.

Lemma Bare_quiet : forall x y, Bare x y -> okc x = true.
Proof.
  intro x. induction x as [t tx a ks IH] using xml_ind'. intros y B. inversion B as [? ? B1 B2 B3 B4]; subst.
  unfold okc, once, op_of. destruct B3 as [B3 _]. rewrite B3. cbn [negb andb]. rewrite quiet_eq. cbn [xkids] in *.
  clear - IH B4. revert B4. generalize (xkids y). induction IH as [| k r Hk _ IHr]; intros ys B; inversion B; subst; auto.
  cbn [forallb]. rewrite (Hk y0) by auto. cbn [andb]. apply (IHr l'). auto.
Qed.
Lemma Body_okc : forall cd cb, Body cd cb -> okc cd = negb (once cd).
Proof.
  intros cd cb [_ B]. unfold okc. rewrite quiet_eq. replace (forallb okc (xkids cd)) with true; [apply andb_true_r |].
  symmetry. induction B as [| x y l l' H B IH]; auto. cbn [forallb]. rewrite (Bare_quiet x y H). auto.
Qed.

Lemma foldM_try : forall {A S} (f : S -> A -> res S) (Inv : S -> Prop) (ok : A -> bool) e l,
  (forall x s, In x l -> Inv s -> if ok x then exists s', f s x = Ok s' /\ Inv s' else f s x = Err e) ->
  forall s, Inv s -> if forallb ok l then exists s', foldM f s l = Ok s' /\ Inv s' else foldM f s l = Err e.
Proof.
  intros A S f Inv ok e l. induction l as [| x l IH]; intros H s Hs; cbn [forallb foldM].
  - eauto.
  - assert (X := H x s (or_introl eq_refl) Hs). destruct (ok x); cbn [andb].
    + destruct X as (s' & E & Hs'). rewrite E. cbn [bind]. apply IH; auto. intros y s0 Hy. apply H. right. auto.
    + rewrite X. reflexivity.
Qed.

(** ** The condition on deleted nodes *)
Definition again_late (o : opts) : late.
Proof.
  refine (Late (fun _ _ _ _ _ op => (o_delete o = PDRemove -> op = OpRemove) /\ (o_delete o = PDDelete -> op <> OpRemove))
               (o_delete o = PDDelete) _ _ (fun _ => True) (fun _ _ _ _ => True) (fun _ _ _ _ => True)).
  - intros _ _ _ _ _ [H _]. destruct (o_delete o); auto. discriminate (H eq_refl).
  - intros _ _ _ _ op H N. split; [rewrite H; discriminate | auto].
Defined.

Section Again.
Variable o : opts.
Local Instance AL : late := again_late o.

Lemma Lvls_again : forall a n s b, validk s a -> validk s b -> Lvls o n s (xkids a) (xkids b).
Proof.
  intro a. induction a as [t tx at_ ks IH] using xml_ind'. intros n s b [(la & Ia) Va] [(lb & Ib) Vb].
  assert (G : forall rep, Lvl o n rep s la lb).
  { intros rep u ca cs d _ _ _ _ M. destruct (mk_del_op o cs ca d M) as [M1 M2]. split; auto. }
  apply (lvls o n s _ _ la lb); auto; try (intros; exact I).
  - intros _. split; [apply G | exact I].
  - intros _. split; [apply G | intros u ca cb cs _ _ _; exact I].
  - intros u ca cb cs H1 H2 Hs. rewrite Forall_forall in IH.
    assert (Ca := Index_kid s _ la u ca Ia H1). assert (Cb := Index_kid s _ lb u cb Ib H2).
    destruct (Va ca Ca) as (cs1 & E1 & V1). destruct (Vb cb Cb) as (cs2 & E2 & V2).
    assert (T : xtag cb = xtag ca).
    { rewrite <- (Index_tag s _ la u ca Ia H1). symmetry. apply (Index_tag s _ lb u cb Ib H2). }
    assert (cs1 = cs) by congruence. assert (cs2 = cs) by congruence. subst.
    apply IH; auto using valid_validk.
Qed.

Lemma sub_cases : forall s a b d, wfs s = true -> validk s a -> validk s b -> xattrs b = [] ->
  nc_sub o s b a = Ok d -> IsD 0 s (xkids a) (xkids b) (xkids d) \/ Forall2 Bare (xkids d) (xkids b).
Proof.
  intros s a b d0 W Va Vb Ab HN.
  assert (R : RT True (nc_sub o s b a) (fun d => IsD 0 s (xkids a) (xkids b) (xkids d) \/ Forall2 Bare (xkids d) (xkids b))).
  2:{ rewrite HN in R. destruct R as [(d & H & D) | [H _]]; [| discriminate]. assert (d0 = d) by congruence. subst. auto. }
  clear d0 HN. assert (Oa' : texted s a = true \/ True) by auto. assert (Ob' : texted s b = true \/ True) by auto.
  assert (BR : Forall2 Bare (xkids b) (xkids b)).
  { destruct Vb as [_ K]. clear - K. induction (xkids b) as [| c r IH]; constructor; [destruct (K c (or_introl eq_refl)) as (cs & _ & V); apply (Bare_refl c cs V) | apply IH; intros; apply K; right; auto]. }
  assert (P : ~ RLevel o 0 -> RT True (let! p := node_sub (height b) o s 0 b a in Ok (fst p)) (fun d => IsD 0 s (xkids a) (xkids b) (xkids d) \/ Forall2 Bare (xkids d) (xkids b))).
  { intro NR. destruct (node_sub_rt True (height b) o 0 s a b (le_n _) W Va Vb Ab Oa' Ob' (Lvls_again a 0 s b Va Vb) NR ltac:(intros; discriminate)) as [([d a'] & H & (T1 & T2 & D & _) & HM) | [H HB]]; cbn [Z.of_nat] in H; rewrite H; cbn [bind fst Z.of_nat] in *; [| right; auto].
    left. exists d. split; auto. simpl in D.
    destruct D as [(_ & _ & D) | [_ D]]; [left; auto |]. right. subst d. destruct (set_attr_parts operation_tag "replace" b) as (_ & _ & E). rewrite E. auto. }
  unfold nc_sub. destruct (o_type o) eqn:Eo.
  - destruct (P ltac:(intros [X _]; congruence)) as [(d & D1 & D2) | [D1 D2]]; rewrite D1; cbn [bind]; [left; exists d; auto | right; auto].
  - destruct (P ltac:(intros [X _]; congruence)) as [(d & D1 & D2) | [D1 D2]]; rewrite D1; cbn [bind]; [| right; auto]. left. eexists. split; [reflexivity |]. rewrite mark_kids. destruct D2 as [D2 | D2].
    + left. apply (proj1 Alike_IsD _ _ _ _ _ D2). apply mark_all.
    + right. apply (Alike_Bares (xkids d)); auto. apply mark_all.
  - destruct (Z.eqb (o_depth o) 0) eqn:Ez.
    + assert (HL := Lvls_again a 0 s b Va Vb). inversion HL as [n0 s0 ka kb la lb Ia Ib L1 L2 L0 LD L3]; subst n0 s0 ka kb.
      assert (RL : RLevel o 0) by (split; [exact Eo | apply Z.eqb_eq; exact Ez]).
      destruct (replace_level 0 s a b la lb W Va Vb Ia Ib True Oa' Ob' o (L2 RL)) as [(d & D1 & D2 & D3 & D4 & D5 & _) | [D1 D2]];
        rewrite D1; cbn [bind]; [left; exists d; auto | right; auto].
    + destruct (P ltac:(intros [_ X]; apply Z.eqb_neq in Ez; exact (Ez X))) as [(d & D1 & D2) | [D1 D2]]; rewrite D1; cbn [bind]; [left; exists d; auto | right; auto].
Qed.

(** A copy is the delta from nothing. *)
Lemma Bare_Alike : forall x y s, Bare x y -> valid s y = true -> Alike y x.
Proof.
  intro x. induction x as [t tx a ks IH] using xml_ind'. intros y s B V. inversion B as [? ? B1 B2 B3 B4]; subst.
  destruct (valid_inv s y V) as (Ay & _ & Ky). apply alike; auto.
  - unfold edit_attrs, no_edit in *. destruct B3 as (E1 & E2 & E3 & E4). rewrite E1, E2, E3, E4, !no_attrs by auto. reflexivity.
  - cbn [xkids] in *. clear - IH B4 Ky. revert B4 Ky. generalize (xkids y). induction IH as [| k r Hk _ IHr]; intros ys B K; inversion B; subst; constructor.
    + destruct (K y0 (or_introl eq_refl)) as (cs & _ & V). apply (Hk y0 cs); auto.
    + apply IHr; auto. intros c Hc. apply K. right. auto.
Qed.

Lemma copy_IsD : forall s b kd, wfs s = true -> validk s b -> Forall2 Bare kd (xkids b) -> IsD 0 s [] (xkids b) kd.
Proof.
  intros s b kd W [(lb & Ib) Kb] B. apply (proj1 Alike_IsD 0 s [] (xkids b) (xkids b)).
  - apply (isd 0 s [] (xkids b) (xkids b) [] lb lb); auto; [apply Index_nil | |].
    + intro u. destruct (assoc uid_eqb u lb) as [x |] eqn:E; [| apply e_none]. apply (Index_assoc s _ lb u x Ib) in E.
      destruct (Kb x (Index_kid s _ lb u x Ib E)) as (cs & S & V). apply (plain_new x 0 s cs u); auto. apply (Index_uid s _ lb u x Ib E).
    + intros t cs S U. apply ord_plain; [reflexivity | apply dseq_all; auto |]. apply Forall_forall. intros e He. apply dseq_In in He.
      destruct e as [u x]. destruct (Kb x (Index_kid s _ lb u x Ib He)) as (ds & _ & V). apply no_attrs. apply (valid_inv ds x V).
  - clear - B Kb. induction B as [| x y l l' H B IH]; constructor.
    + destruct (Kb y (or_introl eq_refl)) as (cs & _ & V). apply (Bare_Alike x y cs); auto.
    + apply IH. intros c Hc. apply Kb. right. auto.
Qed.

(** ** A container that is deleted node by node *)
Lemma gone_fails : forall f n s a d, height d <= f -> wfs s = true -> validk s a -> xkids a <> [] ->
  o_delete o = PDDelete -> IsD n s (xkids a) [] (xkids d) ->
  quiet d = false /\ forall t tx at_, node_add f s (Elem t tx at_ []) d = Err ConfigDeltaError.
Proof.
  intro f. induction f as [| f IH]; intros n s a d Hh W Va NE PD HI.
  - exfalso. destruct d. simpl in Hh. lia.
  - inversion HI as [? ? ? ? ? la lb ld IA IB ID HE HO]; subst. apply Index_nil_inv in IB. subst lb.
    destruct la as [| [u0 c0] la0] eqn:Ela.
    { exfalso. apply NE. destruct IA as (X & _). simpl in X. auto. }
    rewrite <- Ela in *.
    assert (Ld : exists u cd ld', ld = (u, cd) :: ld').
    { specialize (HE u0). destruct ld as [| [u cd] ld']; [exfalso | eauto]. rewrite Ela in HE at 2. simpl in HE. rewrite uid_eqb_refl in HE.
      inversion HE as [| | ? ? ? ? ? _ HS | | | | | | | |]; subst. destruct HS as (v & cb & _ & _ & X & _). destruct X. }
    destruct Ld as (u & cd & ld' & Eld).
    assert (Iu : In (u, cd) ld) by (rewrite Eld; left; auto).
    assert (Hcd : height cd <= f) by (assert (X := height_kid cd d (Index_kid s _ ld u cd ID Iu)); lia).
    assert (Td := Index_tag s _ ld u cd ID Iu).
    assert (En := HE u). rewrite (proj2 (Index_assoc s _ ld u cd ID) Iu) in En. simpl in En.
    assert (X : okc cd = false /\ forall l, add_new (node_add f) s l (u, cd) = Err ConfigDeltaError).
    { destruct (assoc uid_eqb u la) as [ca |] eqn:Ea; [| apply EntD_new in En; destruct En as (? & ? & X & _); discriminate].
      apply EntD_peer in En. destruct En as (cs & S1 & [(_ & O1 & K1) | [(_ & K1 & N1 & O1 & D1) | (? & X & _)]]); [| | discriminate].
      - destruct K1 as [_ K1]. specialize (K1 PD). destruct O1 as [O1 | O1]; [| contradiction]. unfold okc, once, add_new. rewrite O1. auto.
      - apply (Index_assoc s _ _ u ca IA) in Ea. assert (Ta := Index_tag s _ _ u ca IA Ea).
        destruct Va as [_ Ka]. destruct (Ka ca (Index_kid s _ _ u ca IA Ea)) as (cs' & S2 & V). assert (cs' = cs) by congruence. subst cs'.
        destruct (IH (S n) cs ca cd) as [Q1 Q2]; auto.
        { apply (wfs_child s (xtag ca)); auto. }
        { apply valid_validk. auto. }
        { apply (np_kids cs); auto. }
        unfold okc, once, add_new. rewrite O1, Q1. split; auto. intro l. rewrite <- Td, Ta, S1. cbn [bind].
        rewrite (np_cont cs N1). rewrite Q2. reflexivity. }
    destruct X as [X1 X2]. split.
    + rewrite quiet_eq. destruct ID as (E & _). rewrite <- E, Eld. cbn [map snd forallb]. rewrite X1. auto.
    + intros t tx at_. cbn [node_add xkids]. rewrite (group_ok s _ _ [] ld (Index_nil s) ID). cbn [bind in_1_not_2 in_2_not_1 in_1_and_2].
      rewrite (proj2 (index_ok s _ []) (Index_nil s)). cbn [bind].
      assert (Eo : only_in ld [] = (u, cd) :: only_in ld' []) by (rewrite Eld; reflexivity).
      rewrite Eo. cbn [foldM]. rewrite X2. reflexivity.
Qed.

(** ** One level *)
Definition Again (f : nat) : Prop := forall n s a b d,
  height d <= f -> wfs s = true -> validk s a -> validk s b -> orderable s b = true ->
  IsD n s (xkids a) (xkids b) (xkids d) ->
  if quiet d
  then exists lb lr, node_add f s b d = Ok (set_kids (map snd lr) b) /\ Index s (xkids b) lb /\ WellId s lr /\ KS s lr lb
  else node_add f s b d = Err ConfigDeltaError.

(** A node of the destination that the delta has as well *)
Lemma EntD_both : forall n s la lb oa cb cd, EntD n s la lb oa (Some cb) (Some cd) ->
  (forall ca, oa = Some ca -> exists cs, schema_child s (xtag ca) = Ok cs /\ valid cs ca = true /\ xtag ca = xtag cb) ->
  (forall cs ks, schema_child s (xtag cb) = Ok cs -> sty cs = TList -> key_copies cs cd = Ok ks ->
     IsD (S n) cs ks (xkids cb) (xkids cd) -> validk cs (Elem "" None [] ks)) ->
  exists cs, schema_child s (xtag cb) = Ok cs /\
    ((Body cd cb /\ (op_of cd = OpCreate \/ op_of cd = OpReplace \/ (op_of cd = OpMerge /\ leafish (sty cs) = true))) \/
     (nodeish (sty cs) = true /\ op_of cd = OpMerge /\ exists a', validk cs a' /\ IsD (S n) cs (xkids a') (xkids cb) (xkids cd))).
Proof.
  intros n s la lb oa cb cd En HA HK.
  inversion En as [| | | ? ? ? ? ? ? cs S1 O1 B1 | ? ? ? ? ? ? cs S1 T1 O1 D1 | ? ? ? ? ? ? cs ks S1 T1 O1 K1 D1 | |
    | ? ? ? ? ca ? ? cs S1 L1 O1 B1 | ? ? ? ? ca ? ? cs S1 N1 O1 B1 _ | ? ? ? ? ca ? ? cs S1 N1 O1 _ D1]; subst.
  - exists cs. split; auto.
  - exists cs. split; auto. right. rewrite T1. split; auto. split; auto. exists (Elem "" None [] []). split; [apply validk_nil | auto].
  - exists cs. split; auto. right. rewrite T1. split; auto. split; auto. exists (Elem "" None [] ks). split; auto.
  - exists cs. destruct (HA ca eq_refl) as (cs' & _ & _ & T). rewrite <- T. split; auto. left. split; auto. tauto.
  - exists cs. destruct (HA ca eq_refl) as (cs' & _ & _ & T). rewrite <- T. split; auto.
  - destruct (HA ca eq_refl) as (cs' & S2 & V & T). assert (cs' = cs) by congruence. subst cs'.
    exists cs. rewrite <- T. split; auto. right. split; auto. split; auto. exists ca. split; auto. apply valid_validk. auto.
Qed.

Lemma seqt_after : forall t l e v, fst (fst e) = t -> In v (uids l) -> fst v = t ->
  seqt t (ins_after_first (has_uid v) e l) = ins_after_first (uid_eqb v) (fst e) (seqt t l).
Proof.
  intros t l e v He Hv Ht. unfold seqt, uids. rewrite !filter_map.
  rewrite ins_after_first_filter; auto.
  - apply ins_after_first_map. reflexivity.
  - intros x Hx Hq. unfold has_uid in Hq. apply uid_eqb_ok in Hq. subst v. rewrite Ht. apply String.eqb_refl.
  - cbn beta. apply String.eqb_eq. exact He.
  - apply existsb_exists. apply in_map_iff in Hv. destruct Hv as (x & E & Hin). exists x. split; auto.
    unfold has_uid. rewrite E. apply uid_eqb_refl.
Qed.

Section Level.
Variables (f dp : nat) (s : snode) (a b d : xml) (la lb ld : list ent).
Hypothesis IHf : Again f.
Hypothesis Hh : height d <= S f.
Hypothesis W : wfs s = true.
Hypothesis Va : validk s a.
Hypothesis Vb : validk s b.
Hypothesis OB : orderable s b = true.
Hypothesis IA : Index s (xkids a) la.
Hypothesis IB : Index s (xkids b) lb.
Hypothesis ID : Index s (xkids d) ld.
Hypothesis HE : forall u, EntD dp s la lb (assoc uid_eqb u la) (assoc uid_eqb u lb) (assoc uid_eqb u ld).
Hypothesis HO : forall t cs, schema_child s t = Ok cs -> is_user_seq cs = true -> OrderOK t cs la lb ld.

Definition Inv (l : list ent) : Prop := WellId s l /\ KS s l lb.

Lemma Inv_uids : forall l u, Inv l -> In u (uids l) <-> In u (uids lb).
Proof.
  intros l u [_ [K _]]. specialize (K u). rewrite !assoc_Some_uids.
  destruct (assoc uid_eqb u l), (assoc uid_eqb u lb); try contradiction; split; intros (y & E); try discriminate; eauto.
Qed.

Lemma Inv_init : Inv lb.
Proof.
  split; [apply (Index_WellId s _ lb IB) |]. split; auto. intro u. destruct (assoc uid_eqb u lb) as [cb |] eqn:E; auto.
  destruct (entry_ok s b lb u cb Vb IB E) as (cs & H1 & H2 & H3 & _). apply (Good_refl s u cb cs); auto.
Qed.

Lemma Inv_upd : forall l u e cb, Inv l -> assoc uid_eqb u lb = Some cb -> Good s u e cb -> Inv (upd_uid u e l).
Proof.
  intros l u e cb HI B G. destruct HI as [[W1 W2] [K O]]. split; [| split].
  - split; [| rewrite uids_upd; auto]. unfold upd_uid. rewrite Forall_forall in *. intros x Hx. apply in_map_iff in Hx. destruct Hx as (y & E & Hy).
    destruct (has_uid u y) eqn:H; subst x; [simpl | apply W1; auto]. destruct G as (cs & _ & _ & _ & _ & G). auto.
  - intro w. rewrite assoc_upd. destruct (uid_eqb w u) eqn:E; [| apply K]. apply uid_eqb_ok in E. subst w. specialize (K u). rewrite B in *.
    destruct (assoc uid_eqb u l); [auto | contradiction].
  - intros t cs S U. rewrite seqt_upd. apply (O t cs S U).
Qed.

Lemma Inv_move : forall l u cb cd cs, Inv l -> assoc uid_eqb u lb = Some cb -> assoc uid_eqb u ld = Some cd ->
  schema_child s (xtag cb) = Ok cs -> valid cs cb = true -> sty cs = TLeafList \/ sty cs = TList ->
  exists l', move_peer cs cd (u, cb) l = Ok l' /\ Inv l'.
Proof.
  intros l u cb cd cs HI Eb Ed Hs Vc Hty. unfold move_peer. cbn [fst].
  destruct (s_user (si cs)) eqn:Hus; [| exists l; auto].
  assert (U : is_user_seq cs = true) by (apply is_user_seq_iff; auto).
  assert (Ib := Eb). apply (Index_assoc s _ lb u cb IB) in Ib.
  assert (Id := Ed). apply (Index_assoc s _ ld u cd ID) in Id.
  assert (Td := Index_tag s _ ld u cd ID Id). assert (Tb := Index_tag s _ lb u cb IB Ib). assert (Ub := Index_uid s _ lb u cb IB Ib).
  assert (Hub : In u (uids lb)) by (eapply assoc_Some_In_uids; eauto).
  assert (Hs' : schema_child s (xtag cd) = Ok cs) by congruence.
  assert (Hul : In u (uids l)) by (apply (Inv_uids l u HI); auto).
  destruct (HO (xtag cd) cs Hs' U) as [E1 E2 | E1 E2 E3 | E1 E2].
  3:{ exfalso. assert (X : In u (seqt (xtag cd) ld)); [| rewrite E1 in X; destruct X].
      apply seqt_In. split; auto. eapply assoc_Some_In_uids; eauto. }
  2:{ rewrite Forall_forall in E3. specialize (E3 (u, cd)). cbn [snd] in E3. rewrite E3; [exists l; auto |].
      apply filter_In. split; auto. cbn [fst]. rewrite Td, String.eqb_refl. apply (mem_In uid_eqb uid_eqb_ok). auto. }
  destruct (in_split _ _ Id) as (q1 & q2 & Eld).
  assert (Hds := dseq_split lb ld (xtag cd) q1 u cd q2 Eld Td Hub).
  set (t := xtag cd) in *. rewrite Hds in E1, E2. rewrite map_app in E1. simpl in E1.
  assert (NB : NoDup (seqt t lb)) by (apply seqt_NoDup; apply IB).
  set (B1 := map fst (dseq t lb q1)). set (B2 := map fst (dseq t lb q2)).
  change (B1 ++ u :: B2 = seqt t lb) in E1.
  assert (Wl := proj1 HI). assert (Sl : seqt t l = B1 ++ u :: B2) by (rewrite E1; apply (proj2 (proj2 HI) t cs); auto).
  destruct (lastx B1) as [v |] eqn:EL.
  - destruct (lastx_Some _ _ EL) as (B0 & EB1).
    assert (EI : InsAttr cs (Some v) cd).
    { unfold B1 in EB1. destruct (dseq t lb q1) as [| x0 D _] eqn:Eq using rev_ind; [destruct B0; discriminate |].
      rewrite map_app in EB1. simpl in EB1. apply app_inj_tail in EB1. destruct EB1 as [_ EB1]. subst v.
      apply Chain_at_last in E2. exact E2. }
    assert (Hv1 : In v B1) by (rewrite EB1; apply in_or_app; right; left; auto).
    assert (Hvt : In v (seqt t lb)) by (rewrite <- E1; apply in_or_app; auto).
    assert (Hvt' := Hvt). apply seqt_In in Hvt'. destruct Hvt' as [Hvb Hvtag].
    assert (Hvl : In v (uids l)) by (apply (Inv_uids l v HI); auto).
    rewrite (proj1 EI).
    assert (RS : ref_sibling (sty cs) cd l = Ok v).
    { apply (ref_sibling_ok s l t cs cd v); auto.
      - eapply wfs_child; eauto.
      - apply (orderable_NamU s b lb v cs OB IB Hvb); auto. congruence.
      - intros w Hw Htw Hl. apply (orderable_Nam s b lb OB IB w cs); auto; [apply (Inv_uids l w HI); auto | congruence]. }
    rewrite RS. cbn [bind].
    assert (HuB : ~ In u B1).
    { rewrite <- E1 in NB. apply NoDup_remove_2 in NB. intro X. apply NB. apply in_or_app. auto. }
    assert (Nvu : v <> u) by (intro X; subst; contradiction).
    assert (Evu : uid_eqb v u = false) by (apply (eqb_neq uid_eqb uid_eqb_ok); auto). rewrite Evu.
    eexists. split; [reflexivity |]. set (F := ins_after_first (has_uid v) (u, cb) (del_uid u l)).
    assert (HF : Ins (u, cb) (del_uid u l) F) by apply ins_after_first_Ins.
    assert (Hn : ~ In u (uids (del_uid u l))).
    { apply assoc_None_uids. rewrite assoc_del, uid_eqb_refl. auto. }
    split; [| split].
    + apply (AddStepP.WellId_Ins s u cb (del_uid u l)); auto. destruct Wl as [W1 W2]. split; [apply filter_Forall; auto |]. rewrite uids_del. apply NoDup_filter. auto.
    + intro w. rewrite (assoc_Ins w (u, cb) _ F HF Hn). cbn [fst snd]. rewrite assoc_del. destruct (uid_eqb w u) eqn:E.
      * apply uid_eqb_ok in E. subst w. rewrite Eb. apply (Good_refl s u cb cs); auto.
      * apply (proj1 (proj2 HI)).
    + intros t' cs' S' U'. destruct (String.eqb t t') eqn:Et.
      * apply String.eqb_eq in Et. subst t'. unfold F. rewrite seqt_after; auto.
        -- cbn [fst]. rewrite seqt_del, Sl, <- E1, EB1, <- !app_assoc. cbn [app]. apply ins_after_first_move.
           rewrite <- E1, EB1, <- !app_assoc in NB. exact NB.
        -- rewrite uids_del. apply filter_In. split; auto. apply negb_true_iff. apply (eqb_neq uid_eqb uid_eqb_ok). auto.
      * apply String.eqb_neq in Et. rewrite (seqt_Ins_other t' (u, cb) _ F HF) by (cbn [fst]; congruence). rewrite seqt_del.
        rewrite filter_all; [apply (proj2 (proj2 HI) t' cs'); auto |]. intros w Hw. apply seqt_In in Hw. apply negb_true_iff.
        apply (eqb_neq uid_eqb uid_eqb_ok). intro X. subst w. destruct Hw. congruence.
  - assert (EI : get_attr insert_tag cd = Some "first").
    { apply lastx_None in EL. unfold B1 in EL. apply map_eq_nil in EL. rewrite EL in E2. apply Chain_at in E2. exact E2. }
    rewrite EI. apply lastx_None in EL. rewrite EL in Sl. cbn [app] in Sl.
    assert (Hin := Hul). apply assoc_Some_uids in Hin. destruct Hin as (e & He). apply (assoc_In uid_eqb uid_eqb_ok) in He.
    destruct (find (has_tag t) l) as [e0 |] eqn:Ef.
    2:{ exfalso. assert (X := find_none _ l Ef (u, e) He). rewrite (has_tag_uid s l t (u, e) Wl He) in X. simpl in X.
        rewrite Td, String.eqb_refl in X. discriminate. }
    destruct (first_tagged s t l e0 Wl Ef) as (r & Er). assert (E0 : fst e0 = u) by congruence.
    unfold has_uid. rewrite E0, uid_eqb_refl. exists l. auto.
Qed.

Lemma new_step : forall u cd l, In (u, cd) ld -> ~ In u (uids lb) ->
  add_new (node_add f) s l (u, cd) = if okc cd then Ok l else Err ConfigDeltaError.
Proof.
  intros u cd l Hd Hb. assert (Ed := proj2 (Index_assoc s _ ld u cd ID) Hd). assert (Td := Index_tag s _ ld u cd ID Hd).
  assert (Hcd : height cd <= f) by (assert (X := height_kid cd d (Index_kid s _ ld u cd ID Hd)); lia).
  assert (En := HE u). rewrite Ed, (assoc_not_In u lb Hb) in En.
  destruct (assoc uid_eqb u la) as [ca |] eqn:Ea; [| apply EntD_new in En; destruct En as (? & ? & X & _); discriminate].
  inversion En as [| | | | | | ? ? ? ? ? ? cs S1 O1 K1 D1 D2 | ? ? ? ? ? ? cs S1 N1 O1 K1 D1 | | |]; subst.
  - destruct O1 as [O1 | O1]; unfold add_new, okc, once; rewrite O1; auto. cbn [negb andb].
    replace (quiet cd) with true; auto. symmetry. rewrite quiet_eq. apply forallb_forall. intros k Hk. destruct (D1 k Hk) as [X1 [X2 _]].
    unfold okc, once, op_of. rewrite X2, quiet_eq, X1. reflexivity.
  - destruct (entry_ok s a la u ca Va IA Ea) as (cs' & H1 & H2 & H3 & H4 & H5). assert (cs' = cs) by congruence. subst cs'.
    destruct (gone_fails f (S dp) cs ca cd) as [Q1 Q2]; auto.
    { apply (wfs_child s (xtag ca)); auto. }
    { apply valid_validk. auto. }
    { apply (np_kids cs); auto. }
    { exact (@lk_merge AL dp s la lb ca K1). }
    unfold okc, once, add_new. rewrite O1, Q1. cbn [negb andb]. rewrite <- Td, H5, S1. cbn [bind]. rewrite (np_cont cs N1), Q2. reflexivity.
Qed.

Lemma peer_step : forall u cb cd l, assoc uid_eqb u lb = Some cb -> assoc uid_eqb u ld = Some cd -> Inv l ->
  if okc cd then exists l', add_peer (node_add f) s l (u, cb, cd) = Ok l' /\ Inv l'
  else add_peer (node_add f) s l (u, cb, cd) = Err ConfigDeltaError.
Proof.
  intros u cb cd l Eb Ed HI. destruct (entry_ok s b lb u cb Vb IB Eb) as (cs & Hs & Vc & Hu & Hk & Tb).
  assert (Id := Ed). apply (Index_assoc s _ ld u cd ID) in Id. assert (Td := Index_tag s _ ld u cd ID Id).
  assert (Hcd : height cd <= f) by (assert (X := height_kid cd d (Index_kid s _ ld u cd ID Id)); lia).
  assert (Wc := wfs_child s _ cs W Hs). destruct (orderable_kid s b cb cs OB Hk Hs) as [_ Oc].
  assert (Htt : xtag cd = xtag cb) by congruence.
  assert (En := HE u). rewrite Eb, Ed in En. apply EntD_both in En.
  2:{ intros ca Ea. destruct (entry_ok s a la u ca Va IA Ea) as (c1 & H1 & H2 & H3 & H4 & H5). exists c1. split; auto. split; auto. congruence. }
  2:{ intros c1 ks S1 T1 K1 D1. assert (c1 = cs) by congruence. subst c1. split.
      - inversion D1 as [? ? ? ? ? lk0 ? ? I1 _ _ _ _]; subst. exists lk0. exact I1.
      - intros k Hk0. cbn [xkids] in Hk0. destruct (key_copies_in (S dp) s cs cb cd ks u Wc Hs T1 Vc Hu K1 D1 k Hk0) as [X _].
        destruct (valid_inv cs cb Vc) as (_ & _ & Kc). apply Kc. auto. }
  destruct En as (cs' & Hs' & En). assert (cs' = cs) by congruence. subst cs'. clear Hs'.
  assert (Gr : Good s u cb cb) by (apply (Good_refl s u cb cs); auto).
  assert (MV : sty cs = TLeafList \/ sty cs = TList -> exists l', move_peer cs cd (u, cb) l = Ok l' /\ Inv l').
  { intro T. apply Inv_move; auto. }
  unfold add_peer. rewrite Hs. cbn [bind].
  destruct En as [[HB HOp] | (N & Hop & a' & Va' & HD)].
  - rewrite (Body_okc cd cb HB). assert (Hdel : del_attrib cd = cb) by (apply (Body_del cs); auto).
    assert (Hgone : np_container cs && (match xkids cb with [] => true | _ => false end) = false).
    { destruct (np_container cs) eqn:N; auto. simpl. assert (X := np_kids cs cb Vc N). destruct (xkids cb); auto. contradiction. }
    destruct (nonroot_data s _ cs cb W Hs Vc) as [L | L].
    + assert (G : op_of cd = OpCreate \/ op_of cd = OpReplace \/ op_of cd = OpMerge) by tauto.
      destruct (sty cs) eqn:Ht; try discriminate.
      * assert (E : set_text (xtext cd) cb = cb) by (destruct HB as [HB _]; rewrite HB; destruct cb; reflexivity).
        unfold once. rewrite E. destruct G as [G | [G | G]]; rewrite G; cbn [negb]; auto; (eexists; split; [reflexivity | apply (Inv_upd l u cb cb); auto]).
      * unfold once. destruct (MV (or_introl eq_refl)) as (l' & M1 & M2).
        destruct G as [G | [G | G]]; rewrite G; cbn [negb]; auto; exists l'; auto.
    + assert (G : op_of cd = OpCreate \/ op_of cd = OpReplace).
      { destruct HOp as [X | [X | [_ X]]]; auto. destruct (sty cs); discriminate. }
      destruct (sty cs) eqn:Ht; try discriminate.
      * unfold once. rewrite Hgone, Hdel. destruct G as [G | G]; rewrite G; cbn [negb]; auto. eexists; split; [reflexivity | apply (Inv_upd l u cb cb); auto].
      * unfold once. rewrite Hdel. destruct (MV (or_intror eq_refl)) as (l' & M1 & M2).
        destruct G as [G | G]; rewrite G; cbn [negb]; rewrite M1; cbn [bind]; auto. eexists; split; [reflexivity | apply (Inv_upd l' u cb cb); auto].
  - assert (IH := IHf (S dp) cs a' cb cd Hcd Wc Va' (valid_validk cs cb Vc) Oc HD).
    unfold okc, once. rewrite Hop. cbn [negb andb]. destruct (quiet cd).
    + destruct IH as (lc & lr & R1 & R2 & R3 & R4). set (e := set_kids (map snd lr) cb) in *.
      assert (Q : xtag e = xtag cb /\ xtext e = None /\ xattrs e = [] /\ Index cs (xkids e) lr).
      { assert (T : xtext cb = None) by (apply (valid_text cs cb Vc); intro X; rewrite X in N; discriminate).
        destruct (valid_inv cs cb Vc) as (A & _). unfold e. destruct cb. simpl in *. split; auto. split; auto. split; auto. apply WellId_Index. auto. }
      destruct Q as (Q1 & Q2 & Q3 & Q4).
      destruct (KS_good cs cb e lr lc N Vc R2 Q1 Q2 Q3 Q4 R4) as [G1 G2].
      assert (Ge : Good s u e cb).
      { exists cs. split; [congruence |]. split; auto. split; auto. split; auto. apply (Same_uid s e cb cs); auto. }
      destruct (sty cs) eqn:Ht; try discriminate.
      * rewrite R1. cbn [bind]. exists (upd_uid u e l). split; [| apply (Inv_upd l u e cb); auto].
        destruct (xkids e) eqn:Ek; auto. destruct (np_container cs) eqn:Np; auto. exfalso. apply (np_kids cs e G1 Np). auto.
      * destruct (MV (or_intror eq_refl)) as (l' & M1 & M2). rewrite M1. cbn [bind]. rewrite R1. cbn [bind].
        exists (upd_uid u e l'). split; auto. apply (Inv_upd l' u e cb); auto.
    + destruct (sty cs) eqn:Ht; try discriminate.
      * rewrite IH. reflexivity.
      * destruct (MV (or_intror eq_refl)) as (l' & M1 & M2). rewrite M1. cbn [bind]. rewrite IH. reflexivity.
Qed.

Lemma quiet_split : quiet d = forallb (fun p => okc (snd p)) (only_in ld lb) && forallb (fun p => okc (snd p)) (both_in lb ld).
Proof.
  rewrite quiet_eq. apply eq_true_iff_eq. rewrite andb_true_iff, !forallb_forall. split.
  - intro H. split.
    + intros [u cd] Hin. apply only_in_In in Hin. destruct Hin as [Hin _]. apply H. apply (Index_kid s _ ld u cd ID Hin).
    + intros [[u cb] cd] Hin. apply both_in_In in Hin. destruct Hin as [_ Hin]. apply (Index_assoc s _ ld u cd ID) in Hin. apply H. apply (Index_kid s _ ld u cd ID Hin).
  - intros [H1 H2] c Hc. destruct (Index_In s _ ld c ID Hc) as (u & Hu). destruct (assoc uid_eqb u lb) as [cb |] eqn:E.
    + apply (H2 (u, cb, c)). apply both_in_In. split; [apply (Index_assoc s _ lb u cb IB); auto | apply (Index_assoc s _ ld u c ID); auto].
    + apply (H1 (u, c)). apply only_in_In. split; auto. apply assoc_None_uids. auto.
Qed.

Lemma again_level : if quiet d
  then exists lr, node_add (S f) s b d = Ok (set_kids (map snd lr) b) /\ WellId s lr /\ KS s lr lb
  else node_add (S f) s b d = Err ConfigDeltaError.
Proof.
  cbn [node_add]. rewrite (group_ok s _ _ lb ld IB ID). cbn [bind in_1_not_2 in_2_not_1 in_1_and_2].
  rewrite (proj2 (index_ok s _ lb) IB). cbn [bind]. rewrite quiet_split.
  assert (L1 := foldM_try (add_new (node_add f) s) (fun l => l = lb) (fun p => okc (snd p)) ConfigDeltaError (only_in ld lb)).
  assert (H1 : forall (x : uid * xml) l, In x (only_in ld lb) -> l = lb ->
            if okc (snd x) then exists l', add_new (node_add f) s l x = Ok l' /\ l' = lb else add_new (node_add f) s l x = Err ConfigDeltaError).
  { intros [u cd] l Hin El. subst l. apply only_in_In in Hin. destruct Hin as [I1 I2]. rewrite (new_step u cd lb I1 I2). cbn [snd]. destruct (okc cd); eauto. }
  specialize (L1 H1 lb eq_refl). destruct (forallb (fun p => okc (snd p)) (only_in ld lb)); cbn [andb].
  2:{ rewrite L1. reflexivity. }
  destruct L1 as (l1 & E1 & E2). subst l1. rewrite E1. cbn [bind].
  assert (L2 := foldM_try (add_peer (node_add f) s) Inv (fun p => okc (snd p)) ConfigDeltaError (both_in lb ld)).
  assert (H2 : forall (x : uid * xml * xml) l, In x (both_in lb ld) -> Inv l ->
            if okc (snd x) then exists l', add_peer (node_add f) s l x = Ok l' /\ Inv l' else add_peer (node_add f) s l x = Err ConfigDeltaError).
  { intros [[u cb] cd] l Hin Hl. apply both_in_In in Hin. destruct Hin as [I1 I2]. apply (Index_assoc s _ lb u cb IB) in I1. apply (peer_step u cb cd l I1 I2 Hl). }
  specialize (L2 H2 lb Inv_init). destruct (forallb (fun p => okc (snd p)) (both_in lb ld)).
  - destruct L2 as (l2 & E3 & E4). rewrite E3. cbn [bind]. exists l2. split; auto.
  - rewrite L2. reflexivity.
Qed.
End Level.

Theorem again_ok : forall f, Again f.
Proof.
  intro f. induction f as [| f IH]; intros n s a b d Hh W Va Vb OB HI.
  - exfalso. destruct d. simpl in Hh. lia.
  - inversion HI as [? ? ? ? ? la lb ld IA IB ID HE HO]; subst.
    assert (L := again_level f n s a b d la lb ld IH Hh W Va Vb OB IA IB ID HE HO).
    destruct (quiet d); auto. destruct L as (lr & R1 & R2 & R3). exists lb, lr. auto.
Qed.

(** ** Options that call for no operation of this kind *)
Lemma Alike_sym : forall x y, Alike x y -> Alike y x.
Proof.
  intro x. induction x as [t tx a ks IH] using xml_ind'. intros y A. inversion A as [? ? A1 A2 A3 A4]; subst. apply alike; auto.
  cbn [xkids] in *. clear - IH A4. revert A4. generalize (xkids y). induction IH as [| k r Hk _ IHr]; intros ys A; inversion A; subst; constructor; auto.
Qed.
Lemma Alike_okc : forall x y, Alike x y -> okc x = okc y.
Proof.
  intro x. induction x as [t tx a ks IH] using xml_ind'. intros y A. inversion A as [? ? A1 A2 A3 A4]; subst.
  unfold okc. f_equal.
  - unfold once, op_of. unfold edit_attrs in A3. injection A3 as E1 E2 E3 E4. rewrite E1. reflexivity.
  - rewrite !quiet_eq. cbn [xkids] in *. clear - IH A4. revert A4. generalize (xkids y). induction IH as [| k r Hk _ IHr]; intros ys A; inversion A; subst; auto.
    cbn [forallb]. f_equal; auto.
Qed.

Lemma calm_op : forall cs cd, o_delete o = PDRemove -> o_create o <> PCCreate -> VocabP.Loc o cs (xattrs cd) -> once cd = false.
Proof.
  intros cs cd PD PC (p & i & E & OP & IP & _). unfold once, op_of, get_attr. rewrite E.
  destruct OP as [-> | (v & -> & AS)].
  - destruct IP as [-> | (_ & [-> | (v & ->)])]; auto. cbn [app]. destruct (sty cs); reflexivity.
  - cbn [app assoc]. replace (String.eqb operation_tag operation_tag) with true by (symmetry; apply String.eqb_refl).
    destruct AS as [[-> X] | [[-> _] | [[-> X] | [-> _]]]]; auto; congruence.
Qed.

Lemma calm_level : forall f n s a b d, height d <= f -> wfs s = true -> validk s a -> validk s b ->
  o_delete o = PDRemove -> o_create o <> PCCreate -> IsD n s (xkids a) (xkids b) (xkids d) -> VocabP.VA o s d -> quiet d = true.
Proof.
  intro f. induction f as [| f IH]; intros n s a b d Hh W Va Vb PD PC HI HV.
  - exfalso. destruct d. simpl in Hh. lia.
  - inversion HI as [? ? ? ? ? la lb ld IA IB ID HE HO]; subst. rewrite VocabP.VA_iff in HV.
    rewrite quiet_eq. apply forallb_forall. intros cd Hk. destruct (Index_In s _ ld cd ID Hk) as (u & Hd).
    assert (Ed := proj2 (Index_assoc s _ ld u cd ID) Hd). assert (Td := Index_tag s _ ld u cd ID Hd).
    assert (Hcd : height cd <= f) by (assert (X := height_kid cd d Hk); lia).
    assert (En := HE u). rewrite Ed in En.
    assert (ON : forall cs, schema_child s (xtag cd) = Ok cs -> once cd = false /\ VocabP.VA o cs cd).
    { intros cs S. destruct (HV cd Hk cs (schema_child_Defines s _ cs S)) as [H1 H2]. split; auto. apply (calm_op cs); auto. }
    destruct (assoc uid_eqb u lb) as [cb |] eqn:Eb.
    + destruct (entry_ok s b lb u cb Vb IB Eb) as (cs & Hs & Vc & Hu & Hkb & Tb). assert (Wc := wfs_child s _ cs W Hs).
      apply EntD_both in En.
      2:{ intros ca Ea. destruct (entry_ok s a la u ca Va IA Ea) as (c1 & H1 & H2 & H3 & H4 & H5). exists c1. split; auto. split; auto. congruence. }
      2:{ intros c1 ks S1 T1 K1 D1. assert (c1 = cs) by congruence. subst c1. split.
          - inversion D1 as [? ? ? ? ? lk0 ? ? I1 _ _ _ _]; subst. exists lk0. exact I1.
          - intros k Hk0. cbn [xkids] in Hk0. destruct (key_copies_in (S n) s cs cb cd ks u Wc Hs T1 Vc Hu K1 D1 k Hk0) as [X _].
            destruct (valid_inv cs cb Vc) as (_ & _ & Kc). apply Kc. auto. }
      destruct En as (cs' & Hs' & En). assert (cs' = cs) by congruence. subst cs'. clear Hs'.
      destruct (ON cs) as [O1 O2]; [congruence |].
      destruct En as [[HB _] | (N & Hop & a' & Va' & HD)]; [rewrite (Body_okc cd cb HB), O1; auto |].
      unfold okc. rewrite O1. cbn [negb andb]. apply (IH (S n) cs a' cb cd); auto. apply valid_validk. auto.
    + destruct (assoc uid_eqb u la) as [ca |] eqn:Ea; [| apply EntD_new in En; destruct En as (? & ? & X & _); discriminate].
      inversion En as [| | | | | | ? ? ? ? ? ? cs S1 O1 K1 D1 D2 | ? ? ? ? ? ? cs S1 N1 O1 K1 D1 | | |]; subst.
      * destruct (entry_ok s a la u ca Va IA Ea) as (cs' & H1 & H2 & H3 & H4 & H5). destruct (ON cs) as [Q1 Q2]; [congruence |].
        unfold okc. rewrite Q1. cbn [negb andb]. rewrite quiet_eq. apply forallb_forall. intros k Hk0. destruct (D1 k Hk0) as [X1 [X2 _]].
        unfold okc, once, op_of. rewrite X2, quiet_eq, X1. reflexivity.
      * destruct K1 as [K1 _]. specialize (K1 PD). discriminate.
Qed.

Lemma calm_quiet : forall s a b d, wfs s = true -> valid s a = true -> valid s b = true ->
  o_delete o = PDRemove -> o_create o <> PCCreate -> nc_sub o s b a = Ok d -> quiet d = true.
Proof.
  intros s a b d W Va Vb PD PC H.
  destruct (sub_cases s a b d W (valid_validk s a Va) (valid_validk s b Vb) (proj1 (valid_inv s b Vb)) H) as [D | D].
  2:{ rewrite quiet_eq. induction D as [| x y l l' B D IH]; auto. cbn [forallb]. rewrite (Bare_quiet x y B). auto. }
  assert (Ca : VocabP.clean a) by (apply (EditPropsP.valid_attrs a s); auto). assert (Cb : VocabP.clean b) by (apply (EditPropsP.valid_attrs b s); auto).
  assert (FIN : forall d1, Forall2 Alike (xkids d1) (xkids d) -> VocabP.VA o s d1 -> quiet d = true).
  { intros d1 A V. assert (A' : Forall2 Alike (xkids d) (xkids d1)) by (clear - A; induction A; constructor; auto using Alike_sym).
    assert (D1 := proj1 Alike_IsD _ _ _ _ _ D _ A').
    assert (Q := calm_level (height d1) 0 s a b d1 (le_n _) W (valid_validk s a Va) (valid_validk s b Vb) PD PC D1 V).
    rewrite quiet_eq in *. rewrite <- Q. clear - A. induction A as [| x y l l' H A IH]; auto. cbn [forallb]. rewrite (Alike_okc x y H), IH. auto. }
  assert (AR : forall l : list xml, Forall2 Alike l l).
  { intro l. induction l as [| x l IH]; constructor; auto. clear. induction x as [t tx a0 ks IH] using xml_ind'. apply alike; auto. cbn [xkids]. induction IH; constructor; auto. }
  assert (NS : forall d1, (let! p := node_sub (height b) o s 0 b a in Ok (fst p)) = Ok d1 -> VocabP.VA o s d1).
  { intros d1 X. apply bind_ok in X. destruct X as (r & X1 & X2). destruct (VocabP.node_sub_VA o _ _ _ _ _ _ X1 Cb Ca) as ((_ & _ & V) & _).
    assert (E : d1 = fst r) by congruence. rewrite E. auto. }
  unfold nc_sub in H. apply bind_ok in H. destruct H as (d1 & Hd & H). apply (FIN d1).
  - clear - H AR. destruct (o_type o); inversion H; subst; first [apply AR | rewrite mark_kids; apply mark_all].
  - destruct (o_type o) eqn:OT; auto. destruct (Z.eqb (o_depth o) 0); auto.
    destruct (VocabP.config_replace_VA o _ _ _ _ OT Hd Cb Ca) as (_ & _ & V). auto.
Qed.

(** ** A delta and its destination *)
Theorem again_cases : forall s a b d, wfs s = true -> sty s = TRoot -> IsConfig s a -> IsConfig s b ->
  orderable s b = true -> delta_nc s (Delta a b o) = Ok d ->
    (o_delete o = PDRemove -> o_create o <> PCCreate -> quiet d = true) /\
    if quiet d then Reaches s (config_add_delta s b (Delta a b o)) b
    else config_add_delta s b (Delta a b o) = Err ConfigDeltaError.
Proof.
  intros s a b d W R (Va & Ta & Na) (Vb & Tb & Nb) Ob D1. unfold delta_nc in D1. cbn [d_opts d_dst d_src] in D1.
  destruct (valid_inv s b Vb) as (Ab & _ & Kb).
  assert (D2 := sub_cases s a b d W (valid_validk s a Va) (valid_validk s b Vb) Ab D1). split.
  { intros PD PC. apply (calm_quiet s a b d); auto. }
  assert (D3 : exists a', validk s a' /\ IsD 0 s (xkids a') (xkids b) (xkids d)).
  { destruct D2 as [D2 | D2]; [exists a; split; auto; apply valid_validk; auto |].
    exists (Elem "" None [] []). split; [apply validk_nil |]. apply copy_IsD; auto. apply valid_validk. auto. }
  destruct D3 as (a' & Va' & HD).
  assert (A := again_ok (height d) 0 s a' b d (le_n _) W Va' (valid_validk s b Vb) Ob HD).
  unfold config_add_delta, delta_nc, config_add, config_new, nc_add. cbn [d_opts d_dst d_src]. rewrite D1. cbn [bind].
  destruct (quiet d); [| rewrite A; reflexivity].
  destruct A as (lb & lr & R1 & R2 & R3 & R4). rewrite R1. cbn [bind]. set (r := set_kids (map snd lr) b).
  assert (Txb : xtext b = None) by (apply (valid_text s b Vb); rewrite R; discriminate).
  assert (Ir : Index s (xkids r) lr).
  { destruct R3 as [X1 X2]. unfold r. destruct b. simpl. split; auto. }
  assert (Q : xtag r = xtag b /\ xtext r = None /\ xattrs r = []) by (unfold r; destruct b; simpl in *; auto).
  destruct Q as (Q1 & Q2 & Q3). destruct R4 as [HKs HOs].
  assert (Vr : valid s r = true).
  { apply (valid_root s r lr); auto.
    intros c Hc. destruct (Index_In s _ lr c Ir Hc) as (u & Hu). apply (Index_assoc s _ lr u c Ir) in Hu.
    specialize (HKs u). rewrite Hu in HKs. destruct (assoc uid_eqb u lb) as [cb |]; [| contradiction].
    destruct HKs as (cs & G1 & G2 & _). eauto. }
  assert (S : Same s r b).
  { apply (Same_intro s r b lr lb); auto.
    intro u. specialize (HKs u). destruct (assoc uid_eqb u lr), (assoc uid_eqb u lb); auto.
    destruct HKs as (cs & G1 & _ & _ & G2 & _). eauto. }
  assert (Tr' : trim s r = Ok r) by (apply (trimmed_same r s b); auto).
  rewrite (retrieve_valid s r R Vr) by congruence. rewrite Tr'. cbn [bind].
  exists r. split; auto. split; [split; auto; split; auto; congruence |].
  assert (SD : SameData s r b) by (apply Same_SameData; auto). split; auto.
  destruct (cmp_eq_iff s r b Vr Vb) as (e & E1 & E2); [congruence |]. rewrite E1. f_equal. apply E2. auto.
Qed.
End Again.

(** ** In the words of the specification *)
Lemma once_Once : forall n, once n = true <-> Once n.
Proof.
  intro n. unfold once, Once, op_of. change nc_operation with operation_tag. destruct (get_attr operation_tag n) as [v |]; [| split; [discriminate | intros [X | X]; discriminate]].
  split.
  - destruct (string_dec v "delete"); [subst; auto |]. destruct (string_dec v "create"); [subst; auto |].
    intro H. exfalso. revert H. repeat (match goal with |- (match (match ?x with _ => _ end) with _ => _ end) = true -> _ => destruct x; try discriminate; try congruence end).
  - intros [X | X]; injection X as X; subst; reflexivity.
Qed.

Lemma quiet_Below : forall x, quiet x = true <-> forall n, Below x n -> ~ Once n.
Proof.
  intro x. induction x as [t tx a ks IH] using xml_ind'. rewrite Forall_forall in IH. rewrite quiet_eq, forallb_forall. split.
  - intros H n B. inversion B as [? ? Hc | ? c ? Hc Bn]; subst.
    + specialize (H n Hc). apply andb_true_iff in H. destruct H as [H _]. intro O. apply once_Once in O. rewrite O in H. discriminate.
    + specialize (H c Hc). apply andb_true_iff in H. destruct H as [_ H]. apply (proj1 (IH c Hc) H); auto.
  - intros H c Hc. unfold okc. apply andb_true_iff. split.
    + destruct (once c) eqn:E; auto. exfalso. apply (H c (bl_kid _ c Hc)). apply once_Once. auto.
    + apply (IH c Hc). intros n B. apply H. apply (bl_down _ c); auto.
Qed.

Theorem again : forall o s a b d, wfs s = true -> sty s = TRoot -> IsConfig s a -> IsConfig s b -> orderable s b = true ->
  delta_nc s (Delta a b o) = Ok d -> (forall n, Below d n -> ~ Once n) -> Reaches s (config_add_delta s b (Delta a b o)) b.
Proof.
  intros o s a b d W R Ca Cb Ob D H. destruct (again_cases o s a b d W R Ca Cb Ob D) as [_ A]. rewrite (proj2 (quiet_Below d) H) in A. auto.
Qed.
Theorem refused : forall o s a b d n, wfs s = true -> sty s = TRoot -> IsConfig s a -> IsConfig s b -> orderable s b = true ->
  delta_nc s (Delta a b o) = Ok d -> Below d n -> Once n -> config_add_delta s b (Delta a b o) = Err ConfigDeltaError.
Proof.
  intros o s a b d n W R Ca Cb Ob D B O. destruct (again_cases o s a b d W R Ca Cb Ob D) as [_ A].
  destruct (quiet d) eqn:Q; auto. exfalso. apply (proj1 (quiet_Below d) Q n B O).
Qed.
Theorem again_calm : forall o s a b d, wfs s = true -> sty s = TRoot -> IsConfig s a -> IsConfig s b -> orderable s b = true ->
  o_delete o = PDRemove -> o_create o <> PCCreate ->
  delta_nc s (Delta a b o) = Ok d -> (forall n, Below d n -> ~ Once n) /\ Reaches s (config_add_delta s b (Delta a b o)) b.
Proof.
  intros o s a b d W R Ca Cb Ob PD PC D. destruct (again_cases o s a b d W R Ca Cb Ob D) as [Q _]. assert (X := proj1 (quiet_Below d) (Q PD PC)).
  split; auto. apply (again o s a b d); auto.
Qed.
