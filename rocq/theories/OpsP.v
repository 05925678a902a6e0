(** Proofs: what the nodes of a delta denote. *)
From Coq Require Import String Ascii List Bool Arith ZArith Lia Permutation.
From Verif Require Import Base BaseP XmlM CalcM CalcP NetconfM ConfigM ListP DataSpec DataP DeltaSpec DeltaR NameP AddP AddStepP PlainP WorkP SubP RoundP ConfigSpec EditSpec EditP EditSemP EditValP.
Import ListNotations.
Open Scope string_scope.
Open Scope list_scope.
Local Existing Instance any_late.

Lemma Present_down : forall s x l u c cs q, Index s (xkids x) l -> assoc uid_eqb u l = Some c -> schema_child s (xtag c) = Ok cs ->
  Present cs c q -> Present s x (u :: q).
Proof.
  intros s x l u c cs q I A S (s' & n & H). assert (C : Child s x u cs c) by (apply (Child_assoc s x l); auto). destruct C as (C1 & C2 & C3).
  exists s', n. apply (at_down s x c cs u q); auto.
Qed.
Lemma Present_up : forall s x l u q, Index s (xkids x) l -> Present s x (u :: q) ->
  exists c cs, assoc uid_eqb u l = Some c /\ schema_child s (xtag c) = Ok cs /\ Present cs c q.
Proof.
  intros s x l u q I (s' & n & H). inversion H as [| ? ? c cs ? ? ? ? B1 B2 B3 B4]; subst.
  assert (C : Child s x u cs c) by (split; auto). apply (Child_assoc s x l u cs c I) in C. destruct C as [C1 C2]. exists c, cs. split; auto. split; auto. exists s', n. auto.
Qed.
Lemma Absent_none : forall s x l u q, Index s (xkids x) l -> assoc uid_eqb u l = None -> ~ Present s x (u :: q).
Proof. intros s x l u q I A P. destruct (Present_up s x l u q I P) as (c & cs & H & _). congruence. Qed.

(** Copies without attributes *)
Lemma Bare_uid : forall s x y, Bare x y -> uid_of s x = uid_of s y.
Proof. intros s x y B. rewrite <- (uid_del s x), <- (uid_del s y), (Bare_del x y B). auto. Qed.
Lemma Bare_tag : forall x y, Bare x y -> xtag x = xtag y.
Proof. intros x y B. inversion B; auto. Qed.
Lemma Forall2_In_l : forall {A B} (R : A -> B -> Prop) l l' x, Forall2 R l l' -> In x l -> exists y, In y l' /\ R x y.
Proof. intros A B R l l' x F I. induction F as [| a b l l' H F IH]; [destruct I |]. destruct I as [I | I]; [subst; exists b; split; auto; left; auto | destruct (IH I) as (y & H1 & H2); exists y; split; auto; right; auto]. Qed.

Lemma Defines_ok : forall s x cs, (exists c, schema_child s x = Ok c) -> Defines s x cs -> schema_child s x = Ok cs.
Proof. intros s x cs (c & H) D. rewrite (Defines_schema_child s x c cs H D). auto. Qed.

Lemma Within_valid : forall s y s' n, Within s y s' n -> valid s y = true -> exists p, At s y p s' n.
Proof.
  intros s y s' n W. induction W as [s x | s x c cs s' n I D W IH]; intro V; [exists []; constructor |].
  destruct (valid_inv s x V) as (_ & (l & Ix) & K). destruct (K c I) as (cs' & S & Vc). assert (cs = cs') by (apply (Defines_schema_child s (xtag c)); auto). subst cs.
  destruct (IH Vc) as (p & A). destruct (Index_In s (xkids x) l c Ix I) as (u & Iu). assert (U := Index_uid s _ l u c Ix Iu). exists (u :: p). apply (at_down s x c cs' u p); auto. apply (Ident_uid s); auto.
Qed.

(** Paths with the nodes passed *)
Inductive Walk : snode -> xml -> list xml -> snode -> xml -> Prop :=
| wa_here : forall s x, Walk s x [] s x
| wa_down : forall s x c cs l s' n, In c (xkids x) -> Defines s (xtag c) cs -> Walk cs c l s' n -> Walk s x (c :: l) s' n.
Inductive AtW : snode -> xml -> list uid -> list xml -> snode -> xml -> Prop :=
| aw_here : forall s x, AtW s x [] [] s x
| aw_down : forall s x c cs u p l s' n, In c (xkids x) -> schema_child s (xtag c) = Ok cs -> Ident cs c u -> AtW cs c p l s' n -> AtW s x (u :: p) (c :: l) s' n.

Lemma AtW_At : forall s x p l s' n, AtW s x p l s' n -> At s x p s' n.
Proof. intros s x p l s' n A. induction A as [| s x c cs u p l s' n H1 H2 H3 A IH]; [constructor | apply (at_down s x c cs); auto; apply schema_child_Defines; auto]. Qed.
Lemma At_Walk : forall s x p s' n, At s x p s' n -> exists l, Walk s x l s' n /\ forall p', AtW s x p' l s' n -> p' = p.
Proof.
  intros s x p s' n A. induction A as [s x | s x c cs u p s' n H1 H2 H3 A (l & IH1 & IH2)].
  - exists []. split; [constructor |]. intros p' A. inversion A; auto.
  - exists (c :: l). split; [econstructor; eauto |]. intros p' B. inversion B as [| ? ? c' cs' u' p1 l1 ? ? B1 B2 B3 B4]; subst.
    assert (cs = cs') by (apply (Defines_schema_child s (xtag c)); auto). subst cs'. f_equal; [apply (Ident_fun cs c); auto | apply IH2; auto].
Qed.
Lemma Within_Walk : forall s x s' n, Within s x s' n -> exists l, Walk s x l s' n.
Proof. intros s x s' n W. induction W as [| s x c cs s' n H1 H2 W (l & IH)]; [eexists; constructor | exists (c :: l); econstructor; eauto]. Qed.

Lemma kids_Walk : forall s x y, Forall2 Bare (xkids x) (xkids y) -> validk s y -> forall l s' n, Walk s x l s' n -> exists p, AtW s x p l s' n /\ Present s y p /\ (p <> [] -> op_of n = OpMerge).
Proof.
  intros s x y F V w s' n W. revert y F V. induction W as [s x | s x c cs w s' n I D W IH]; intros y F V.
  - exists []. split; [constructor |]. split; [exists s, y; constructor | congruence].
  - destruct (Forall2_In_l Bare _ _ c F I) as (cy & Iy & B). destruct V as ((l & Iz) & K). destruct (K cy Iy) as (cs' & S & Vc).
    assert (ET := Bare_tag c cy B). rewrite <- ET in S. assert (cs = cs') by (apply (Defines_schema_child s (xtag c)); auto). subst cs.
    destruct (Index_In s (xkids y) l cy Iz Iy) as (u & Iu). assert (U := Index_uid s _ l u cy Iz Iu). assert (B' := B). inversion B' as [? ? _ _ NE F']; subst.
    destruct (IH cy F' (valid_validk cs' cy Vc)) as (p & A1 & A2 & A3). exists (u :: p). split; [| split].
    + apply (aw_down s x c cs' u p); auto. apply (Ident_uid s); auto. rewrite (Bare_uid s c cy B). auto.
    + apply (Present_down s y l u cy cs'); auto; [apply (Index_assoc s (xkids y) l); auto | rewrite <- ET; auto].
    + intros _. destruct p as [| v p]; [| apply A3; discriminate]. inversion A1; subst. destruct NE as [NE _]. unfold op_of. rewrite NE. auto.
Qed.

(** The first step of [p] is not a leaf of the destination. *)
Definition Off (s : snode) (lb : list ent) (p : list uid) : Prop :=
  forall u q cs, p = u :: q -> schema_child s (fst u) = Ok cs -> sty cs = TLeaf -> ~ In u (uids lb).
Definition Says (s : snode) (a b : xml) (lb : list ent) (p : list uid) (n : xml) : Prop :=
  (Present s b p \/ (Present s a p /\ Off s lb p)) /\
  (op_of n = OpDelete \/ op_of n = OpRemove -> Present s a p /\ ~ Present s b p /\ Off s lb p) /\
  (op_of n = OpCreate -> ~ Present s a p /\ Present s b p).

Lemma key_present : forall s c cs u k kc, schema_child s (xtag c) = Ok cs -> sty cs = TList -> uid_of s c = Ok u -> In k (s_keys (si cs)) ->
  schema_child cs k = Ok kc -> sty kc = TLeaf -> exists kn, In kn (xkids c) /\ xtag kn = k /\ Child cs c (k, KNone) kc kn.
Proof.
  intros s c cs u k kc S T U I Sk Tk. apply (uid_list s c cs S T) in U. destruct U as (ts & KT & _). apply key_tuple_Forall2 in KT.
  destruct (Forall2_In_l _ _ _ k KT I) as (t & _ & kn & E & _). assert (Q : In kn (kids_tagged k (xkids c))) by (rewrite E; left; auto).
  unfold kids_tagged in Q. apply filter_In in Q. destruct Q as [Q1 Q2]. apply String.eqb_eq in Q2. exists kn. split; auto. split; auto. split; auto. split; [rewrite Q2; apply schema_child_Defines; auto |].
  rewrite <- Q2. apply id_other; congruence.
Qed.

Theorem delta_nodes : forall s d w s' n, Walk s d w s' n -> forall dp a b la lb, wfs s = true -> Index s (xkids a) la -> Index s (xkids b) lb ->
  IsD dp s (xkids a) (xkids b) (xkids d) -> validk s b -> exists p, AtW s d p w s' n /\ (p = [] \/ Says s a b lb p n).
Proof.
  intros s d w s' n W. induction W as [s d | s d c cs w s' n I D W IH]; intros dp a b la lb WF Ia Ib HD V; [exists []; split; [constructor | auto] |].
  inversion HD as [? ? ? ? ? la' lb' ld Ia' Ib' Id HE _]; subst. assert (la' = la) by (apply (Index_fun s (xkids a)); auto). assert (lb' = lb) by (apply (Index_fun s (xkids b)); auto). subst la' lb'.
  destruct (Index_In s (xkids d) ld c Id I) as (u & Iu). assert (Ac : assoc uid_eqb u ld = Some c) by (apply (Index_assoc s (xkids d) ld); auto).
  assert (Uc := Index_uid s _ ld u c Id Iu). assert (Tc := Index_tag s _ ld u c Id Iu).
  destruct (uid_schema s c u Uc) as (cs1 & S0). assert (cs = cs1) by (apply (Defines_schema_child s (xtag c)); auto). subst cs. clear D.
  assert (WFc := wfs_child s (xtag c) cs1 WF S0). assert (IDc := Ident_uid s c cs1 u S0 Uc). assert (Dc := schema_child_Defines s (xtag c) cs1 S0).
  assert (TA : forall ca, assoc uid_eqb u la = Some ca -> xtag ca = xtag c /\ uid_of s ca = Ok u).
  { intros ca A. apply (Index_assoc s (xkids a) la u ca Ia) in A. assert (X := Index_tag s (xkids a) la u ca Ia A). split; [congruence | apply (Index_uid s (xkids a) la); auto]. }
  assert (TB : forall cb, assoc uid_eqb u lb = Some cb -> xtag cb = xtag c /\ valid cs1 cb = true).
  { intros cb A. apply (Index_assoc s (xkids b) lb u cb Ib) in A. assert (X := Index_tag s (xkids b) lb u cb Ib A). split; [congruence |].
    destruct V as (_ & VK). destruct (VK cb) as (cs' & S' & V'); [apply (Index_kid s _ lb u); auto |]. assert (cs' = cs1) by congruence. subst. auto. }
  specialize (HE u). rewrite Ac in HE.
  remember (assoc uid_eqb u la) as oa eqn:AA. remember (assoc uid_eqb u lb) as ob eqn:AB. symmetry in AA, AB.
  assert (DN : forall p, AtW cs1 c p w s' n -> AtW s d (u :: p) (c :: w) s' n) by (intros p A; apply (aw_down s d c cs1 u p); auto).
  assert (NOB : ob = None -> forall p, Off s lb (u :: p)).
  { intros E p v q cs E1 _ _ Iv. injection E1 as E1 E2. subst v. apply assoc_Some_uids in Iv. destruct Iv as (y & Iv). congruence. }
  assert (PB : forall cb p, ob = Some cb -> Present cs1 cb p -> Present s b (u :: p)).
  { intros cb p E P. destruct (TB cb E) as [T1 _]. apply (Present_down s b lb u cb cs1); auto; congruence. }
  assert (PA : forall ca p, oa = Some ca -> Present cs1 ca p -> Present s a (u :: p)).
  { intros ca p E P. destruct (TA ca E) as [T1 _]. apply (Present_down s a la u ca cs1); auto; congruence. }
  assert (NA : oa = None -> forall p, ~ Present s a (u :: p)) by (intros E p; apply (Absent_none s a la); auto; congruence).
  assert (NB : ob = None -> forall p, ~ Present s b (u :: p)) by (intros E p; apply (Absent_none s b lb); auto; congruence).
  assert (NPA : forall ca p, oa = Some ca -> ~ Present cs1 ca p -> ~ Present s a (u :: p)).
  { intros ca p E N P. destruct (Present_up s a la u p Ia P) as (c' & cs' & A & S' & P'). assert (c' = ca) by congruence. subst c'. destruct (TA ca E) as [T1 _].
    assert (cs' = cs1) by congruence. subst. contradiction. }
  assert (NPB : forall cb p, ob = Some cb -> ~ Present cs1 cb p -> ~ Present s b (u :: p)).
  { intros cb p E N P. destruct (Present_up s b lb u p Ib P) as (c' & cs' & A & S' & P'). assert (c' = cb) by congruence. subst c'. destruct (TB cb E) as [T1 _].
    assert (cs' = cs1) by congruence. subst. contradiction. }
  (* copies of a node of the destination *)
  assert (COPY : forall cb, ob = Some cb -> Body c cb -> (op_of c = OpCreate -> oa = None) -> op_of c <> OpDelete -> op_of c <> OpRemove ->
     exists p, AtW s d p (c :: w) s' n /\ (p = [] \/ Says s a b lb p n)).
  { intros cb E [_ B] OC N1 N2. destruct (TB cb E) as [T1 V1]. destruct (kids_Walk cs1 c cb B (valid_validk _ _ V1) w s' n W) as (p & A1 & A2 & A3).
    exists (u :: p). split; auto. right. split; [left; apply (PB cb); auto |].
    destruct p as [| v p]; [inversion A1; subst; split; [intros [O | O]; contradiction | intro O; split; [apply NA; auto | apply (PB cb); auto]] |].
    assert (O := A3 ltac:(discriminate)). split; [intros [O' | O']; congruence | intro O'; congruence]. }
  (* nodes that are merged *)
  assert (DEEP : forall xa xb la1 lb1, Index cs1 (xkids xa) la1 -> Index cs1 (xkids xb) lb1 -> IsD (S dp) cs1 (xkids xa) (xkids xb) (xkids c) -> validk cs1 xb ->
     op_of c = OpMerge -> exists p, AtW s d (u :: p) (c :: w) s' n /\ AtW cs1 c p w s' n /\
       (p = [] /\ op_of n = OpMerge \/ (p <> [] /\ Says cs1 xa xb lb1 p n))).
  { intros xa xb la1 lb1 I1 I2 H V1 O. destruct (IH (S dp) xa xb la1 lb1 WFc I1 I2 H V1) as (p & A & SA). exists p. split; auto. split; auto.
    destruct p as [| v p]; [left; split; auto; inversion A; subst; auto |]. right. split; [discriminate |]. destruct SA as [SA | SA]; [discriminate | auto]. }
  inversion HE as [| | | ? ? ? ? cb cd cs S0' OP BD | ? ? ? ? cb cd cs S0' T OP HD' | ? ? ? ? cb cd cs ks S0' T OP KC HD' | ? ? ? ? ca cd cs S0' OP _ KD KL | ? ? ? ? ca cd cs S0' NP OP _ HD'
     | ? ? ? ? ca cb cd cs S0' L OP BD | ? ? ? ? ca cb cd cs S0' L OP BD _ | ? ? ? ? ca cb cd cs S0' L OP _ HD']; subst.
  - (* put *) apply (COPY cb); auto; destruct OP as [O | [O | [O _]]]; congruence.
  - (* new container *) destruct (TB cb ltac:(congruence)) as [T1 V1]. assert (cs = cs1) by congruence. subst cs.
    destruct (valid_validk cs1 cb V1) as [(lb1 & I2) _].
    destruct (DEEP (Elem "" None [] []) cb [] lb1 (Index_nil cs1) I2 HD' (valid_validk _ _ V1) OP) as (p & A & A' & Q). exists (u :: p). split; auto. right.
    destruct Q as [[E O] | [NE Q]].
    + subst p. split; [left; apply (PB cb); auto; exists cs1, cb; constructor |]. split; [intros [X | X]; congruence | congruence].
    + assert (NP : ~ Present cs1 (Elem "" None [] []) p) by (destruct p as [| v p]; [contradiction | apply (Absent_none cs1 (Elem "" None [] []) []); [apply Index_nil | reflexivity]]).
      destruct Q as (Q1 & Q2 & Q3). split; [left; apply (PB cb); auto; destruct Q1 as [Q1 | [Q1 _]]; [auto | contradiction] |]. split.
      * intro O. destruct (Q2 O) as (X & _). contradiction.
      * intro O. destruct (Q3 O) as (_ & X). split; [apply NA; auto | apply (PB cb); auto].
  - (* new list entry *) destruct (TB cb ltac:(congruence)) as [T1 V1]. assert (cs = cs1) by congruence. subst cs.
    destruct (valid_validk cs1 cb V1) as [(lb1 & I2) _]. inversion HD' as [? ? ? ? ? la1 ? ? I1 _ _ _ _]; subst.
    destruct (DEEP (Elem "" None [] ks) cb la1 lb1 I1 I2 HD' (valid_validk _ _ V1) OP) as (p & A & A' & Q). exists (u :: p). split; auto. right.
    destruct Q as [[E O] | [NE Q]].
    + subst p. split; [left; apply (PB cb); auto; exists cs1, cb; constructor |]. split; [intros [X | X]; congruence | congruence].
    + assert (NP : ~ (Present cs1 (Elem "" None [] ks) p /\ Off cs1 lb1 p)).
      { intros [P O]. destruct p as [| v p]; [contradiction |]. destruct (Present_up cs1 (Elem "" None [] ks) la1 v p I1 P) as (y & ys & Y1 & Y2 & _).
        apply (Index_assoc cs1 ks la1 v y I1) in Y1. assert (Ty := Index_tag cs1 ks la1 v y I1 Y1). assert (Yk := Index_kid cs1 ks la1 v y I1 Y1).
        destruct (key_copies_In cs1 c ks y KC Yk) as (k & kn & K1 & K2 & K3). apply find_tagged in K2. destruct K2 as [_ K2]. assert (xtag y = k) by (subst y; destruct kn; auto).
        destruct (wfs_keys cs1 WFc T) as (_ & WK). destruct (WK k K1) as (_ & kc & Sk & Tk & _).
        assert (Ub : uid_of s cb = Ok u) by (apply (Index_uid s (xkids b) lb); auto; apply (Index_assoc s (xkids b) lb); auto).
        destruct (key_present s cb cs1 u k kc S0' T Ub K1 Sk Tk) as (kn' & _ & _ & C). apply (Child_assoc cs1 cb lb1 _ _ _ I2) in C. destruct C as [C _].
        assert (VE : v = (k, KNone)). { assert (Uy := Index_uid cs1 ks la1 v y I1 Y1). rewrite (uid_other cs1 y kc) in Uy by congruence. congruence. }
        apply (O v p kc eq_refl); [rewrite VE; auto | auto |]. apply assoc_Some_uids. rewrite VE. eauto. }
      destruct Q as (Q1 & Q2 & Q3). split; [left; apply (PB cb); auto; destruct Q1 as [Q1 | Q1]; [auto | contradiction] |]. split.
      * intro O. destruct (Q2 O) as (X1 & X2 & X3). exfalso. apply NP. auto.
      * intro O. destruct (Q3 O) as (_ & X). split; [apply NA; auto | apply (PB cb); auto].
  - (* deleted *) destruct (TA ca ltac:(congruence)) as [T1 U1]. assert (cs = cs1) by congruence. subst cs.
    assert (FIN : forall p, AtW cs1 c p w s' n -> Present cs1 ca p -> (op_of n = OpCreate -> False) -> exists p, AtW s d p (c :: w) s' n /\ (p = [] \/ Says s a b lb p n)).
    { intros p A P NC. exists (u :: p). split; auto. right. split; [right; split; [apply (PA ca); auto | apply NOB; auto] |]. split.
      - intros _. split; [apply (PA ca); auto |]. split; [apply NB; auto | apply NOB; auto].
      - intro O. destruct (NC O). }
    inversion W as [? ? | ? ? kk kc ? ? ? Ik Dk Wk]; subst.
    + apply (FIN []); [constructor | exists s', ca; constructor | intro O; destruct OP; congruence].
    + destruct (KD kk Ik) as [K0 NE]. destruct (KL kk Ik) as [T K1]. destruct (wfs_keys cs1 WFc T) as (_ & WK). destruct (WK (xtag kk) K1) as (_ & kc' & Sk & Tk & _).
      assert (kc = kc') by (apply (Defines_schema_child cs1 (xtag kk)); auto). subst kc'.
      inversion Wk as [? ? | ? ? k2 kc2 ? ? ? Ik2 _ _]; subst; [| rewrite K0 in Ik2; destruct Ik2].
      destruct (key_present s ca cs1 u (xtag n) s' S0' T U1 K1 Sk Tk) as (kn & N1 & N2 & C1 & C2 & C3).
      apply (FIN [(xtag n, KNone)]).
      * apply (aw_down cs1 c n s' _ []); auto; [apply id_other; congruence | constructor].
      * exists s', kn. apply (at_down cs1 ca kn s' _ []); auto. constructor.
      * intro O. destruct NE as [NE _]. unfold op_of in O. rewrite NE in O. discriminate.
  - (* deleted container *) destruct (TA ca ltac:(congruence)) as [T1 U1]. assert (cs = cs1) by congruence. subst cs.
    inversion HD' as [? ? ? ? ? la1 ? ? I1 _ _ _ _]; subst.
    destruct (DEEP ca (Elem "" None [] []) la1 [] I1 (Index_nil cs1) HD' (validk_nil _ _ _ _) OP) as (p & A & A' & Q). exists (u :: p). split; auto. right.
    destruct Q as [[E O] | [NE Q]].
    + subst p. split; [right; split; [apply (PA ca); auto; exists cs1, ca; constructor | apply NOB; auto] |]. split; [intros [X | X]; congruence | congruence].
    + assert (NPr : ~ Present cs1 (Elem "" None [] []) p) by (destruct p as [| v p]; [contradiction | apply (Absent_none cs1 (Elem "" None [] []) []); [apply Index_nil | reflexivity]]).
      destruct Q as (Q1 & Q2 & Q3). split; [right; split; [apply (PA ca); auto; destruct Q1 as [Q1 | [Q1 _]]; [contradiction | auto] | apply NOB; auto] |]. split.
      * intro O. destruct (Q2 O) as (X & _). split; [apply (PA ca); auto |]. split; [apply NB; auto | apply NOB; auto].
      * intro O. destruct (Q3 O) as (_ & X). contradiction.
  - (* leaf *) apply (COPY cb); auto; destruct OP as [O | O]; congruence.
  - (* replaced *) apply (COPY cb); auto; congruence.
  - (* merged *) destruct (TA ca ltac:(congruence)) as [T1 U1]. destruct (TB cb ltac:(congruence)) as [T2 V2]. assert (cs = cs1) by congruence. subst cs.
    inversion HD' as [? ? ? ? ? la1 lb1 ? I1 I2 _ _ _]; subst.
    destruct (DEEP ca cb la1 lb1 I1 I2 HD' (valid_validk _ _ V2) OP) as (p & A & A' & Q). exists (u :: p). split; auto. right.
    assert (OF : forall q, Off s lb (u :: q)).
    { intros q v q' cs E1 E2 E3 _. injection E1 as E1 E4. subst v. rewrite Tc in E2. assert (cs = cs1) by congruence. subst cs. rewrite E3 in L. discriminate. }
    destruct Q as [[E O] | [NE (Q1 & Q2 & Q3)]].
    + subst p. split; [left; apply (PB cb); auto; exists cs1, cb; constructor |]. split; [intros [X | X]; congruence | congruence].
    + split; [destruct Q1 as [Q1 | [Q1 _]]; [left; apply (PB cb); auto | right; split; [apply (PA ca); auto | auto]] |]. split.
      * intro O. destruct (Q2 O) as (X1 & X2 & _). split; [apply (PA ca); auto |]. split; [apply (NPB cb); auto | auto].
      * intro O. destruct (Q3 O) as (X1 & X2). split; [apply (NPA ca); auto | apply (PB cb); auto].
Qed.

(** ** For subtraction *)
Lemma Alike_Bare : forall x y z, Alike x y -> Bare x z -> Bare y z.
Proof.
  intro x. induction x as [t tx a ks IH] using xml_ind'. intros y z A B. inversion A as [? ? A1 A2 A3 A4]; subst. inversion B as [? ? B1 B2 B3 B4]; subst.
  apply bare; try congruence.
  - unfold no_edit in *. unfold edit_attrs in A3. injection A3 as E1 E2 E3 E4. rewrite <- E1, <- E2, <- E3, <- E4. auto.
  - cbn [xkids] in *. clear - IH A4 B4. revert B4. generalize (xkids z). revert A4. generalize (xkids y). induction IH as [| k r Hk _ IHr]; intros ys A zs B; inversion A; subst; inversion B; subst; constructor; auto.
Qed.
Lemma Alike_Bares : forall l l' m, Forall2 Alike l l' -> Forall2 Bare l m -> Forall2 Bare l' m.
Proof. intros l l' m F. revert m. induction F as [| x y l l' A F IH]; intros m B; inversion B; subst; constructor; auto. apply (Alike_Bare x); auto. Qed.

Theorem nc_sub_cases : forall B o s a b, wfs s = true -> validk s a -> validk s b -> xattrs b = [] ->
  texted s a = true \/ B -> texted s b = true \/ B ->
  RT B (nc_sub o s b a) (fun d => IsD 0 s (xkids a) (xkids b) (xkids d) \/ Forall2 Bare (xkids d) (xkids b)).
Proof.
  intros B o s a b W Va Vb Ab Oa Ob.
  assert (BR : Forall2 Bare (xkids b) (xkids b)).
  { destruct Vb as [_ K]. clear - K. induction (xkids b) as [| c r IH]; constructor; [destruct (K c (or_introl eq_refl)) as (cs & _ & V); apply (Bare_refl c cs V) | apply IH; intros; apply K; right; auto]. }
  assert (P : ~ RLevel o 0 -> RT B (let! p := node_sub (height b) o s 0 b a in Ok (fst p)) (fun d => IsD 0 s (xkids a) (xkids b) (xkids d) \/ Forall2 Bare (xkids d) (xkids b))).
  { intro NR. destruct (node_sub_rt B (height b) o 0 s a b (le_n _) W Va Vb Ab Oa Ob (Lvls_any a o 0 s b Va Vb) NR ltac:(intros; discriminate)) as [([d a'] & H & (T1 & T2 & D & _) & HM) | [H HB]]; cbn [Z.of_nat] in H; rewrite H; cbn [bind fst Z.of_nat] in *; [| right; auto].
    left. exists d. split; auto. simpl in D.
    destruct D as [(_ & _ & D) | [_ D]]; [left; auto |]. right. subst d. destruct (set_attr_parts operation_tag "replace" b) as (_ & _ & E). rewrite E. auto. }
  unfold nc_sub. destruct (o_type o) eqn:Eo.
  - destruct (P ltac:(intros [X _]; congruence)) as [(d & D1 & D2) | [D1 D2]]; rewrite D1; cbn [bind]; [left; exists d; auto | right; auto].
  - destruct (P ltac:(intros [X _]; congruence)) as [(d & D1 & D2) | [D1 D2]]; rewrite D1; cbn [bind]; [| right; auto]. left. eexists. split; [reflexivity |]. rewrite mark_kids. destruct D2 as [D2 | D2].
    + left. apply (proj1 Alike_IsD _ _ _ _ _ D2). apply mark_all.
    + right. apply (Alike_Bares (xkids d)); auto. apply mark_all.
  - destruct (Z.eqb (o_depth o) 0) eqn:Ez.
    + assert (HL := Lvls_any a o 0 s b Va Vb). inversion HL as [n0 s0 ka kb la lb Ia Ib L1 L2 L0 LD L3]; subst n0 s0 ka kb.
      assert (RL : RLevel o 0) by (split; [exact Eo | apply Z.eqb_eq; exact Ez]).
      destruct (replace_level 0 s a b la lb W Va Vb Ia Ib B Oa Ob o (L2 RL)) as [(d & D1 & D2 & D3 & D4 & D5 & _) | [D1 D2]];
        rewrite D1; cbn [bind]; [left; exists d; auto | right; auto].
    + destruct (P ltac:(intros [_ X]; apply Z.eqb_neq in Ez; exact (Ez X))) as [(d & D1 & D2) | [D1 D2]]; rewrite D1; cbn [bind]; [left; exists d; auto | right; auto].
Qed.

Lemma nodes_all : forall o s a b d, wfs s = true -> IsConfig s a -> IsConfig s b ->
  delta_nc s (Delta a b o) = Ok d -> forall w s' n, Walk s d w s' n -> exists p, AtW s d p w s' n /\
    (Present s a p \/ Present s b p) /\ (p <> [] -> (op_of n = OpDelete \/ op_of n = OpRemove -> Present s a p /\ ~ Present s b p) /\
      (op_of n = OpCreate -> ~ Present s a p /\ Present s b p)).
Proof.
  intros o s a b d W (Va & _) (Vb & _) HD. assert (Ka := valid_validk s a Va). assert (Kb := valid_validk s b Vb). destruct (valid_inv s b Vb) as (Ab & _).
  destruct (nc_sub_cases True o s a b W Ka Kb Ab (or_intror I) (or_intror I)) as [(d' & H & C) | [H _]];
    unfold delta_nc in HD; cbn [d_src d_dst d_opts] in HD; rewrite H in HD; [| discriminate].
  assert (d' = d) by congruence. subst d'. clear H HD. intros w s' n WK. destruct C as [C | C].
  - destruct Ka as [(la & Ia) _]. destruct Kb as [(lb & Ib) Kb]. destruct (delta_nodes s d w s' n WK 0 a b la lb W Ia Ib C (conj (ex_intro _ lb Ib) Kb)) as (p & A & S). exists p. split; auto.
    destruct S as [S | (S1 & S2 & S3)].
    + subst p. split; [left; exists s, a; constructor | congruence].
    + split; [destruct S1 as [S1 | [S1 _]]; auto |]. intros _. split; auto. intro O. destruct (S2 O) as (X & Y & _). auto.
  - destruct (kids_Walk s d b C Kb w s' n WK) as (p & A & P & O). exists p. split; auto. split; auto. intro NE. specialize (O NE). split; [intros [X | X]; congruence | intro X; congruence].
Qed.

Theorem delta_ops : forall o s a b d, wfs s = true -> IsConfig s a -> IsConfig s b ->
  delta_nc s (Delta a b o) = Ok d -> forall p s' n, At s d p s' n -> p <> [] ->
    (op_of n = OpDelete \/ op_of n = OpRemove -> Present s a p /\ ~ Present s b p) /\ (op_of n = OpCreate -> ~ Present s a p /\ Present s b p).
Proof.
  intros o s a b d W Ca Cb H p s' n A NE. assert (G := nodes_all o s a b d W Ca Cb H).
  destruct (At_Walk s d p s' n A) as (w & WK & U). destruct (G w s' n WK) as (p' & A' & _ & X). rewrite (U p' A') in X. apply X. auto.
Qed.

Theorem delta_keys : forall o s a b d, wfs s = true -> IsConfig s a -> IsConfig s b ->
  delta_nc s (Delta a b o) = Ok d -> forall s' n, Within s d s' n -> exists p, At s d p s' n /\ (Present s a p \/ Present s b p).
Proof.
  intros o s a b d W Ca Cb H s' n WI. assert (G := nodes_all o s a b d W Ca Cb H).
  destruct (Within_Walk s d s' n WI) as (w & WK). destruct (G w s' n WK) as (p & A & P & _). exists p. split; auto. apply (AtW_At s d p w). auto.
Qed.

Theorem delta_total : forall o s a b, wfs s = true -> IsConfig s a -> IsConfig s b ->
  (exists d, delta_nc s (Delta a b o) = Ok d) \/
  (delta_nc s (Delta a b o) = Err TypeError /\ (texted s a = false \/ texted s b = false)).
Proof.
  intros o s a b W (Va & _) (Vb & _). assert (Ka := valid_validk s a Va). assert (Kb := valid_validk s b Vb). destruct (valid_inv s b Vb) as (Ab & _).
  destruct (nc_sub_cases (texted s a = false \/ texted s b = false) o s a b W Ka Kb Ab) as [(d & H & _) | H].
  - destruct (texted s a); auto.
  - destruct (texted s b); auto.
  - left. exists d. exact H.
  - right. exact H.
Qed.
