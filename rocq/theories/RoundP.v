(** From the two calculators to statements about configs: attributes that the receiver
    does not know, and the hypotheses of the round trip. *)
From Coq Require Import String Ascii List Bool Arith ZArith Lia Permutation.
From Verif Require Import Base BaseP XmlM CalcM CalcP NetconfM ListP DataSpec DataP DeltaSpec MoveSpec MoveP DeltaR NameP AddP AddStepP
  PlainP WorkP SubP.
Import ListNotations.
Open Scope string_scope.
Open Scope list_scope.

(** ** Trees that differ in attributes outside of the NETCONF and YANG namespaces *)
Definition edit_attrs (x : xml) : list (option string) :=
  [get_attr operation_tag x; get_attr insert_tag x; get_attr value_tag x; get_attr key_tag x].
Inductive Alike : xml -> xml -> Prop :=
| alike : forall x y, xtag x = xtag y -> xtext x = xtext y -> edit_attrs x = edit_attrs y ->
    Forall2 Alike (xkids x) (xkids y) -> Alike x y.

Lemma Alike_del : forall x y, Alike x y -> del_attrib x = del_attrib y.
Proof.
  intro x. induction x as [t tx a ks IH] using xml_ind'. intros y H. inversion H as [? ? H1 H2 H3 H4]; subst.
  destruct y as [t' tx' a' ks']. simpl in *. subst. f_equal.
  clear H H3. revert ks' H4. induction IH as [| c r Hc _ IHr]; intros ks' H4; inversion H4; subst; simpl; auto.
  f_equal; auto.
Qed.

Lemma Alike_tagged : forall k l1 l2, Forall2 Alike l1 l2 -> Forall2 Alike (kids_tagged k l1) (kids_tagged k l2).
Proof.
  intros k l1 l2 H. unfold kids_tagged. induction H as [| x y l1 l2 H HF IH]; simpl; auto.
  assert (E : xtag x = xtag y) by (inversion H; auto). rewrite E. destruct (String.eqb (xtag y) k); auto.
Qed.

Lemma Alike_find : forall k l1 l2, Forall2 Alike l1 l2 ->
  match find_kid k l1, find_kid k l2 with
  | Some x, Some y => Alike x y
  | None, None => True
  | _, _ => False
  end.
Proof.
  intros k l1 l2 H. unfold find_kid. induction H as [| x y l1 l2 H HF IH]; simpl; auto.
  assert (E : xtag x = xtag y) by (inversion H; auto). rewrite E. destruct (String.eqb (xtag y) k); auto.
Qed.

Lemma Alike_text : forall s x y, Alike x y -> parse_text s x = parse_text s y.
Proof. intros s x y H. inversion H as [? ? _ E _ _]; subst. unfold parse_text. rewrite E. reflexivity. Qed.

Lemma Alike_key_tuple : forall s x y, Alike x y -> key_tuple s x = key_tuple s y.
Proof.
  intros s x y H. unfold key_tuple. apply mapM_ext. intros k _. unfold find_one_child.
  assert (F : Forall2 Alike (kids_tagged k (xkids x)) (kids_tagged k (xkids y))).
  { apply Alike_tagged. inversion H; auto. }
  inversion F as [E1 E2 | c c' r r' F1 F2 E1 E2]; [reflexivity |].
  inversion F2; subst; simpl; auto. rewrite (Alike_text s c c'); auto.
Qed.

Lemma Alike_uid : forall s x y, Alike x y -> uid_of s x = uid_of s y.
Proof.
  intros s x y H. assert (T : xtag x = xtag y) by (inversion H; auto).
  unfold uid_of. rewrite T. destruct (schema_child s (xtag y)) as [cs |]; simpl; auto.
  rewrite (Alike_text cs x y H), (Alike_key_tuple cs x y H). reflexivity.
Qed.

Lemma Alike_attr : forall x y, Alike x y ->
  get_attr operation_tag x = get_attr operation_tag y /\ get_attr insert_tag x = get_attr insert_tag y /\
  get_attr value_tag x = get_attr value_tag y /\ get_attr key_tag x = get_attr key_tag y.
Proof. intros x y H. inversion H as [? ? _ _ E _]; subst. unfold edit_attrs in E. inversion E. auto. Qed.

Lemma Alike_op : forall x y, Alike x y -> op_of x = op_of y.
Proof. intros x y H. unfold op_of. destruct (Alike_attr x y H) as [E _]. rewrite E. reflexivity. Qed.

Lemma Alike_Bare : forall x y z, Bare x z -> Alike x y -> Bare y z.
Proof.
  intro x. induction x as [t tx a ks IH] using xml_ind'. intros y z B A.
  assert (E := Alike_attr _ _ A). destruct E as (E1 & E2 & E3 & E4).
  inversion B as [? ? B1 B2 (N1 & N2 & N3 & N4) B4]; subst. inversion A as [? ? A1 A2 A3 A4]; subst.
  apply bare; try congruence.
  - repeat split; congruence.
  - simpl in *. clear - IH B4 A4. revert B4 A4. generalize (xkids z) (xkids y). clear z y. 
    induction IH as [| c r Hc IHF IHr]; intros lz ly B4 A4; inversion B4; inversion A4; subst; constructor; eauto.
Qed.

Lemma Alike_Body : forall x y z, Body x z -> Alike x y -> Body y z.
Proof.
  intros x y z [B1 B2] A. inversion A as [? ? A1 A2 A3 A4]; subst. split; [congruence |].
  revert A4 B2. generalize (xkids x) (xkids y) (xkids z). intros lx ly lz A4. revert lz.
  induction A4; intros lz B2; inversion B2; subst; constructor; eauto using Alike_Bare.
Qed.

Definition oalike (x y : option xml) : Prop :=
  match x, y with Some a, Some b => Alike a b | None, None => True | _, _ => False end.

Lemma Alike_Index : forall s kd kd' ld, Forall2 Alike kd kd' -> Index s kd ld ->
  exists ld', Index s kd' ld' /\ Forall2 (fun e e' => fst e = fst e' /\ Alike (snd e) (snd e')) ld ld'.
Proof.
  intros s kd kd' ld HF (E & HU & ND). subst kd. revert kd' HF. induction ld as [| [u c] r IH]; intros kd' HF; simpl in *.
  - inversion HF; subst. exists []. split; [apply Index_nil | constructor].
  - inversion HF as [| ? c' ? r' A HF']; subst. inversion HU as [| ? ? U HU']; subst. inversion ND as [| ? ? N ND']; subst.
    destruct (IH HU' ND' r' HF') as (ld' & (I1 & I2 & I3) & F). exists ((u, c') :: ld'). split; [| constructor; auto].
    assert (EU : uids ld' = uids r).
    { clear - F. induction F as [| x y ? ? [H _] ? IHF]; simpl; auto. unfold uids in *. simpl. f_equal; auto. }
    split; [simpl; congruence |]. split.
    + constructor; auto. simpl in *. rewrite <- (Alike_uid s c c' A). auto.
    + simpl. constructor; auto. unfold uids in *. rewrite EU. auto.
Qed.

Lemma Alike_assoc : forall u ld ld', Forall2 (fun e e' : ent => fst e = fst e' /\ Alike (snd e) (snd e')) ld ld' ->
  oalike (assoc uid_eqb u ld) (assoc uid_eqb u ld').
Proof.
  intros u ld ld' H. induction H as [| [v c] [v' c'] l l' [E A] HF IH]; simpl in *; auto. subst v'.
  destruct (uid_eqb u v); auto.
Qed.

Lemma Alike_dseq : forall t lb ld ld', Forall2 (fun e e' : ent => fst e = fst e' /\ Alike (snd e) (snd e')) ld ld' ->
  Forall2 (fun e e' : ent => fst e = fst e' /\ Alike (snd e) (snd e')) (dseq t lb ld) (dseq t lb ld').
Proof.
  intros t lb ld ld' H. unfold dseq. induction H as [| [u c] [u' c'] l l' [E A] HF IH]; simpl in *; auto. subst u'.
  destruct (String.eqb (fst u) t && mem uid_eqb u (uids lb)); auto.
Qed.

Lemma Alike_fsts : forall ld ld' : list ent, Forall2 (fun e e' : ent => fst e = fst e' /\ Alike (snd e) (snd e')) ld ld' ->
  map fst ld' = map fst ld.
Proof. intros ld ld' H. induction H as [| [u c] [u' c'] l l' [E A] HF IH]; simpl in *; auto. congruence. Qed.

Lemma Alike_Chain : forall cs ld ld', Forall2 (fun e e' : ent => fst e = fst e' /\ Alike (snd e) (snd e')) ld ld' ->
  forall prev, Chain cs prev ld -> Chain cs prev ld'.
Proof.
  intros cs ld ld' H. induction H as [| [u c] [u' c'] l l' [E A] HF IH]; intros prev C; simpl in *; auto. subst u'.
  destruct C as [C1 C2]. split; auto.
  destruct (Alike_attr _ _ A) as (_ & E2 & E3 & E4). unfold InsAttr in *. rewrite <- E2, <- E3, <- E4. auto.
Qed.

Lemma Alike_Order : forall t cs la lb ld ld', Forall2 (fun e e' : ent => fst e = fst e' /\ Alike (snd e) (snd e')) ld ld' ->
  OrderOK t cs la lb ld -> OrderOK t cs la lb ld'.
Proof.
  intros t cs la lb ld ld' H HO. assert (D := Alike_dseq t lb ld ld' H). assert (E := Alike_fsts _ _ D).
  destruct HO as [H1 H2 | H1 H2 H3 | H1 H2].
  - apply ord_chain; [congruence |]. eapply Alike_Chain; eauto.
  - apply ord_plain; [auto | congruence |]. clear - D H3. revert H3.
    induction D as [| e e' l l' [_ A] HF IH]; intro H3; inversion H3; subst; constructor; auto.
    destruct (Alike_attr _ _ A) as (_ & E2 & _). congruence.
  - apply ord_same; auto. unfold seqt, uids in *. rewrite (Alike_fsts _ _ H). auto.
Qed.

Lemma Alike_copies : forall cs x y, Alike x y -> key_copies cs x = key_copies cs y.
Proof.
  intros cs x y A. unfold key_copies. apply mapM_ext. intros k _.
  assert (F := Alike_find k (xkids x) (xkids y)).
  assert (G : Forall2 Alike (xkids x) (xkids y)) by (inversion A; auto). specialize (F G).
  destruct (find_kid k (xkids x)), (find_kid k (xkids y)); try contradiction; auto.
  rewrite (Alike_del _ _ F). reflexivity.
Qed.

Lemma Alike_kids : forall x y, Alike x y -> Forall2 Alike (xkids x) (xkids y).
Proof. intros x y A. inversion A; auto. Qed.

Section Late.
Context {LK : late}.

Theorem Alike_IsD :
  (forall n s ka kb kd, IsD n s ka kb kd -> forall kd', Forall2 Alike kd kd' -> IsD n s ka kb kd') /\
  (forall n s la lb oa ob od, EntD n s la lb oa ob od -> forall od', oalike od od' -> EntD n s la lb oa ob od').
Proof.
  apply IsD_EntD_ind.
  - intros n s ka kb kd la lb ld Ia Ib Id HE IHE HO kd' A.
    destruct (Alike_Index s kd kd' ld A Id) as (ld' & Id' & F).
    apply (isd n s ka kb kd' la lb ld'); auto.
    + intro u. apply IHE. apply Alike_assoc. auto.
    + intros t cs Hs U. eapply Alike_Order; eauto.
  - intros n s la lb [cd |] A; [contradiction |]. apply e_none.
  - intros n s la lb ca cb cs H1 H2 [cd |] A; [contradiction |]. eapply e_same; eauto.
  - intros n s la lb ca HT H1 [cd |] A; [contradiction |]. apply e_supp; auto.
  - intros n s la lb cb cd cs Hs Hop HB [cd' |] A; [| contradiction]. simpl in A. apply (e_put n s la lb cb cd' cs); auto.
    + rewrite <- (Alike_op cd cd' A). auto.
    + eapply Alike_Body; eauto.
  - intros n s la lb cb cd cs Hs Ht Hop HI IH [cd' |] A; [| contradiction]. simpl in A.
    apply (e_new_cont n s la lb cb cd' cs); auto; [rewrite <- (Alike_op cd cd' A); auto | apply IH; apply Alike_kids; auto].
  - intros n s la lb cb cd cs ks Hs Ht Hop Hk HI IH [cd' |] A; [| contradiction]. simpl in A.
    apply (e_new_list n s la lb cb cd' cs ks); auto; [rewrite <- (Alike_op cd cd' A); auto | | apply IH; apply Alike_kids; auto].
    rewrite <- (Alike_copies cs cd cd' A). auto.
  - intros n s la lb ca cd cs Hs Hop Hlk Hk Hl [cd' |] A; [| contradiction]. simpl in A.
    assert (F := Alike_kids cd cd' A).
    assert (G : forall k, In k (xkids cd') -> exists k0, In k0 (xkids cd) /\ Alike k0 k).
    { intros k Hin. clear - F Hin. induction F as [| x y l l' A F IH]; [destruct Hin |]. destruct Hin as [E | Hin].
      - subst. exists x. split; auto. left. auto.
      - destruct (IH Hin) as (k0 & K1 & K2). exists k0. split; auto. right. auto. }
    apply (e_del n s la lb ca cd' cs); auto; [rewrite <- (Alike_op cd cd' A); auto | rewrite <- (Alike_op cd cd' A); auto | |]; intros k Hin;
      destruct (G k Hin) as (k0 & K1 & K2); [| assert (ET : xtag k = xtag k0) by (inversion K2; congruence); rewrite ET; apply Hl; auto].
    destruct (Hk k0 K1) as (K3 & N1 & N2 & N3 & N4).
    destruct (Alike_attr _ _ K2) as (E1 & E2 & E3 & E4). split.
    + inversion K2 as [? ? _ _ _ K5]; subst. rewrite K3 in K5. inversion K5; auto.
    + repeat split; congruence.
  - intros n s la lb ca cd cs Hs Hnp Hop Hlk HI IH [cd' |] A; [| contradiction]. simpl in A.
    apply (e_del_cont n s la lb ca cd' cs); auto; [rewrite <- (Alike_op cd cd' A); auto | apply IH; apply Alike_kids; auto].
  - intros n s la lb ca cb cd cs Hs Hl Hop HB [cd' |] A; [| contradiction]. simpl in A.
    apply (e_leaf n s la lb ca cb cd' cs); auto; [rewrite <- (Alike_op cd cd' A); auto | eapply Alike_Body; eauto].
  - intros n s la lb ca cb cd cs Hs Hl Hop HB HR [cd' |] A; [| contradiction]. simpl in A.
    apply (e_repl n s la lb ca cb cd' cs); auto; [rewrite <- (Alike_op cd cd' A); auto | eapply Alike_Body; eauto].
  - intros n s la lb ca cb cd cs Hs Hl Hop HD HI IH [cd' |] A; [| contradiction]. simpl in A.
    apply (e_deep n s la lb ca cb cd' cs); auto; [rewrite <- (Alike_op cd cd' A); auto | apply IH; apply Alike_kids; auto].
Qed.

(** ** minimum-replace *)
Lemma mark_kids : forall n x, xkids (mark_depth n x) = map (mark_depth (n - 1)) (xkids x).
Proof. intros n [t tx a ks]. cbn [mark_depth]. destruct (Z.eqb n 0); reflexivity. Qed.

Lemma mark_parts : forall n x, xtag (mark_depth n x) = xtag x /\ xtext (mark_depth n x) = xtext x.
Proof. intros n [t tx a ks]. cbn [mark_depth]. destruct (Z.eqb n 0); auto. Qed.

Lemma mark_Alike : forall x n, Alike x (mark_depth n x).
Proof.
  intro x. induction x as [t tx a ks IH] using xml_ind'. intro n.
  destruct (mark_parts n (Elem t tx a ks)) as [E1 E2]. apply alike; [congruence | congruence | |].
  - cbn [mark_depth]. destruct (Z.eqb n 0); [| reflexivity]. unfold edit_attrs. rewrite !get_set. reflexivity.
  - rewrite mark_kids. cbn [xkids]. generalize (n - 1)%Z. intro m. clear E1 E2. induction IH as [| c r Hc _ IHr]; cbn [map]; constructor; auto.
Qed.

Lemma mark_all : forall n l, Forall2 Alike l (map (mark_depth n) l).
Proof. intros n l. induction l; simpl; constructor; auto. apply mark_Alike. Qed.

(** ** The result of a subtraction *)

Lemma leaf_list_tags_In : forall s l ts t, leaf_list_tags s l = Ok ts -> In t ts ->
  exists c cs, In c l /\ xtag c = t /\ schema_child s t = Ok cs /\ sty cs = TLeafList.
Proof.
  intros s l ts t H Hin. unfold leaf_list_tags in H. apply bind_ok in H. destruct H as (tss & H & E). inversion E; subst ts.
  apply mapM_ok in H. clear E. induction H as [| c y l tss H HF IH]; [destruct Hin |].
  simpl in Hin. apply in_app_or in Hin. destruct Hin as [Hin | Hin].
  - apply bind_ok in H. destruct H as (cs & H1 & H2). inversion H2; subst y. destruct (sty cs) eqn:Et; try destruct Hin as [].
    + subst t. exists c, cs. split; [left; auto |]. auto.
    + contradiction.
  - destruct (IH Hin) as (c' & cs & H1 & H2). exists c', cs. split; [right; auto | tauto].
Qed.

Lemma all_true : forall l : list bool, (forall b, In b l -> b = true) -> forallb (fun b => b) l = true.
Proof. intros l H. apply forallb_forall. auto. Qed.

Lemma leaf_list_tags_iff : forall s l ts t, leaf_list_tags s l = Ok ts ->
  (In t ts <-> exists c cs, In c l /\ xtag c = t /\ schema_child s t = Ok cs /\ sty cs = TLeafList).
Proof.
  intros s l ts t H. unfold leaf_list_tags in H. apply bind_ok in H. destruct H as (tt & H & E). injection E as E. subst ts. apply mapM_ok in H.
  induction H as [| c y l ys H HF IH]; simpl.
  - split; [intros [] | intros (c & cs & [] & _)].
  - apply bind_ok in H. destruct H as (cs & Hs & H). injection H as <-. rewrite in_app_iff, IH. split.
    + intros [X | (c' & cs' & X & Y)]; [| exists c', cs'; split; [right; auto | auto]].
      destruct (sty cs) eqn:T; simpl in X; try contradiction. destruct X as [X | []]. subst. exists c, cs. split; [left; auto | auto].
    + intros (c' & cs' & [X | X] & Y & Z & T); [| right; exists c', cs'; auto]. subst c'. left. subst t. assert (cs' = cs) by congruence. subst. rewrite T. left. auto.
Qed.

Lemma leaf_lists_differ_iff : forall s k1 k2 b, leaf_lists_differ s k1 k2 = Ok b -> (b = true <-> exists t cs c1 c2,
  schema_child s t = Ok cs /\ sty cs = TLeafList /\ In c1 k1 /\ xtag c1 = t /\ In c2 k2 /\ xtag c2 = t /\ same_leaf_list s t k1 k2 = Ok false).
Proof.
  intros s k1 k2 b H. unfold leaf_lists_differ in H. apply bind_ok in H. destruct H as (t1 & H1 & H). apply bind_ok in H. destruct H as (t2 & H2 & H).
  apply bind_ok in H. destruct H as (bs & H3 & H). injection H as <-. apply mapM_ok in H3.
  assert (G : negb (forallb (fun b => b) bs) = true <-> exists t, In t (filter (fun t => mem String.eqb t t2) t1) /\ same_leaf_list s t k1 k2 = Ok false).
  { clear H1 H2. induction H3 as [| t b l bs H HF IH]; simpl.
    - split; [discriminate | intros (t & [] & _)].
    - destruct b; simpl.
      + rewrite IH. split; [intros (t' & X & Y); eauto | intros (t' & [X | X] & Y); [congruence | eauto]].
      + split; auto. intros _. eauto. }
  rewrite G. split.
  - intros (t & X & Y). apply filter_In in X. destruct X as (X & X2). apply (mem_In String.eqb string_eqb_ok) in X2.
    apply (leaf_list_tags_iff s k1 t1 t H1) in X. apply (leaf_list_tags_iff s k2 t2 t H2) in X2.
    destruct X as (c1 & cs & A1 & A2 & A3 & A4). destruct X2 as (c2 & _ & B1 & B2 & _). exists t, cs, c1, c2. auto 10.
  - intros (t & cs & c1 & c2 & A1 & A2 & A3 & A4 & A5 & A6 & A7). exists t. split; auto. apply filter_In. split.
    + apply (leaf_list_tags_iff s k1 t1 t H1). eauto 10.
    + apply (mem_In String.eqb string_eqb_ok). apply (leaf_list_tags_iff s k2 t2 t H2). eauto 10.
Qed.

Lemma differ_none : forall s x y, validk s x -> validk s y -> TopLeafListsAgree s y x ->
  leaf_lists_differ s (xkids x) (xkids y) = Ok false.
Proof.
  intros s x y Vx Vy H.
  destruct (leaf_lists_total s (xkids x) (xkids y)) as (e & E).
  { intros c Hc. destruct Vx as [_ V]. destruct (V c Hc) as (cs & Q & _). eauto. }
  { intros c Hc. destruct Vy as [_ V]. destruct (V c Hc) as (cs & Q & _). eauto. }
  rewrite E. f_equal. unfold leaf_lists_differ in E.
  apply bind_ok in E. destruct E as (t1 & E1 & E). apply bind_ok in E. destruct E as (t2 & E2 & E).
  apply bind_ok in E. destruct E as (bs & E3 & E). inversion E as [E4]. clear E. apply negb_false_iff.
  apply all_true. intros b Hb. apply mapM_ok in E3.
  assert (X : exists t, In t (filter (fun t => mem String.eqb t t2) t1) /\ same_leaf_list s t (xkids x) (xkids y) = Ok b).
  { clear - E3 Hb. induction E3 as [| t b' l l' H F IH]; [destruct Hb |]. destruct Hb as [Hb | Hb].
    - subst. exists t. split; auto. left. auto.
    - destruct (IH Hb) as (t' & H1 & H2). exists t'. split; auto. right. auto. }
  destruct X as (t & Ht & X). apply filter_In in Ht. destruct Ht as [Ht1 Ht2]. apply (mem_In String.eqb string_eqb_ok) in Ht2.
  destruct (leaf_list_tags_In s _ t1 t E1 Ht1) as (c1 & cs & C1 & C2 & C3 & C4).
  destruct (leaf_list_tags_In s _ t2 t E2 Ht2) as (c2 & cs' & D1 & D2 & D3 & D4).
  assert (cs' = cs) by congruence. subst cs'.
  unfold same_leaf_list in X. rewrite C3 in X. cbn [bind] in X.
  assert (P : forall l, map (parse_text cs) (kids_tagged t l) = map xtext (kids_tagged t l)).
  { intro l. apply map_ext. intro c. apply parse_text_id. congruence. }
  rewrite !P in X.
  assert (G := H t cs (schema_child_Defines s t cs C3) C4). unfold values_below in G. fold (kids_tagged t (xkids x)) in G.
  fold (kids_tagged t (xkids y)) in G.
  assert (N1 : map xtext (kids_tagged t (xkids y)) <> []).
  { intro Z. apply map_eq_nil in Z. assert (I : In c2 (kids_tagged t (xkids y))).
    { apply filter_In. split; auto. apply String.eqb_eq. auto. }
    rewrite Z in I. destruct I. }
  assert (N2 : map xtext (kids_tagged t (xkids x)) <> []).
  { intro Z. apply map_eq_nil in Z. assert (I : In c1 (kids_tagged t (xkids x))).
    { apply filter_In. split; auto. apply String.eqb_eq. auto. }
    rewrite Z in I. destruct I. }
  specialize (G N1 N2). destruct (s_user (si cs)).
  - inversion X as [X']. apply (list_eqb_ok ostr_eqb ostr_eqb_ok). auto.
  - inversion X as [X']. apply andb_true_iff. rewrite !forallb_forall. split; intros v Hv; apply (mem_In ostr_eqb ostr_eqb_ok); apply G; auto.
Qed.

Theorem nc_sub_late : forall o s a b, wfs s = true -> validk s a -> validk s b -> xattrs b = [] ->
  orderable s a = true -> orderable s b = true -> RootKept o s a b -> Lvls o 0 s (xkids a) (xkids b) ->
  exists d, nc_sub o s b a = Ok d /\ xtag d = xtag b /\ IsD 0 s (xkids a) (xkids b) (xkids d).
Proof.
  intros o s a b W Va Vb Ab Oa Ob RK HL.
  assert (P : RootKept o s a b -> ~ (o_type o = DReplace /\ o_depth o = 0%Z) -> exists d,
            (let! p := node_sub (height b) o s 0 b a in Ok (fst p)) = Ok d /\ xtag d = xtag b /\
              IsD 0 s (xkids a) (xkids b) (xkids d)).
  { intros R N. destruct (node_sub_ok (height b) o 0 s a b) as (d & a' & H & (T1 & T2 & D & _) & HM); auto; [discriminate |].
    simpl Z.of_nat in H.
    rewrite H. cbn [bind fst]. exists d. split; auto. split; auto.
    destruct D as [(_ & _ & D) | [_ D]]; auto. exfalso.
    assert (AD : xattrs d <> []).
    { intro X. assert (Y : get_attr operation_tag d = None) by (apply no_attrs; auto). subst d.
      rewrite op_set in Y. discriminate. }
    destruct (o_replace o) eqn:EO; [apply AD; auto |].
    destruct R as [R | [R | R]]; [congruence | contradiction |].
    assert (E := differ_none s b a Vb Va R).
    destruct (height b) as [| f] eqn:Hh; [destruct b; discriminate |]. cbn [node_sub] in H. rewrite EO, E in H. cbn [bind] in H.
    apply AD. clear - H Ab.
    apply bind_ok in H. destruct H as (g & _ & H). apply bind_ok in H. destruct H as (l1 & _ & H).
    apply bind_ok in H. destruct H as (l2 & _ & H). 
    do 5 (apply bind_ok in H; destruct H as (? & _ & H)). inversion H. destruct b. assumption. }
  unfold nc_sub. destruct (o_type o) eqn:Eo.
  - destruct P as (d & D1 & D2 & D3); auto; [intros [X _]; discriminate |].
    rewrite D1. cbn [bind]. exists d. auto.
  - destruct P as (d & D1 & D2 & D3); auto; [intros [X _]; discriminate |].
    rewrite D1. cbn [bind]. eexists. split; [reflexivity |]. destruct (mark_parts (o_depth o + 1) d) as [E _].
    split; [congruence |]. rewrite mark_kids. apply (proj1 Alike_IsD _ _ _ _ _ D3). apply mark_all.
  - destruct (Z.eqb (o_depth o) 0) eqn:Ez.
    + inversion HL as [n0 s0 ka kb la lb Ia Ib L1 L2 L0 LD L3]; subst n0 s0 ka kb.
      assert (RL : RLevel o 0) by (split; [exact Eo | apply Z.eqb_eq; exact Ez]).
      destruct (replace_level 0 s a b la lb W Va Vb Ia Ib False (or_introl (orderable_texted a s Oa)) (or_introl (orderable_texted b s Ob)) o (L2 RL))
        as [(d & D1 & D2 & D3 & D4 & D5 & _) | [_ []]].
      rewrite D1. cbn [bind]. exists d. auto.
    + destruct P as (d & D1 & D2 & D3); auto.
      { intros [_ X]. rewrite X in Ez. discriminate. }
      rewrite D1. cbn [bind]. exists d. auto.
Qed.

End Late.

(** ** Without a condition on deleted nodes *)
Local Existing Instance any_late.

Lemma Lvls_any : forall a o n s b, validk s a -> validk s b -> Lvls o n s (xkids a) (xkids b).
Proof.
  intro a. induction a as [t tx at_ ks IH] using xml_ind'. intros o n s b [(la & Ia) Va] [(lb & Ib) Vb].
  apply (lvls o n s _ _ la lb); auto; try (intros; exact I);
    [intros _; split; [intros u ca cs d _ _ _ _ _ |]; exact I | intros _; split; [intros u ca cs d _ _ _ _ _ | intros u ca cb cs _ _ _]; exact I |].
  intros u ca cb cs H1 H2 Hs. rewrite Forall_forall in IH.
  assert (Ca := Index_kid s _ la u ca Ia H1). assert (Cb := Index_kid s _ lb u cb Ib H2).
  destruct (Va ca Ca) as (cs1 & E1 & V1). destruct (Vb cb Cb) as (cs2 & E2 & V2).
  assert (T : xtag cb = xtag ca).
  { rewrite <- (Index_tag s _ la u ca Ia H1). symmetry. apply (Index_tag s _ lb u cb Ib H2). }
  assert (cs1 = cs) by congruence. assert (cs2 = cs) by congruence. subst.
  apply IH; auto using valid_validk.
Qed.

Theorem nc_sub_ok : forall o s a b, wfs s = true -> validk s a -> validk s b -> xattrs b = [] ->
  orderable s a = true -> orderable s b = true -> RootKept o s a b ->
  exists d, nc_sub o s b a = Ok d /\ xtag d = xtag b /\ IsD 0 s (xkids a) (xkids b) (xkids d).
Proof. intros o s a b W Va Vb Ab Oa Ob RK. apply nc_sub_late; auto. apply Lvls_any; auto. Qed.

(** ** Positions of schema nodes *)
Lemma flat_Locus : forall s0 k pos inc e, In e (flat_node pos inc k) -> Locus s0 pos k ->
  (inc = true -> exists i m q kk, pos = i :: m :: q /\ Locus s0 (m :: q) kk /\ sty kk = TCase) ->
  Locus s0 (ce_pos e) (ce_node e) /\
  (ce_case e = true -> exists i m q kk, ce_pos e = i :: m :: q /\ Locus s0 (m :: q) kk /\ sty kk = TCase).
Proof.
  intros s0 k. induction k as [i ks IH] using snode_ind'. intros pos inc e Hin HL HC.
  rewrite flat_node_eq in Hin. destruct (is_choice_or_case (sty (SNode i ks))) eqn:E.
  - apply flat_go_In in Hin. destruct Hin as (m & c & H1 & H2). simpl in H1.
    rewrite Forall_forall in IH. apply (IH c (nth_error_In _ _ H1) ((0 + m) :: pos) (stype_eqb (sty (SNode i ks)) TCase) e H2).
    + apply (loc_down s0 pos (SNode i ks)); auto. unfold is_choice_or_case in E. destruct (sty (SNode i ks)); auto; discriminate.
    + intro X. assert (T : sty (SNode i ks) = TCase) by (destruct (sty (SNode i ks)); auto; discriminate).
      destruct pos as [| p0 pos]; [inversion HL |]. exists (0 + m), p0, pos, (SNode i ks). auto.
  - destruct Hin as [Hin | []]. subst e. simpl. auto.
Qed.

Lemma entry_Locus : forall s t e, schema_entry s t = Ok e ->
  Locus s (ce_pos e) (ce_node e) /\
  (ce_case e = true -> exists i m q kk, ce_pos e = i :: m :: q /\ Locus s (m :: q) kk /\ sty kk = TCase).
Proof.
  intros s t e H. apply schema_entry_In in H. destruct H as [H _]. unfold flat in H. rewrite flat_list_go in H.
  apply flat_go_In in H. destruct H as (m & k & H1 & H2). apply (flat_Locus s k _ _ e H2).
  - apply loc_top. auto.
  - discriminate.
Qed.

(** ** The hypotheses of the round trip *)
Lemma At_snoc : forall s x u c cs s' n p, In c (xkids x) -> schema_child s (xtag c) = Ok cs -> uid_of s c = Ok u ->
  At cs c p s' n -> At s x (u :: p) s' n.
Proof.
  intros s x u c cs s' n p Hc Hs Hu HA. apply (at_down s x c cs u p s' n); auto.
  - apply schema_child_Defines. auto.
  - eapply Ident_uid; eauto.
Qed.

Lemma Everywhere_down : forall K s a b u ca cb cs, Everywhere K s a b ->
  In ca (xkids a) -> In cb (xkids b) -> schema_child s (xtag ca) = Ok cs -> schema_child s (xtag cb) = Ok cs ->
  uid_of s ca = Ok u -> uid_of s cb = Ok u -> Everywhere K cs ca cb.
Proof.
  intros K s a b u ca cb cs H H1 H2 H3 H4 H5 H6 p s' na nb A1 A2.
  apply (H (u :: p)); [apply (At_snoc s a u ca cs) | apply (At_snoc s b u cb cs)]; auto.
Qed.

Theorem Ok2_of : forall a s b, valid s a = true -> valid s b = true ->
  EndsInPlace s a b -> NoSwitch s a b -> Ok2 s (xkids a) (xkids b).
Proof.
  intro a. induction a as [t tx at_ ks IH] using xml_ind'. intros s b Va Vb HK HN.
  set (a := Elem t tx at_ ks) in *. change ks with (xkids a) in IH.
  destruct (valid_inv s a Va) as (_ & (la & Ia) & Ka). destruct (valid_inv s b Vb) as (_ & (lb & Ib) & Kb).
  apply (ok2 s (xkids a) (xkids b) la lb); auto.
  - intros n cs Hs U. apply is_user_seq_iff in U. destruct U as [U _].
    apply (HK [] s a b (at_here s a) (at_here s b) n cs (seqt n la) (seqt n lb)); auto.
    + apply schema_child_Defines. auto.
    + apply (seqt_Order s a la n Va Ia).
    + apply (seqt_Order s b lb n Vb Ib).
  - intros u ca Hin Hn (v & cb & ea & eb & S1 & S2 & S3 & S4 & S5 & S6 & S7 & S8).
    destruct (entry_Locus s _ ea S3) as [La Ca]. destruct (entry_Locus s _ eb S4) as [Lb Cb].
    destruct (Ca S5) as (i & m & q & ka & Pa & L1 & T1). destruct (Cb S6) as (j & n & q' & kb & Pb & L2 & T2).
    unfold choice_pos, case_pos in *. rewrite Pa, Pb in *. simpl in S7, S8. subst q'.
    apply S8. f_equal.
    apply (HN [] s a b (at_here s a) (at_here s b) ca cb (ce_node ea) (ce_node eb) i j m n q ka kb); auto.
    + apply (Index_kid s _ la u ca Ia Hin).
    + apply (Index_kid s _ lb v cb Ib S1).
    + apply schema_child_Defines. apply schema_child_entry. eauto.
    + apply schema_child_Defines. apply schema_child_entry. eauto.
  - intros u ca cb cs H1 H2 Hs. rewrite Forall_forall in IH.
    assert (Ca := Index_kid s _ la u ca Ia H1). assert (Cb := Index_kid s _ lb u cb Ib H2).
    assert (Ua := Index_uid s _ la u ca Ia H1). assert (Ub := Index_uid s _ lb u cb Ib H2).
    destruct (Ka ca Ca) as (cs1 & E1 & V1). destruct (Kb cb Cb) as (cs2 & E2 & V2).
    assert (T : xtag cb = xtag ca).
    { rewrite <- (Index_tag s _ la u ca Ia H1). symmetry. apply (Index_tag s _ lb u cb Ib H2). }
    assert (cs1 = cs) by congruence. assert (cs2 = cs) by congruence. subst.
    apply IH; auto.
    + apply (Everywhere_down _ s a b u ca cb cs HK); auto.
    + apply (Everywhere_down _ s a b u ca cb cs HN); auto.
Qed.

(** ** The round trip of the calculators *)
Lemma valid_root : forall s x l, sty s = TRoot -> xattrs x = [] -> xtext x = None -> Index s (xkids x) l ->
  (forall c, In c (xkids x) -> exists cs, schema_child s (xtag c) = Ok cs /\ valid cs c = true) -> valid s x = true.
Proof.
  intros s [t tx a ks] l Rt Ha Htx HI Hk. simpl in *. subst a tx. apply index_ok in HI. rewrite HI, Rt. simpl.
  apply forallb_forall. intros c Hc. destruct (Hk c Hc) as (cs & E & V). rewrite E. auto.
Qed.

Lemma round_trip_ok2 : forall s a b d, wfs s = true -> sty s = TRoot -> valid s a = true -> valid s b = true ->
  xtag a = xtag b -> orderable s a = true -> orderable s b = true -> Ok2 s (xkids a) (xkids b) ->
  IsD 0 s (xkids a) (xkids b) (xkids d) ->
  exists r, nc_add s a d = Ok r /\ xtag r = xtag a /\ valid s r = true /\ Same s r b.
Proof.
  intros s a b d W Rt Va Vb Et Oa Ob H2 HI.
  destruct (valid_inv s a Va) as (Aa & _ & Ka). destruct (valid_inv s b Vb) as (Ab & _ & Kb).
  assert (Ta : xtext a = None) by (apply (valid_text s a Va); rewrite Rt; discriminate).
  assert (Tb : xtext b = None) by (apply (valid_text s b Vb); rewrite Rt; discriminate).
  destruct (add_ok (height d) 0 s a b d) as (la & lb & lr & R1 & R0 & R2 & R3 & R5); auto using valid_validk.
  assert (R4 := KL_same s _ _ H2 0 la lb lr R0 R2 R3 R5).
  exists (set_kids (map snd lr) a). split; [exact R1 |].
  set (r := set_kids (map snd lr) a).
  assert (Ir : Index s (xkids r) lr).
  { destruct R3 as [X1 X2]. unfold r. destruct a. simpl. split; auto. }
  assert (Q : xtag r = xtag a /\ xtext r = None /\ xattrs r = []) by (unfold r; destruct a; simpl in *; auto).
  destruct Q as (Q1 & Q2 & Q3). split; auto.
  destruct R4 as [HKs HOs]. split.
  - apply (valid_root s r lr); auto.
    intros c Hc. destruct (Index_In s _ lr c Ir Hc) as (u & Hu). apply (Index_assoc s _ lr u c Ir) in Hu.
    specialize (HKs u). rewrite Hu in HKs. destruct (assoc uid_eqb u lb) as [cb |]; [| contradiction].
    destruct HKs as (cs & G1 & G2 & _). eauto.
  - apply (Same_intro s r b lr lb); auto; [congruence |].
    intro u. specialize (HKs u). destruct (assoc uid_eqb u lr), (assoc uid_eqb u lb); auto.
    destruct HKs as (cs & G1 & _ & _ & G2 & _). eauto.
Qed.

Theorem round_trip : forall o s a b, wfs s = true -> sty s = TRoot -> valid s a = true -> valid s b = true ->
  xtag a = xtag b -> orderable s a = true -> orderable s b = true ->
  EndsInPlace s a b -> NoSwitch s a b -> RootKept o s a b ->
  exists d r, nc_sub o s b a = Ok d /\ xtag d = xtag b /\ nc_add s a d = Ok r /\ xtag r = xtag a /\ valid s r = true /\ Same s r b.
Proof.
  intros o s a b W Rt Va Vb Et Oa Ob HK HN RK.
  destruct (valid_inv s b Vb) as (Ab & _ & Kb).
  destruct (nc_sub_ok o s a b) as (d & D1 & D2 & D3); auto using valid_validk.
  destruct (round_trip_ok2 s a b d) as (r & R); auto.
  { apply Ok2_of; auto. }
  exists d, r. tauto.
Qed.
