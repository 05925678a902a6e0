(** The comparison of the calculators against the specification of DataSpec.v. *)
From Coq Require Import String Ascii List Bool Arith ZArith Lia Permutation.
From Verif Require Import Base BaseP XmlM CalcM CalcP DataSpec.
Import ListNotations.
Open Scope string_scope.
Open Scope list_scope.

(** ** Schema lookup *)
Section SnodeInd.
Variable P : snode -> Prop.
Hypothesis H : forall i ks, Forall P ks -> P (SNode i ks).
Fixpoint snode_ind' (x : snode) : P x :=
  match x with
  | SNode i ks =>
      H i ks ((fix go (l : list snode) : Forall P l :=
                      match l with
                      | [] => Forall_nil P
                      | c :: r => Forall_cons c (snode_ind' c) (go r)
                      end) ks)
  end.
End SnodeInd.

Definition flat_go (pos : list nat) (b : bool) :=
  fix go (n : nat) (l : list snode) : list centry :=
       match l with
       | [] => []
       | c :: r => flat_node (n :: pos) b c ++ go (S n) r
       end.

Lemma flat_node_eq : forall pos inc s, flat_node pos inc s =
  if is_choice_or_case (sty s) then flat_go pos (stype_eqb (sty s) TCase) 0 (skids s)
  else [CEntry pos inc s].
Proof. intros pos inc [i ks]. reflexivity. Qed.

Lemma flat_list_go : forall pos b l n, flat_list pos b n l = flat_go pos b n l.
Proof. intros pos b l. induction l as [| c r IH]; intro n; simpl; auto. rewrite IH. reflexivity. Qed.

Lemma flat_go_In : forall pos b l n e, In e (flat_go pos b n l) <->
  exists m k, nth_error l m = Some k /\ In e (flat_node ((n + m) :: pos) b k).
Proof.
  intros pos b l. induction l as [| c r IH]; intros n e; simpl.
  - split; [tauto |]. intros (m & k & H & _). destruct m; discriminate.
  - rewrite in_app_iff. rewrite IH. split.
    + intros [H | (m & k & H1 & H2)].
      * exists 0, c. split; auto. rewrite Nat.add_0_r. auto.
      * exists (S m), k. split; auto. replace (n + S m) with (S n + m) by lia. auto.
    + intros (m & k & H1 & H2). destruct m as [| m].
      * simpl in H1. inversion H1; subst. left. rewrite Nat.add_0_r in H2. auto.
      * right. exists m, k. split; auto. replace (S n + m) with (n + S m) by lia. auto.
Qed.

Lemma flat_node_through : forall s pos inc e, In e (flat_node pos inc s) -> Through s (ce_node e).
Proof.
  intro s. induction s as [i ks IH] using snode_ind'. intros pos inc e H.
  rewrite flat_node_eq in H. destruct (is_choice_or_case (sty (SNode i ks))) eqn:E.
  - apply flat_go_In in H. destruct H as (m & k & H1 & H2).
    apply nth_error_In in H1. rewrite Forall_forall in IH. simpl in H1. apply IH in H2; auto.
    destruct (sty (SNode i ks)) eqn:Et; try discriminate.
    + apply (th_choice _ k); auto.
    + apply (th_case _ k); auto.
  - destruct H as [H | []]. subst. simpl. apply th_here; intro X; rewrite X in E; discriminate.
Qed.

Lemma through_flat_node : forall s c, Through s c -> forall pos inc,
  exists e, In e (flat_node pos inc s) /\ ce_node e = c.
Proof.
  intros s c H. induction H as [s H1 H2 | s k c Ht Hin H IH | s k c Ht Hin H IH]; intros pos inc;
    rewrite flat_node_eq.
  - assert (E : is_choice_or_case (sty s) = false) by (destruct (sty s); auto; contradiction).
    rewrite E. exists (CEntry pos inc s). split; auto. left. auto.
  - rewrite Ht. simpl. apply In_nth_error in Hin. destruct Hin as (m & Hm).
    destruct (IH ((0 + m) :: pos) false) as (e & H1 & H2). exists e. split; auto.
    apply flat_go_In. exists m, k. auto.
  - rewrite Ht. simpl. apply In_nth_error in Hin. destruct Hin as (m & Hm).
    destruct (IH ((0 + m) :: pos) true) as (e & H1 & H2). exists e. split; auto.
    apply flat_go_In. exists m, k. auto.
Qed.

Lemma Through_data : forall s c, Through s c -> sty c <> TChoice /\ sty c <> TCase.
Proof. intros s c H. induction H; auto. Qed.

Lemma Defines_flat : forall s t cs, Defines s t cs <->
  exists e, In e (flat s) /\ ce_node e = cs /\ stag cs = t.
Proof.
  intros s t cs. unfold flat. rewrite flat_list_go. split.
  - intros (Ht & k & Hk & Hth). apply In_nth_error in Hk. destruct Hk as (m & Hm).
    destruct (through_flat_node k cs Hth [0 + m] false) as (e & H1 & H2).
    exists e. split; auto. apply flat_go_In. exists m, k. auto.
  - intros (e & He & E & Ht). split; auto. apply flat_go_In in He. destruct He as (m & k & H1 & H2).
    apply flat_node_through in H2. exists k. split; [apply nth_error_In in H1; auto | congruence].
Qed.

Lemma schema_entry_In : forall s t e, schema_entry s t = Ok e ->
  In e (flat s) /\ stag (ce_node e) = t.
Proof.
  intros s t e H. unfold schema_entry in H.
  destruct (filter (fun c => String.eqb (stag (ce_node c)) t) (flat s)) as [| a [| b r]] eqn:E;
    try discriminate.
  inversion H; subst.
  assert (G : In e (filter (fun c => String.eqb (stag (ce_node c)) t) (flat s))) by (rewrite E; left; auto).
  apply filter_In in G. rewrite String.eqb_eq in G. auto.
Qed.

Lemma schema_child_entry : forall s t cs, schema_child s t = Ok cs <->
  exists e, schema_entry s t = Ok e /\ ce_node e = cs.
Proof.
  intros s t cs. unfold schema_child. rewrite bind_ok. split; intros (e & H1 & H2); exists e; split; auto.
  - inversion H2; auto.
  - congruence.
Qed.

Lemma schema_child_Defines : forall s t cs, schema_child s t = Ok cs -> Defines s t cs.
Proof.
  intros s t cs H. apply schema_child_entry in H. destruct H as (e & H & E).
  apply schema_entry_In in H. apply Defines_flat. exists e. split; [tauto |]. split; [tauto |].
  destruct H. congruence.
Qed.

Lemma Defines_schema_child : forall s t cs cs', schema_child s t = Ok cs -> Defines s t cs' -> cs' = cs.
Proof.
  intros s t cs cs' H D. apply schema_child_entry in H. destruct H as (e & H & E).
  unfold schema_entry in H. apply Defines_flat in D. destruct D as (e' & H1 & H2 & H3).
  assert (G : In e' (filter (fun c => String.eqb (stag (ce_node c)) t) (flat s))).
  { apply filter_In. split; auto. apply String.eqb_eq. congruence. }
  destruct (filter (fun c => String.eqb (stag (ce_node c)) t) (flat s)) as [| a [| b r]]; try discriminate.
  destruct G as [G | []]. inversion H; subst. reflexivity.
Qed.

Lemma schema_child_tag : forall s t cs, schema_child s t = Ok cs -> stag cs = t.
Proof. intros s t cs H. apply schema_child_Defines in H. apply H. Qed.

Lemma schema_child_data : forall s t cs, schema_child s t = Ok cs -> sty cs <> TChoice /\ sty cs <> TCase.
Proof.
  intros s t cs H. apply schema_child_Defines in H. destruct H as (_ & k & _ & H).
  eapply Through_data; eauto.
Qed.

(** ** Identities *)
Lemma parse_text_id : forall s x, sty s <> TContainer -> parse_text s x = xtext x.
Proof. intros s x H. unfold parse_text. destruct (xtext x); auto. destruct (sty s); auto. contradiction. Qed.

Lemma filter_singleton : forall {A} (p : A -> bool) l c,
  filter p l = [c] -> In c l /\ p c = true /\ forall c', In c' l -> p c' = true -> c' = c.
Proof.
  intros A p l c H.
  assert (G : In c (filter p l)) by (rewrite H; left; auto). apply filter_In in G.
  split; [tauto |]. split; [tauto |]. intros c' H1 H2.
  assert (G' : In c' (filter p l)) by (apply filter_In; auto). rewrite H in G'.
  destruct G' as [G' | []]; auto.
Qed.

Lemma key_tuple_KeyTexts : forall cs x ts, sty cs = TList ->
  key_tuple cs x = Ok ts -> KeyTexts x (s_keys (si cs)) ts.
Proof.
  intros cs x ts Ht H. unfold key_tuple in H. apply mapM_ok in H.
  induction H as [| k t ks ts Hk HF IH]; [constructor |].
  apply bind_ok in Hk. destruct Hk as (c & Hc & Hk). unfold find_one_child, kids_tagged in Hc.
  destruct (filter (fun c0 => String.eqb (xtag c0) k) (xkids x)) as [| c0 [| d r]] eqn:E; try discriminate.
  inversion Hc; subst c0. inversion Hk; subst t.
  apply filter_singleton in E. destruct E as (E1 & E2 & E3). apply String.eqb_eq in E2.
  rewrite parse_text_id by congruence.
  apply (kt_cons x k c); auto. intros c' H1 H2. apply E3; auto. apply String.eqb_eq. auto.
Qed.

Lemma KeyTexts_fun : forall x ks t1 t2, KeyTexts x ks t1 -> KeyTexts x ks t2 -> t1 = t2.
Proof.
  intros x ks t1 t2 H. revert t2. induction H as [| k c ks ts Hin Ht Hu HK IH]; intros t2 H2;
    inversion H2; subst; auto.
  f_equal; auto. f_equal. symmetry. apply Hu; auto.
Qed.

Lemma Ident_uid : forall s x cs u, schema_child s (xtag x) = Ok cs -> uid_of s x = Ok u -> Ident cs x u.
Proof.
  intros s x cs u Hs H. unfold uid_of in H. rewrite Hs in H. simpl in H.
  destruct (sty cs) eqn:Et; try (inversion H; subst; apply id_other; congruence).
  - inversion H. rewrite parse_text_id by congruence. apply id_leaflist. auto.
  - apply bind_ok in H. destruct H as (ts & H1 & H2). inversion H2. apply id_list; auto.
    apply key_tuple_KeyTexts; auto.
Qed.

Lemma Ident_fun : forall cs x u v, Ident cs x u -> Ident cs x v -> u = v.
Proof.
  intros cs x u v H1 H2. destruct H1; inversion H2; subst; try congruence.
  f_equal. f_equal. eapply KeyTexts_fun; eauto.
Qed.

Lemma uid_Ident : forall s x cs u v, schema_child s (xtag x) = Ok cs ->
  uid_of s x = Ok v -> Ident cs x u -> v = u.
Proof. intros s x cs u v Hs Hv H. eapply Ident_fun; eauto. eapply Ident_uid; eauto. Qed.

(** ** Validity *)
Lemma valid_inv : forall s x, valid s x = true ->
  xattrs x = [] /\ (exists lx, Index s (xkids x) lx) /\
  (forall c, In c (xkids x) -> exists cs, schema_child s (xtag c) = Ok cs /\ valid cs c = true).
Proof.
  intros s [t tx a ks] H. simpl in H. rewrite !andb_true_iff in H. destruct H as [[[H1 H2] H3] H4].
  simpl. split; [destruct a; auto; discriminate |]. split.
  - destruct (index_kids s ks) as [lx |] eqn:E; [| discriminate]. exists lx. apply index_ok. auto.
  - intros c Hc. rewrite forallb_forall in H4. specialize (H4 c Hc).
    destruct (schema_child s (xtag c)) as [cs |]; [| discriminate]. exists cs. auto.
Qed.

Lemma valid_text : forall s x, valid s x = true -> sty s <> TLeaf -> sty s <> TLeafList -> xtext x = None.
Proof.
  intros s [t tx a ks] H N1 N2. simpl in *. rewrite !andb_true_iff in H. destruct H as [[[H1 H2] H3] H4].
  destruct (sty s); try discriminate; try contradiction; destruct tx; auto; discriminate.
Qed.

Lemma valid_same_text : forall s x y, valid s x = true -> valid s y = true ->
  exists b, same_text s x y = Ok b /\ (b = true <-> value_of s x = value_of s y).
Proof.
  intros s x y Hx Hy. unfold same_text, value_of.
  destruct (sty s) eqn:Et;
    try (rewrite (valid_text s x Hx), (valid_text s y Hy) by congruence;
         exists true; split; auto; tauto).
  - exists (ostr_eqb (xtext x) (xtext y)). split.
    + rewrite !parse_text_id by congruence. destruct (xtext x), (xtext y); reflexivity.
    + apply ostr_eqb_ok.
  - exists (ostr_eqb (xtext x) (xtext y)). split.
    + rewrite !parse_text_id by congruence. destruct (xtext x), (xtext y); reflexivity.
    + apply ostr_eqb_ok.
Qed.

Lemma valid_Ident : forall s x lx c cs u, valid s x = true -> Index s (xkids x) lx ->
  In c (xkids x) -> Defines s (xtag c) cs -> Ident cs c u ->
  schema_child s (xtag c) = Ok cs /\ valid cs c = true /\ In (u, c) lx.
Proof.
  intros s x lx c cs u Hv HI Hc HD Hu. destruct (valid_inv s x Hv) as (_ & _ & Hk).
  destruct (Hk c Hc) as (cs' & Hs & Hv'). assert (cs = cs') by (eapply Defines_schema_child; eauto). subst cs'.
  split; auto. split; auto. destruct (Index_In s _ lx c HI Hc) as (v & Hin).
  assert (uid_of s c = Ok v) by (eapply Index_uid; eauto).
  assert (v = u) by (eapply uid_Ident; eauto). subst. auto.
Qed.

Lemma valid_entry : forall s x lx u c, valid s x = true -> Index s (xkids x) lx -> In (u, c) lx ->
  exists cs, schema_child s (xtag c) = Ok cs /\ valid cs c = true /\ Ident cs c u /\ In c (xkids x)
    /\ Defines s (xtag c) cs.
Proof.
  intros s x lx u c Hv HI Hin. destruct (valid_inv s x Hv) as (_ & _ & Hk).
  assert (Hc : In c (xkids x)) by (eapply Index_kid; eauto).
  destruct (Hk c Hc) as (cs & Hs & Hv'). exists cs. split; auto. split; auto. split; [| split]; auto.
  - eapply Ident_uid; eauto. eapply Index_uid; eauto.
  - apply schema_child_Defines. auto.
Qed.

(** ** Totality of the comparison *)
Lemma node_le_total : forall x s y, valid s x = true -> valid s y = true ->
  exists b, node_le s x y = Ok b.
Proof.
  intro x. induction x as [t tx a ks IH] using xml_ind'. intros s y Hx Hy.
  rewrite node_le_eq. set (x := Elem t tx a ks) in *.
  destruct (String.eqb (xtag x) (xtag y)); simpl; eauto.
  destruct (valid_same_text s x y Hx Hy) as (b & Hst & _). rewrite Hst. simpl. destruct b; simpl; eauto.
  destruct (attrs_sub a (xattrs y)); simpl; eauto.
  destruct (valid_inv s x Hx) as (_ & (lx & Hlx) & Hkx).
  destruct (valid_inv s y Hy) as (_ & (ly & Hly) & Hky).
  change (xkids x) with ks in *.
  rewrite (proj2 (index_ok _ _ _) Hlx), (proj2 (index_ok _ _ _) Hly). simpl bind.
  assert (G : forall l done, (forall c, In c l -> In c ks) -> exists b, le_kids s ly done l = Ok b).
  { induction l as [| c r IHl]; intros done Hl; simpl; eauto.
    assert (Hc : In c ks) by (apply Hl; left; auto).
    destruct (Index_In s ks lx c Hlx Hc) as (u & Hin).
    rewrite (Index_uid s ks lx u c Hlx Hin). simpl.
    destruct (assoc uid_eqb u ly) as [c' |] eqn:Ea; eauto.
    destruct (Hkx c Hc) as (cs & Hs & Hv). rewrite Hs. simpl.
    destruct (negb _); eauto.
    apply (Index_assoc s _ ly u c' Hly) in Ea.
    assert (Htag : xtag c' = xtag c).
    { rewrite <- (Index_tag s _ ly u c' Hly Ea). apply (Index_tag s _ lx u c Hlx Hin). }
    assert (Hc' : In c' (xkids y)) by (eapply Index_kid; eauto).
    destruct (Hky c' Hc') as (cs' & Hs' & Hv'). rewrite Htag in Hs'.
    assert (cs' = cs) by congruence. subst cs'.
    rewrite Forall_forall in IH. destruct (IH c Hc cs c' Hv Hv') as (b & Hb).
    rewrite Hb. simpl. destruct b; eauto. fold (le_kids s ly). apply IHl. intros d Hd. apply Hl. right. auto. }
  apply G. auto.
Qed.

(** ** Comparison = containment *)
Lemma Subseq_subl : forall {A} (l1 l2 : list A), Subseq l1 l2 <-> subl l1 l2.
Proof.
  intros A l1 l2. split; intro H.
  - induction H; [apply subl_nil | apply subl_skip | apply subl_take]; auto.
  - induction H as [l | |].
    + induction l; constructor; auto.
    + apply ss_skip; auto.
    + apply ss_take; auto.
Qed.

Lemma Order_seqt : forall s x lx t us cs, valid s x = true -> Index s (xkids x) lx ->
  Defines s t cs -> Order s t (xkids x) us -> us = seqt t lx.
Proof.
  intros s x lx t us cs Hv HI HD.
  assert (G : forall l ks us, (forall e, In e l -> In e lx) -> map snd l = ks ->
            Order s t ks us -> us = seqt t l).
  { induction l as [| [u c] r IH]; intros ks us' Hl E HO; simpl in E; subst ks.
    - inversion HO. reflexivity.
    - assert (Hin : In (u, c) lx) by (apply Hl; left; auto).
      assert (Htag := Index_tag s _ lx u c HI Hin).
      destruct (valid_entry s x lx u c Hv HI Hin) as (cs' & Hs & Hv' & Hid & Hk & HD').
      unfold seqt. simpl. rewrite Htag.
      inversion HO; subst.
      + rewrite String.eqb_refl. f_equal.
        * match goal with Hd : Defines s (xtag c) ?c0 |- _ =>
            assert (c0 = cs') by (eapply Defines_schema_child; eauto) end.
          subst. eapply Ident_fun; eauto.
        * eapply IH; eauto. intros e He. apply Hl. right. auto.
      + destruct (String.eqb (xtag c) t) eqn:E; [apply String.eqb_eq in E; contradiction |].
        eapply IH; eauto. intros e He. apply Hl. right. auto. }
  intro HO. apply (G lx (xkids x)); auto. apply HI.
Qed.

Lemma seqt_Order : forall s x lx t, valid s x = true -> Index s (xkids x) lx ->
  Order s t (xkids x) (seqt t lx).
Proof.
  intros s x lx t Hv HI.
  assert (G : forall l, (forall e, In e l -> In e lx) -> Order s t (map snd l) (seqt t l)).
  { induction l as [| [u c] r IH]; intro Hl; simpl.
    - constructor.
    - assert (Hin : In (u, c) lx) by (apply Hl; left; auto).
      assert (Htag := Index_tag s _ lx u c HI Hin).
      destruct (valid_entry s x lx u c Hv HI Hin) as (cs' & Hs & Hv' & Hid & Hk & HD').
      unfold seqt. simpl. rewrite Htag. destruct (String.eqb (xtag c) t) eqn:E.
      + apply String.eqb_eq in E. subst t. apply (or_in s (xtag c) c cs'); auto.
        apply IH. intros e He. apply Hl. right. auto.
      + apply or_out; [intro X; subst; rewrite String.eqb_refl in E; discriminate |].
        apply IH. intros e He. apply Hl. right. auto. }
  destruct HI as (E & _). rewrite <- E. apply G. auto.
Qed.

Lemma attrs_nil_sub : forall l, attrs_sub [] l = true.
Proof. reflexivity. Qed.

Lemma is_user_seq_iff : forall cs, is_user_seq cs = true <->
  s_user (si cs) = true /\ (sty cs = TLeafList \/ sty cs = TList).
Proof.
  intro cs. unfold is_user_seq. rewrite andb_true_iff, orb_true_iff.
  destruct (sty cs); simpl; intuition congruence.
Qed.

Lemma le_At : forall p s x y s1 n, valid s x = true -> valid s y = true ->
  node_le s x y = Ok true -> At s x p s1 n ->
  exists n', At s y p s1 n' /\ valid s1 n = true /\ valid s1 n' = true /\ node_le s1 n n' = Ok true.
Proof.
  intro p. induction p as [| u p IH]; intros s x y s1 n Hx Hy Hle HA.
  - inversion HA; subst. exists y. split; [constructor |]. auto.
  - inversion HA as [| ? ? c cs ? ? ? ? Hc HD Hid HA']; subst.
    apply node_le_spec in Hle. destruct Hle as (lx & ly & Ht & Hst & Ha & Hlx & Hly & Hp & Ho).
    destruct (valid_Ident s x lx c cs u Hx Hlx Hc HD Hid) as (Hs & Hv & Hin).
    destruct (Hp u c Hin) as (c' & cs' & Ec' & Hs' & Hle'). simpl in *.
    assert (cs' = cs) by congruence. subst cs'.
    apply (Index_assoc s _ ly u c' Hly) in Ec'.
    destruct (valid_entry s y ly u c' Hy Hly Ec') as (cs' & Hs2 & Hv' & Hid' & Hk' & HD').
    assert (Htag : xtag c' = xtag c).
    { rewrite <- (Index_tag s _ ly u c' Hly Ec'). apply (Index_tag s _ lx u c Hlx Hin). }
    rewrite Htag in Hs2. assert (cs' = cs) by congruence. subst cs'.
    destruct (IH cs c c' s1 n Hv Hv' Hle' HA') as (n' & H1 & H2).
    exists n'. split; auto. apply (at_down s y c' cs); auto.
Qed.

Lemma At_valid : forall p s x s1 n, valid s x = true -> At s x p s1 n -> valid s1 n = true.
Proof.
  intro p. induction p as [| u p IH]; intros s x s1 n Hx HA; inversion HA as [| ? ? c cs ? ? ? ? Hc HD Hid HA']; subst; auto.
  destruct (valid_inv s x Hx) as (_ & (lx & Hlx) & _).
  destruct (valid_Ident s x lx c cs u Hx Hlx Hc HD Hid) as (Hs & Hv & Hin). eapply IH; eauto.
Qed.

Lemma At_fun : forall p s x s1 n1 s2 n2, valid s x = true ->
  At s x p s1 n1 -> At s x p s2 n2 -> s1 = s2 /\ n1 = n2.
Proof.
  intro p. induction p as [| u p IH]; intros s x s1 n1 s2 n2 Hx H1 H2.
  - inversion H1; inversion H2; subst. auto.
  - inversion H1 as [| ? ? c cs ? ? ? ? Hc HD Hid HA]; subst.
    inversion H2 as [| ? ? c' cs' ? ? ? ? Hc' HD' Hid' HA']; subst.
    destruct (valid_inv s x Hx) as (_ & (lx & Hlx) & _).
    destruct (valid_Ident s x lx c cs u Hx Hlx Hc HD Hid) as (Hs & Hv & Hin).
    destruct (valid_Ident s x lx c' cs' u Hx Hlx Hc' HD' Hid') as (Hs' & Hv' & Hin').
    assert (c = c') by (eapply Index_unique; eauto). subst c'.
    assert (cs = cs') by congruence. subst cs'. eapply IH; eauto.
Qed.

Theorem le_Contained : forall s x y, valid s x = true -> valid s y = true ->
  node_le s x y = Ok true -> Contained s x y.
Proof.
  intros s x y Hx Hy Hle. split.
  - intros p v (s1 & n & HA & Hv). destruct (le_At p s x y s1 n Hx Hy Hle HA) as (n' & HA' & V1 & V2 & L).
    exists s1, n'. split; auto. apply node_le_spec in L. destruct L as (lx & ly & _ & Hst & _).
    destruct (valid_same_text s1 n n' V1 V2) as (b & Hb & Hbv).
    assert (b = true) by congruence. subst b. rewrite <- Hv. symmetry. apply Hbv. auto.
  - intros p t us vs (s1 & n & cs & HA & HD & Hus & Hty & HO) (s2 & n2 & cs2 & HA2 & HD2 & _ & _ & HO2).
    destruct (le_At p s x y s1 n Hx Hy Hle HA) as (n' & HA' & V1 & V2 & L).
    destruct (At_fun p s y s1 n' s2 n2 Hy HA' HA2) as (E1 & E2). subst s2 n2.
    apply node_le_spec in L. destruct L as (lx & ly & _ & _ & _ & Hlx & Hly & Hp & Ho).
    rewrite (Order_seqt s1 n lx t us cs V1 Hlx HD HO). rewrite (Order_seqt s1 n' ly t vs cs2 V2 Hly HD2 HO2).
    apply Subseq_subl.
    destruct (seqt t lx) as [| u us'] eqn:Eus; [constructor |]. rewrite <- Eus.
    assert (Hu : In u (seqt t lx)) by (rewrite Eus; left; auto).
    apply seqt_In in Hu. destruct Hu as (Hu & Htag). unfold uids in Hu. apply in_map_iff in Hu.
    destruct Hu as ([v c] & E & Hin). simpl in E. subst v.
    destruct (valid_entry s1 n lx u c V1 Hlx Hin) as (cs' & Hs & _ & _ & _ & HD').
    assert (Hct : xtag c = t) by (rewrite <- Htag; symmetry; exact (Index_tag s1 _ lx u c Hlx Hin)).
    rewrite Hct in *.
    assert (cs = cs') by (eapply Defines_schema_child; eauto). subst cs'.
    eapply Ho; eauto. apply is_user_seq_iff. auto.
Qed.

Theorem Contained_le : forall x s y, valid s x = true -> valid s y = true -> xtag x = xtag y ->
  Contained s x y -> node_le s x y = Ok true.
Proof.
  intro x. induction x as [t tx a ks IH] using xml_ind'. intros s y Hx Hy Htag (HC & HO).
  set (x := Elem t tx a ks) in *.
  destruct (valid_inv s x Hx) as (Hax & (lx & Hlx) & Hkx).
  destruct (valid_inv s y Hy) as (Hay & (ly & Hly) & Hky).
  apply node_le_spec. exists lx, ly. split; auto. split.
  - destruct (valid_same_text s x y Hx Hy) as (b & Hst & Hb). rewrite Hst. f_equal. apply Hb.
    destruct (HC [] (value_of s x)) as (s1 & n & HA & Hv).
    { exists s, x. split; [constructor | auto]. }
    inversion HA; subst. congruence.
  - split; [rewrite Hax; apply attrs_nil_sub |]. split; auto. split; auto. split.
    + intros u c Hin. destruct (valid_entry s x lx u c Hx Hlx Hin) as (cs & Hs & Hv & Hid & Hk & HD).
      destruct (HC [u] (value_of cs c)) as (s1 & n & HA & Hval).
      { exists cs, c. split; auto. apply (at_down s x c cs); auto. constructor. }
      inversion HA as [| ? ? c' cs' ? ? ? ? Hc' HD' Hid' HA']; subst.
      destruct (valid_Ident s y ly c' cs' u Hy Hly Hc' HD' Hid') as (Hs' & Hv' & Hin').
      assert (Et : xtag c' = xtag c).
      { rewrite <- (Index_tag s _ ly u c' Hly Hin'). apply (Index_tag s _ lx u c Hlx Hin). }
      assert (cs' = cs) by (rewrite Et in Hs'; congruence). subst cs'.
      exists c', cs. simpl. split; [apply (Index_assoc s _ ly u c' Hly); auto |]. split; auto.
      rewrite Forall_forall in IH. apply (IH c Hk cs c' Hv Hv'); auto.
      split.
      * intros p v (s2 & m & HA2 & Hv2).
        destruct (HC (u :: p) v) as (s3 & m3 & HA3 & Hv3).
        { exists s2, m. split; auto. apply (at_down s x c cs); auto. }
        inversion HA3 as [| ? ? c3 cs3 ? ? ? ? Hc3 HD3 Hid3 HA3']; subst.
        destruct (valid_Ident s y ly c3 cs3 u Hy Hly Hc3 HD3 Hid3) as (Hs3 & _ & Hin3).
        assert (c3 = c') by (eapply Index_unique; eauto). subst c3.
        assert (cs3 = cs) by congruence. subst cs3. exists s3, m3. auto.
      * intros p t0 us vs (s2 & m & ds & HA2 & HD2 & Hu2 & Hy2 & HO2) (s3 & m3 & ds3 & HA3 & HD3 & Hu3 & Hy3 & HO3).
        apply (HO (u :: p) t0).
        -- exists s2, m, ds. split; [| auto]. apply (at_down s x c cs); auto.
        -- exists s3, m3, ds3. split; [| auto]. apply (at_down s y c' cs); auto.
    + intros t0 cs Hs Hus. apply is_user_seq_iff in Hus. destruct Hus as [Hus Hty].
      apply Subseq_subl. apply (HO [] t0).
      * exists s, x, cs. split; [constructor |]. split; [apply schema_child_Defines; auto |].
        split; auto. split; auto. apply seqt_Order; auto.
      * exists s, y, cs. split; [constructor |]. split; [apply schema_child_Defines; auto |].
        split; auto. split; auto. apply seqt_Order; auto.
Qed.

Theorem Contained_antisym : forall s x y,
  Contained s x y /\ Contained s y x <-> SameData s x y.
Proof.
  intros s x y. split.
  - intros [[A1 B1] [A2 B2]]. split.
    + intros p v. split; auto.
    + intros p t us vs H1 H2. apply subl_antisym; apply Subseq_subl; eauto.
  - intros [A B]. split; split.
    + intros p v. apply A.
    + intros p t us vs H1 H2. rewrite (B p t us vs H1 H2). apply Subseq_subl. apply subl_refl.
    + intros p v. apply A.
    + intros p t us vs H1 H2. rewrite (B p t vs us H2 H1). apply Subseq_subl. apply subl_refl.
Qed.

(** ** Order properties of [node_le] itself *)
Lemma node_le_refl : forall x s, valid s x = true -> node_le s x x = Ok true.
Proof.
  intros x s H. apply Contained_le; auto. split; auto.
  intros p t us vs (s1 & n & cs & HA & HD & _ & _ & HO) (s2 & n2 & cs2 & HA2 & HD2 & _ & _ & HO2).
  destruct (At_fun p s x s1 n s2 n2 H HA HA2) as (E1 & E2). subst.
  assert (V : valid s2 n2 = true) by (eapply At_valid; eauto).
  destruct (valid_inv s2 n2 V) as (_ & (lx & Hlx) & _).
  rewrite (Order_seqt s2 n2 lx t us cs V Hlx HD HO), (Order_seqt s2 n2 lx t vs cs2 V Hlx HD2 HO2).
  apply Subseq_subl. apply subl_refl.
Qed.

Lemma attrs_sub_trans : forall a b c, attrs_sub a b = true -> attrs_sub b c = true ->
  (forall p, In p a -> exists v, assoc String.eqb (fst p) a = Some v) -> attrs_sub a c = true.
Proof.
  intros a b c H1 H2 Ha. unfold attrs_sub in *. rewrite forallb_forall in *.
  intros p Hp. specialize (H1 p Hp). apply ostr_eqb_ok in H1. apply ostr_eqb_ok.
  destruct (Ha p Hp) as (v & Hv). rewrite Hv in H1. symmetry in H1.
  assert (Hin : In (fst p, v) b) by (apply (assoc_In String.eqb string_eqb_ok); auto).
  specialize (H2 _ Hin). apply ostr_eqb_ok in H2. simpl in H2. congruence.
Qed.

Lemma same_text_trans : forall s x y z, same_text s x y = Ok true -> same_text s y z = Ok true ->
  same_text s x z = Ok true.
Proof.
  intros s x y z H1 H2. unfold same_text in *.
  destruct (xtext x) eqn:E1, (xtext y) eqn:E2, (xtext z) eqn:E3; try discriminate; auto;
    destruct (sty s) eqn:Et; try discriminate; auto; f_equal;
    inversion H1 as [G1]; inversion H2 as [G2];
    try (apply ostr_eqb_ok in G1; apply ostr_eqb_ok in G2; apply ostr_eqb_ok; congruence);
    unfold parse_text in *; rewrite ?E1, ?E2, ?E3, ?Et in *; simpl in *; try discriminate; auto;
    try (apply String.eqb_eq in G1; apply String.eqb_eq in G2; subst; rewrite ?String.eqb_refl; auto).
Qed.

Lemma node_le_trans : forall x s y z,
  node_le s x y = Ok true -> node_le s y z = Ok true -> node_le s x z = Ok true.
Proof.
  intro x. induction x as [t tx a ks IH] using xml_ind'. intros s y z H1 H2.
  set (x := Elem t tx a ks) in *.
  apply node_le_spec in H1. destruct H1 as (lx & ly & T1 & S1 & A1 & X1 & Y1 & P1 & O1).
  apply node_le_spec in H2. destruct H2 as (ly' & lz & T2 & S2 & A2 & Y2 & Z2 & P2 & O2).
  assert (ly' = ly) by (eapply Index_fun; eauto). subst ly'.
  apply node_le_spec. exists lx, lz. split; [congruence |].
  split; [eapply same_text_trans; eauto |].
  split; [eapply attrs_sub_trans; eauto |].
  { intros [n v] Hp. simpl. apply (assoc_Some_In String.eqb string_eqb_ok). apply (in_map fst) in Hp. exact Hp. }
  split; auto. split; auto. split.
  - intros u c Hin. destruct (P1 u c Hin) as (c1 & cs & Ec1 & Hs & L1). simpl in *.
    assert (Hin1 := Ec1). apply (Index_assoc s _ ly u c1 Y1) in Hin1.
    destruct (P2 u c1 Hin1) as (c2 & cs2 & Ec2 & Hs2 & L2). simpl in *.
    assert (Et : xtag c1 = xtag c).
    { rewrite <- (Index_tag s _ ly u c1 Y1 Hin1). apply (Index_tag s _ lx u c X1 Hin). }
    rewrite Et in Hs2. assert (cs2 = cs) by congruence. subst cs2.
    exists c2, cs. simpl. split; auto. split; auto.
    rewrite Forall_forall in IH. apply (IH c) with (y := c1); auto. eapply Index_kid in Hin; eauto.
  - intros t0 cs Hs Hus. eapply subl_trans; eauto.
Qed.
