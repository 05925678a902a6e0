(** When a delta with a replaced root reaches its destination. *)
From Coq Require Import String Ascii List Bool Arith ZArith Lia Permutation.
From Verif Require Import Base BaseP XmlM CalcM CalcP NetconfM ConfigM ListP DataSpec DataP DeltaSpec DeltaR NameP AddP PlainP SubP AddStepP TrimSpec TrimP ConfigSpec TrimPropsP ConfigP EditSpec EditP EditSemP EditValP MergeP OrderEditP DeltaPropsP SumSpec SumP ForeignP JoinSpec MergeOrderP CompareP.
Import ListNotations.
Open Scope string_scope.
Open Scope list_scope.

(** ** Orders *)
Lemma UserOrder_fun : forall p s x t us vs, valid s x = true -> UserOrder s x p t us -> UserOrder s x p t vs -> us = vs.
Proof.
  induction p as [| u p IH]; intros s x t us vs V H1 H2; destruct (valid_inv s x V) as (_ & (l & I) & K).
  - apply (UserOrder_nil s x l t us I) in H1. apply (UserOrder_nil s x l t vs I) in H2. destruct H1, H2. congruence.
  - apply UserOrder_cons in H1. apply UserOrder_cons in H2. destruct H1 as (cs & c & C1 & H1). destruct H2 as (cs' & c' & C2 & H2).
    destruct (Child_fun s x l u cs c cs' c' I C1 C2). subst. apply (IH cs c t); auto.
    destruct C1 as (N & D & _). destruct (K c N) as (k & K1 & K2). assert (cs = k) by (apply (Defines_schema_child s (xtag c)); auto). subst k. auto.
Qed.

Lemma UserOrder_NoDup : forall p s x t us, valid s x = true -> UserOrder s x p t us -> NoDup us.
Proof.
  induction p as [| u p IH]; intros s x t us V H; destruct (valid_inv s x V) as (_ & (l & I) & K).
  - apply (UserOrder_nil s x l t us I) in H. destruct H as [-> _]. unfold seqt. apply NoDup_filter. apply I.
  - apply UserOrder_cons in H. destruct H as (cs & c & C & H). apply (IH cs c t us); auto.
    destruct C as (N & D & _). destruct (K c N) as (k & K1 & K2). assert (cs = k) by (apply (Defines_schema_child s (xtag c)); auto). subst k. auto.
Qed.

Lemma Present_dec : forall p s x, valid s x = true -> Present s x p \/ ~ Present s x p.
Proof.
  induction p as [| u p IH]; intros s x V; [left; apply Present_nil |]. destruct (valid_inv s x V) as (_ & (l & I) & K).
  rewrite Present_cons. destruct (assoc uid_eqb u l) as [c |] eqn:A.
  - assert (J := A). apply (Index_assoc s _ l u c I) in J. destruct (K c (Index_kid s _ l u c I J)) as (cs & K1 & K2).
    assert (C : Child s x u cs c) by (apply (Child_assoc s x l); auto). destruct (IH cs c K2) as [P | P]; [left; eauto | right].
    intros (cs' & c' & C' & P'). destruct (Child_fun s x l u cs c cs' c' I C C'). subst. auto.
  - right. intros (cs & c & C & _). apply (NoChild_assoc s x l u I) in A. apply (A cs c C).
Qed.

Lemma filter_none : forall {A} (p : A -> bool) l, (forall x, In x l -> p x = false) -> filter p l = [].
Proof. intros A p l H. induction l as [| x r IH]; auto. simpl. rewrite (H x) by (left; auto). apply IH. intros. apply H. right. auto. Qed.

Lemma joined_extends : forall us ws, NoDup (us ++ ws) -> joined us (us ++ ws) = us ++ ws.
Proof.
  intros us ws N. unfold joined. f_equal. rewrite filter_app. rewrite (filter_none _ us), (filter_all _ ws); auto.
  - intros v I. apply negb_true_iff. destruct (existsb (uid_eqb v) us) eqn:E; auto. apply existsb_exists in E. destruct E as (w & J & Q).
    apply uid_eqb_ok in Q. subst w. exfalso. clear - N I J. induction us as [| x r IH]; [destruct J |]. cbn [app] in N. inversion N as [| ? ? X Y]; subst.
    destruct J as [<- | J]; [apply X; apply in_or_app; auto | auto].
  - intros v I. apply negb_false_iff. apply existsb_exists. exists v. split; auto. apply uid_eqb_refl.
Qed.

(** ** Defaults in a merged tree *)
Lemma joined_none : forall us vs, (forall v, ~ In v vs) -> joined us vs = us.
Proof. intros us vs N. rewrite (none vs N). unfold joined. apply app_nil_r. Qed.

Lemma kid_trimmed : forall s x l c cs, trim s x = Ok x -> In c (xkids x) -> schema_child s (xtag c) = Ok cs -> sty cs <> TLeafList -> trimmed_kid s l c.
Proof.
  intros s x l c cs T I HS N. destruct (fix_trimmed s x T c I) as (k & E1 & E2 & E3). assert (k = cs) by congruence. subst k.
  exists cs. split; auto. split; auto. unfold trim_drops in *. destruct (sty cs); auto. contradiction.
Qed.

Theorem merge_untrimmed : forall r f s a b r', wfs s = true -> validk s a -> valid s b = true -> valid s r = true -> valid s r' = true ->
  node_add f s a b = Ok r -> trim s a = Ok a -> trim s b = Ok b -> trim s r = Ok r' -> Same s r' b -> trim s r = Ok r.
Proof.
  intro r. induction r as [t tx at_ ks IH] using xml_ind'. intros f s a b r' W Va Vb Vr Vr' H Ta Tb T SM.
  set (r := Elem t tx at_ ks) in *. change ks with (xkids r) in IH. rewrite Forall_forall in IH.
  assert (O := valid_edit_ok b s W Vb). destruct f as [| f]; [discriminate |].
  destruct (merge_step f s a b r W Va (valid_validk s b Vb) O H) as (la & lb & lr & IA & IB & IR & SQ & HA).
  destruct Va as (_ & Ka). destruct (valid_inv s b Vb) as (_ & _ & Kb). destruct (valid_inv s r Vr) as (_ & _ & Kr).
  destruct (valid_inv s r' Vr') as (_ & (lr' & IR') & Kr').
  assert (FA := fix_trimmed s a Ta). assert (FB := fix_trimmed s b Tb). destruct (edit_ok_inv s b O) as (_ & OK).
  apply trimmed_fix. intros c Hc. destruct (Kr c Hc) as (cs & Hs & Vc). assert (Wc := wfs_child s _ cs W Hs).
  destruct (Index_In s _ lr c IR Hc) as (u & Hin). assert (Uc := Index_uid s _ lr u c IR Hin). assert (Tc := Index_tag s _ lr u c IR Hin).
  assert (Hr := Hin). apply (Index_assoc s _ lr u c IR) in Hr. exists cs. split; auto.
  (* what is in the destination is not dropped *)
  assert (KEPT : forall w cb, assoc uid_eqb w lb = Some cb -> xtag cb = xtag c -> exists c0 cr, In c0 (xkids r) /\ trim cs c0 = Ok cr /\ valid cs cr = true /\ Same cs cr cb /\
            trim_drops cs (xkids r) cr = false /\ assoc uid_eqb w lr = Some c0).
  { intros w cb B TG. assert (Sr := Same_assoc s b r' lb lr' w cb (Same_sym _ _ _ SM) IB IR' B). destruct Sr as (cr & cs1 & R1 & R2 & R3).
    assert (cs1 = cs) by congruence. subst cs1. apply Same_sym in R3.
    apply (Index_assoc s _ lb w cb IB) in B. assert (Tcb := Index_tag s _ lb w cb IB B).
    apply (Index_assoc s _ lr' w cr IR') in R1. assert (Hcr := Index_kid s _ lr' w cr IR' R1).
    destruct (trim_back s r r' cr T Hcr) as (c0 & Hc0 & cs1 & Q1 & Q2 & Q3).
    assert (Tcr := Index_tag s _ lr' w cr IR' R1). destruct (trim_parts _ _ _ Q2) as (P1 & _).
    assert (cs1 = cs) by congruence. subst cs1.
    exists c0, cr. repeat (split; auto).
    - destruct (Kr' cr Hcr) as (k & K1 & K2). assert (k = cs) by congruence. subst k. auto.
    - destruct (Index_In s _ lr c0 IR Hc0) as (w' & Hw). destruct (Kr c0 Hc0) as (cs1 & Y1 & Y2). assert (cs1 = cs) by congruence. subst cs1.
      assert (w = w') by (exact (trim_uid_back s cs c0 cr w w' Y1 Y2 Wc Q2 (Index_uid s _ lr w' c0 IR Hw) (Index_uid s _ lr' w cr IR' R1))). subst w'.
      apply (Index_assoc s _ lr w c0 IR). auto. }
  specialize (HA u). rewrite Hr in HA.
  destruct (assoc uid_eqb u lb) as [cb |] eqn:BU.
  - assert (Bb := BU). apply (Index_assoc s _ lb u cb IB) in Bb.
    assert (Hcb := Index_kid s _ lb u cb IB Bb). assert (Tcb := Index_tag s _ lb u cb IB Bb).
    destruct (KEPT u cb BU) as (c0 & cr & _ & Q2 & Vcr & R3 & Q3 & Q4); [congruence |]. assert (c0 = c) by congruence. subst c0.
    enough (TR : trim cs c = Ok c) by (split; auto; assert (cr = c) by congruence; subst cr; exact Q3).
    destruct (FB cb Hcb) as (cs1 & E1 & E2 & _). assert (cs1 = cs) by congruence. subst cs1.
    destruct (Kb cb Hcb) as (cs1 & E3 & Vcb). assert (cs1 = cs) by congruence. subst cs1.
    assert (NK : Leafy cs -> trim cs c = Ok c).
    { intro L. apply trimmed_fix. intros k Hk. rewrite (leafish_kids cs c Vc) in Hk; [destruct Hk |]. destruct L as [L | L]; rewrite L; auto. }
    assert (DEC : Leafy cs \/ ~ Leafy cs) by (unfold Leafy; destruct (sty cs); auto; right; intros [X | X]; discriminate).
    destruct DEC as [L | NL]; auto.
    destruct (valid_inv cs cb Vcb) as (AT & _ & _). assert (Op := op_merge cb AT).
    assert (PLAIN : c = del_attrib cb -> trim cs c = Ok c) by (rewrite (valid_plain cb cs Vcb); intros ->; auto).
    destruct (assoc uid_eqb u la) as [ca |] eqn:AU.
    + assert (Ia := AU). apply (Index_assoc s _ la u ca IA) in Ia. assert (Hca := Index_kid s _ la u ca IA Ia).
      destruct (FA ca Hca) as (cs1 & F1 & F2 & _). assert (Tca := Index_tag s _ la u ca IA Ia).
      assert (cs1 = cs) by congruence. subst cs1. destruct (Ka ca Hca) as (cs1 & F3 & F4). assert (cs1 = cs) by congruence. subst cs1.
      inversion HA as [c0 ? ? ? EE | c0 ? ? ? EE | c0 ? ? ? EE | c0 ? ? ? EE | c0 e ? I ? R ? EE | c0 e ? NPC ? R EK EE | c0 ? ? ? ? ? EE]; subst; auto;
        try (assert (c0 = cs) by congruence; subst c0); try (exfalso; unfold Leafy in NL; intuition congruence).
      apply (IH c Hc f cs ca cb cr); auto. apply valid_validk. auto.
    + inversion HA as [? EE | c0 ? ? ? EE | c0 ? ? ? EE | c0 ? ? ? ? EE | c0 e ? TT ? R EE | c0 ks0 e ? TT ? KC R BI' EE | c0 ? BI' ? ? ? EE | c0 ? ? ? ? ? EE ]; subst;
        try (assert (c0 = cs) by congruence; subst c0); auto; try (exfalso; unfold Leafy in NL; intuition congruence).
      * apply (IH c Hc f cs _ cb cr) in R; auto. apply validk_nil.
      * apply (IH c Hc f cs _ cb cr) in R; auto. { apply (key_copies_validk cs cb ks0 _ _ _ Wc TT Vcb KC). }
        apply trimmed_fix. cbn [xkids]. intros y Hy. destruct (key_copies_In cs cb ks0 y KC Hy) as (k & kn & G1 & G2 & E). apply find_tagged in G2. destruct G2 as [G2 G3].
        destruct (valid_inv cs cb Vcb) as (_ & _ & KV). destruct (KV kn G2) as (cs0 & HS & Vk). rewrite (valid_plain kn cs0 Vk) in E. subst y.
        destruct (wfs_keys cs Wc TT) as (_ & WK). destruct (WK k G1) as (_ & kc & Sk & Tk & _). 
        apply (kid_trimmed cs cb _ kn kc); auto; congruence.
  - destruct (assoc uid_eqb u la) as [ca |] eqn:AU; [| discriminate]. assert (ca = c) by congruence. subst ca. clear HA.
    assert (Ia := AU). apply (Index_assoc s _ la u c IA) in Ia. assert (Hca := Index_kid s _ la u c IA Ia).
    destruct (FA c Hca) as (cs1 & E1 & E2 & E3). assert (cs1 = cs) by congruence. subst cs1. split; auto.
    unfold trim_drops in *. destruct (sty cs) eqn:Et; auto.
    destruct (seqt (xtag c) lb) as [| w ws] eqn:SB.
    + rewrite <- E3. rewrite (leaf_list_values s (xkids r) lr (xtag c) cs), (leaf_list_values s (xkids a) la (xtag c) cs) by auto.
      rewrite (SQ (xtag c) cs Hs) by auto. rewrite SB. rewrite joined_none; auto.
    + assert (Iw : In w (seqt (xtag c) lb)) by (rewrite SB; left; auto). apply CalcP.seqt_In in Iw. destruct Iw as [Iw Fw].
      apply assoc_Some_uids in Iw. destruct Iw as (cb & B). assert (Bi := B). apply (Index_assoc s _ lb w cb IB) in Bi.
      destruct (KEPT w cb B) as (c0 & cr & Hc0 & Q2 & _ & _ & Q3 & Q4); [rewrite <- (Index_tag s _ lb w cb IB Bi); auto |].
      assert (xtag c0 = xtag c). { apply (Index_assoc s _ lr w c0 IR) in Q4. rewrite <- (Index_tag s _ lr w c0 IR Q4). auto. }
      destruct (trim_parts _ _ _ Q2) as (P1 & _). rewrite P1, H0 in Q3. auto.
Qed.

Theorem absorbs : forall s a b, wfs s = true -> sty s = TRoot -> IsConfig s a -> IsConfig s b ->
  (Reaches s (config_add s a b) b <-> Extends s a b).
Proof.
  intros s a b W R Ca Cb. assert (Cb' := Cb). destruct Ca as (Va & Ta & Na). destruct Cb' as (Vb & Tb & Nb).
  assert (NL : ~ Leafy s) by (intros [X | X]; congruence).
  destruct (merge_spec s a b W NL Va Vb) as (r & E & Vr & Tr & HU).
  assert (HO := fun p t ws => merge_orders p (height b) s a b r t ws W (valid_validk _ _ Va) (valid_validk _ _ Vb) (valid_edit_ok b s W Vb) E).
  unfold config_add, config_new. rewrite E. cbn [bind]. rewrite (retrieve_valid s r R Vr) by congruence. split.
  - intros (x & EX & (Vx & Tx & _) & SD & _). assert (TR : trim s r = Ok x) by (destruct (trim s r); exact EX).
    assert (SM : Same s x b) by (apply SameData_Same; auto; congruence).
    assert (Y := merge_untrimmed r (height b) s a b x W (valid_validk _ _ Va) Vb Vr Vx E Na Nb TR SM).
    assert (x = r) by congruence. subst x. destruct SD as [S1 S2]. split.
    + intros p v H. assert (D : (exists v', Holds s b p v') \/ ~ exists v', Holds s b p v').
      { destruct (Present_dec p s b Vb) as [(s' & n & A) | A]; [left; exists (value_of s' n); exists s', n; auto | right; intros (v' & s' & n & Q & _); apply A; exists s', n; auto]. }
      destruct D as [D | D]; auto. exists v. apply S1. apply HU. right. split; auto. intros v' X. apply D. eauto.
    + intros p t us vs H1 H2. assert (J : UserOrder s r p t (joined us vs)) by (apply HO; left; eauto).
      rewrite <- (S2 p t _ vs J H2). unfold joined. eauto.
  - intros [X1 X2]. assert (SD : SameData s r b).
    { split.
      - intros p v. rewrite (HU p v). split; [| intro H; left; auto]. intros [H | [H NH]]; auto. exfalso. destruct (X1 p v H) as (v' & H'). apply (NH v' H').
      - intros p t us vs H1 H2. apply HO in H1. destruct H1 as [(as_ & bs & H3 & H4 & J) | [[H3 H4] | [H3 H4]]].
        + assert (bs = vs) by (eapply (UserOrder_fun p s b); eauto). subst bs. destruct (X2 p t as_ vs H3 H4) as (ws & ->). subst us.
          apply joined_extends. apply (UserOrder_NoDup p s b t); auto.
        + exfalso. apply H4. eapply UserOrder_Present; eauto.
        + eapply (UserOrder_fun p s b); eauto. }
    assert (SM : Same s r b) by (apply SameData_Same; auto; congruence).
    assert (Y : trim s r = Ok r) by (apply (trimmed_same r s b); auto). rewrite Y.
    exists r. split; auto. split; [split; [auto | split; [congruence | auto]] |]. split; auto.
    destruct (cmp_eq_iff s r b Vr Vb) as (e & C1 & C2); [congruence |]. rewrite C1. f_equal. apply C2. auto.
Qed.

Theorem root_exactly : forall o s a b, wfs s = true -> sty s = TRoot -> IsConfig s a -> IsConfig s b -> ~ RootKept o s a b ->
  (Reaches s (config_add_delta s a (Delta a b o)) b <-> Extends s a b).
Proof. intros o s a b W R Ca Cb N. rewrite (root_replaced o s a b W R Ca Cb N). apply absorbs; auto. Qed.

(** All options *)
Lemma RootKept_dec : forall o s a b, valid s a = true -> valid s b = true -> RootKept o s a b \/ ~ RootKept o s a b.
Proof.
  intros o s a b Va Vb. destruct (o_replace o) eqn:P; [left; left; auto |].
  assert (D : TopLeafListsAgree s a b \/ ~ TopLeafListsAgree s a b).
  { destruct (differ_iff s a b Va Vb) as [D1 D2]. destruct (leaf_lists_total s (xkids b) (xkids a)) as (e & E).
    - intros c Hc. destruct (valid_inv s b Vb) as (_ & _ & V). destruct (V c Hc) as (cs & X & _). eauto.
    - intros c Hc. destruct (valid_inv s a Va) as (_ & _ & V). destruct (V c Hc) as (cs & X & _). eauto.
    - destruct e; [right; apply D1; auto | left; apply D2; auto]. }
  destruct D as [D | D]; [left; right; right; auto |].
  destruct (o_type o) eqn:T; try (right; intros [X | [[X _] | X]]; congruence).
  destruct (Z.eq_dec (o_depth o) 0) as [E | E]; [left; right; left; auto | right; intros [X | [[_ X] | X]]; congruence].
Qed.

Theorem reaches_all : forall o s a b, wfs s = true -> sty s = TRoot -> IsConfig s a -> IsConfig s b ->
  orderable s a = true -> orderable s b = true -> NoSwitch s a a -> NoSwitch s b b ->
  (Reaches s (config_add_delta s a (Delta a b o)) b <-> (RootKept o s a b /\ Fits o s a b) \/ (~ RootKept o s a b /\ Extends s a b)).
Proof.
  intros o s a b W R Ca Cb Oa Ob Na Nb. destruct (RootKept_dec o s a b (proj1 Ca) (proj1 Cb)) as [K | K].
  - rewrite (reaches_fits o s a b W R Ca Cb Oa Ob Na Nb K). tauto.
  - rewrite (root_exactly o s a b W R Ca Cb K). tauto.
Qed.
