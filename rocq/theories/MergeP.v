(** Merging two trees without operations. *)
From Coq Require Import String Ascii List Bool Arith ZArith Lia Permutation.
From Verif Require Import Base BaseP XmlM CalcM CalcP NetconfM ConfigM ListP DataSpec DataP DeltaSpec DeltaR NameP AddP PlainP AddStepP TrimSpec TrimP ConfigSpec TrimPropsP ConfigP EditSpec EditP EditSemP EditValP.
Import ListNotations.
Open Scope string_scope.
Open Scope list_scope.
Local Notation Edited := (EditSpec.Edited op_of).
Local Notation Visited := (EditSpec.Visited op_of).
Local Notation Forbidden := (EditSpec.Forbidden op_of).

Lemma valid_no_ops : forall s d c, valid s d = true -> In c (xkids d) -> xattrs c = [] /\ op_of c = OpMerge.
Proof.
  intros s d c V H. destruct (valid_inv s d V) as (_ & _ & K). destruct (K c H) as (cs & _ & Vc).
  destruct (valid_inv cs c Vc) as (A & _). split; auto. apply op_merge. auto.
Qed.

Lemma valid_types : forall cs c, valid cs c = true -> sty cs <> TRoot -> Leafy cs \/ Inner cs.
Proof.
  intros cs [t tx a ks] V R. cbn [valid] in V. rewrite !andb_true_iff in V. destruct V as [[[_ V] _] _].
  unfold Leafy, Inner. destruct (sty cs); auto; try discriminate; congruence.
Qed.

Lemma valid_edit_ok : forall d s, wfs s = true -> valid s d = true -> edit_ok s d = true.
Proof.
  intro d. induction d as [t tx a ks IH] using xml_ind'. intros s W V. destruct (valid_inv s _ V) as (_ & (l & I) & K). simpl in I, K.
  cbn [edit_ok]. apply andb_true_iff. split.
  - apply index_ok in I. rewrite I. auto.
  - apply forallb_forall. intros c Hc. destruct (K c Hc) as (cs & S & Vc). rewrite S. destruct (valid_inv cs c Vc) as (A & _).
    rewrite Forall_forall in IH. rewrite (IH c Hc cs (wfs_child s _ cs W S) Vc).
    unfold insert_known. rewrite !(no_attrs _ c A). rewrite orb_true_r, !andb_true_r.
    destruct (valid_types cs c Vc (wfs_not_root s _ cs W S)) as [[T | T] | [T | T]]; rewrite T; auto;
      rewrite (leafish_kids cs c Vc); auto; rewrite T; auto.
Qed.

Lemma plain_place : forall cs c e l, xattrs c = [] -> exists l', place_new cs c e l = Ok (Some l').
Proof. intros cs c e l A. unfold place_new. rewrite (no_attrs _ c A). destruct (s_user (si cs)); eauto. Qed.

Lemma plain_move : forall cs c e l, xattrs c = [] -> move_peer cs c e l = Ok l.
Proof. intros cs c e l A. unfold move_peer. rewrite (no_attrs _ c A). destruct (s_user (si cs)); auto. Qed.

Lemma foldM_total : forall {A S} (f : S -> A -> res S) l s, (forall s x, In x l -> exists s', f s x = Ok s') -> exists s', foldM f s l = Ok s'.
Proof.
  intros A S f l. induction l as [| x r IH]; intros s H; simpl; [eauto |].
  destruct (H s x (or_introl eq_refl)) as (s1 & E). rewrite E. cbn [bind]. apply IH. intros s2 y Hy. apply H. right. auto.
Qed.

Lemma key_copies_total : forall cs c ts, key_tuple cs c = Ok ts -> exists ks, key_copies cs c = Ok ks.
Proof.
  intros cs c ts H. apply key_tuple_Forall2 in H. unfold key_copies. induction H as [| k t l ts (kc & C & _) H IH]; simpl; [eauto |].
  apply kids_tagged_find in C. rewrite C. cbn [bind]. destruct IH as (ks & E). rewrite E. cbn [bind]. eauto.
Qed.

Lemma key_copies_validk : forall cs c ks t tx a, wfs cs = true -> sty cs = TList -> valid cs c = true -> key_copies cs c = Ok ks -> validk cs (Elem t tx a ks).
Proof.
  intros cs c ks t tx a W T V K. destruct (valid_inv cs c V) as (_ & (l & I) & KV). destruct (wfs_keys cs W T) as (ND & WK).
  assert (G : forall y, In y ks -> In y (xkids c) /\ exists kc, schema_child cs (xtag y) = Ok kc /\ sty kc = TLeaf).
  { intros y Hy. destruct (key_copies_In cs c ks y K Hy) as (k & kn & H1 & H2 & E). apply find_tagged in H2. destruct H2 as [H2 H3].
    destruct (KV kn H2) as (cs' & S & Vk). rewrite (valid_plain kn cs' Vk) in E. subst y. split; auto.
    destruct (WK k H1) as (_ & kc & Sk & Tk & _). exists kc. subst k. auto. }
  split; simpl.
  - exists (map (fun y => ((xtag y, KNone), y)) ks). split; [rewrite map_map; simpl; apply map_id |]. split.
    + apply Forall_forall. intros e He. apply in_map_iff in He. destruct He as (y & E & Hy). subst e. simpl.
      destruct (G y Hy) as (_ & kc & S & Tk). apply (uid_other cs y kc); auto; congruence.
    + unfold uids. rewrite map_map. simpl. rewrite <- (key_copies_tags cs c ks K) in ND. clear - ND.
      induction ks as [| y r IH]; simpl in *; [constructor |]. inversion ND as [| ? ? N1 N2]; subst. constructor; auto.
      intro X. apply N1. apply in_map_iff in X. destruct X as (z & E & Hz). inversion E. apply in_map_iff. eauto.
  - intros y Hy. destruct (G y Hy) as (Hin & _). apply KV. auto.
Qed.

Lemma merge_total : forall f s x d, wfs s = true -> validk s x -> validk s d -> height d <= f -> exists r, node_add f s x d = Ok r.
Proof.
  induction f as [| f IH]; intros s x d W VX VD HF; [destruct d; simpl in HF; lia |].
  destruct VX as ((lx & Ix) & KX). destruct VD as ((ld & Id) & KD). cbn [node_add].
  rewrite (group_ok s _ _ lx ld Ix Id). cbn [bind in_2_not_1 in_1_and_2]. assert (Ix' := Ix). apply index_ok in Ix'. rewrite Ix'. cbn [bind].
  assert (HT : forall c, In c (xkids d) -> height c <= f) by (intros c Hc; apply height_kid in Hc; lia).
  destruct (foldM_total (add_new (node_add f) s) (only_in ld lx) lx) as (l1 & E1).
  { intros l [u c] H. apply only_in_In in H. destruct H as [H _]. assert (Hin := Index_kid s _ ld u c Id H).
    destruct (KD c Hin) as (cs & S & Vc). destruct (valid_inv cs c Vc) as (A & _). assert (Wc := wfs_child s _ cs W S).
    unfold add_new. rewrite (op_merge c A), S. cbn [bind].
    destruct (valid_types cs c Vc (wfs_not_root s _ cs W S)) as [[T | T] | [T | T]]; rewrite T; eauto.
    - destruct (plain_place cs c (u, del_attrib c) l A) as (l' & E). rewrite E. cbn [bind]. eauto.
    - destruct (IH cs (Elem (xtag c) None [] []) c Wc (validk_nil _ _ _ _) (valid_validk cs c Vc) (HT c Hin)) as (e & E). rewrite E. cbn [bind]. eauto.
    - assert (U := Index_uid s _ ld u c Id H). apply (uid_list s c cs S T) in U. destruct U as (ts & KT & _).
      destruct (key_copies_total cs c ts KT) as (ks & EK). rewrite EK. cbn [bind].
      destruct (plain_place cs c (u, Elem (xtag c) None [] ks) l A) as (l' & E). rewrite E. cbn [bind].
      destruct (IH cs (Elem (xtag c) None [] ks) c Wc) as (e & E2); auto.
      { eapply key_copies_validk; eauto. } { apply valid_validk. auto. } rewrite E2. cbn [bind]. eauto. }
  rewrite E1. cbn [bind].
  destruct (foldM_total (add_peer (node_add f) s) (both_in lx ld) l1) as (l2 & E2).
  { intros l [[u cx] c] H. apply both_in_In in H. destruct H as [H1 H2]. apply (Index_assoc s _ ld u c Id) in H2.
    assert (Hx := Index_kid s _ lx u cx Ix H1). assert (Hin := Index_kid s _ ld u c Id H2).
    assert (TT : xtag cx = xtag c) by (rewrite <- (Index_tag s _ lx u cx Ix H1); apply (Index_tag s _ ld u c Id H2)).
    destruct (KD c Hin) as (cs & S & Vc). destruct (KX cx Hx) as (cs' & S' & Vx). assert (cs' = cs) by congruence. subst cs'.
    destruct (valid_inv cs c Vc) as (A & _). assert (Wc := wfs_child s _ cs W S).
    assert (R : Inner cs -> exists e, node_add f cs cx c = Ok e). { intro I. apply IH; auto; apply valid_validk; auto. }
    unfold add_peer. rewrite (op_merge c A), S'. cbn [bind].
    destruct (valid_types cs c Vc (wfs_not_root s _ cs W S)) as [[T | T] | [T | T]]; rewrite T.
    - eauto.
    - rewrite plain_move by auto. eauto.
    - destruct R as (e & E); [left; auto |]. rewrite E. cbn [bind]. destruct (xkids e); [destruct (np_container cs) |]; eauto.
    - rewrite plain_move by auto. cbn [bind]. destruct R as (e & E); [right; auto |]. rewrite E. cbn [bind]. eauto. }
  rewrite E2. cbn [bind]. eauto.
Qed.

Lemma merge_validk : forall f s x d r, wfs s = true -> validk s x -> validk s d -> edit_ok s d = true -> node_add f s x d = Ok r ->
  validk s r /\ xattrs r = xattrs x /\ xtext r = xtext x /\ (xkids d <> [] -> xkids r <> []).
Proof.
  induction f as [| f IH]; intros s x d r W VX VD O H; [discriminate |].
  assert (H' := step_index f s x d r H W O). destruct H' as (lx & ld & lr & Ix & Id & Ir & E & HA).
  destruct VX as (_ & KX). destruct VD as (_ & KD). destruct (edit_ok_inv s d O) as (_ & OK).
  assert (AT : xattrs r = xattrs x /\ xtext r = xtext x) by (subst r; destruct x; auto). destruct AT as [A1 A2].
  assert (PL : forall u cd, assoc uid_eqb u ld = Some cd -> op_of cd = OpMerge /\ exists cs, schema_child s (xtag cd) = Ok cs /\ valid cs cd = true /\
                 wfs cs = true /\ edit_ok cs cd = true /\ (Leafy cs \/ Inner cs) /\ bad_insert cs cd = false).
  { intros u cd A. destruct (assoc_fst s _ ld u cd Id A) as (_ & _ & Hin). destruct (KD cd Hin) as (cs & S & Vc).
    destruct (valid_inv cs cd Vc) as (AA & _). split; [apply op_merge; auto |]. exists cs. assert (Wc := wfs_child s _ cs W S).
    destruct (OK cd Hin) as (cs' & S' & Ty & _ & _ & Ik & Oc). assert (cs' = cs) by congruence. subst cs'.
    repeat (split; auto). unfold bad_insert. rewrite Ik. apply andb_false_r. }
  assert (VI : forall cs e, Inner cs -> validk cs e -> xattrs e = [] -> xtext e = None -> (np_container cs = true -> xkids e <> []) -> valid cs e = true).
  { intros cs e I ((l & Il) & K) B1 B2 B3. apply (valid_intro cs e l); auto. destruct I as [T | T]; rewrite T; auto. }
  assert (IN : forall cs cx, Inner cs -> valid cs cx = true -> xattrs cx = [] /\ xtext cx = None).
  { intros cs cx I V. split; [apply (valid_inv cs cx V) |]. apply (valid_text cs cx V); destruct I; congruence. }
  assert (NPK : forall cs cd e, valid cs cd = true -> (xkids cd <> [] -> xkids e <> []) -> np_container cs = true -> xkids e <> []).
  { intros cs cd e V K N. apply K. apply (np_kids cs cd V N). }
  assert (G : forall u, (match assoc uid_eqb u lr with Some e => exists cs, schema_child s (xtag e) = Ok cs /\ valid cs e = true | None => True end) /\
                        (assoc uid_eqb u ld <> None -> assoc uid_eqb u lr <> None)).
  { intro u. specialize (HA u). destruct (assoc uid_eqb u lx) as [cx |] eqn:B1; destruct (assoc uid_eqb u ld) as [cd |] eqn:B2.
    - destruct (PL u cd B2) as (Op & cs & S & Vc & Wc & Oc & Ty & BI). destruct (assoc_fst s _ lx u cx Ix B1) as (_ & T1 & N1).
      destruct (assoc_fst s _ ld u cd Id B2) as (_ & T2 & N2). assert (Sx : schema_child s (xtag cx) = Ok cs) by congruence.
      destruct (KX cx N1) as (cs' & S' & Vx). assert (cs' = cs) by congruence. subst cs'.
      inversion HA as [c0 ? ? ? EE | c0 ? ? ? EE | c0 ? ? ? EE | c0 ? ? ? EE | c0 e ? I ? R ? EE | c0 e ? NPC ? R EK EE | c0 ? ? ? ? ? EE];
        (assert (c0 = cs) by congruence; subst c0); try (exfalso; intuition congruence).
      + split; [| discriminate]. exists cs. rewrite set_text_tag. split; auto. destruct cx as [t tx a ks]. simpl. rewrite <- Vx at 1. simpl.
        match goal with T : sty cs = TLeaf |- _ => rewrite T end. auto.
      + split; [| discriminate]. exists cs. auto.
      + split; [| discriminate]. exists cs. rewrite (add_tag _ _ _ _ _ R). split; auto.
        destruct (IH cs cx cd e Wc (valid_validk _ _ Vx) (valid_validk _ _ Vc) Oc R) as (Q1 & Q2 & Q3 & Q4).
        destruct (IN cs cx I Vx) as [Y1 Y2]. apply VI; auto; try congruence.
      + exfalso. destruct (IH cs cx cd e Wc (valid_validk _ _ Vx) (valid_validk _ _ Vc) Oc R) as (Q1 & Q2 & Q3 & Q4).
        apply (NPK cs cd e); auto.
      + exfalso. destruct Ty as [[T | T] | [T | T]]; congruence.
    - rewrite HA. split; [| congruence]. destruct (assoc_fst s _ lx u cx Ix B1) as (_ & T1 & N1). auto.
    - destruct (PL u cd B2) as (Op & cs & S & Vc & Wc & Oc & Ty & BI).
      destruct (del_parts cd) as (D1 & _ & _).
      assert (DV : exists cs0, schema_child s (xtag (del_attrib cd)) = Ok cs0 /\ valid cs0 (del_attrib cd) = true).
      { exists cs. rewrite D1. split; auto. rewrite (valid_plain cd cs Vc). auto. }
      inversion HA as [? EE | c0 ? ? ? EE | c0 ? ? ? EE | c0 ? ? ? ? EE | c0 e ? T ? R EE | c0 ks e ? T ? KC R BI' EE | c0 ? BI' ? ? ? EE | c0 ? ? ? ? ? EE ];
        try (assert (c0 = cs) by congruence; subst c0); try (exfalso; intuition congruence); try (split; [exact DV | discriminate]).
      + assert (I : Inner cs) by (left; auto). split; [| discriminate]. exists cs. rewrite (add_tag _ _ _ _ _ R). split; auto.
        destruct (IH cs _ cd e Wc (validk_nil _ _ _ _) (valid_validk _ _ Vc) Oc R) as (Q1 & Q2 & Q3 & Q4).
        apply VI; auto. intro N. apply (NPK cs cd); auto.
      + assert (I : Inner cs) by (right; auto). split; [| discriminate]. exists cs. rewrite (add_tag _ _ _ _ _ R). split; auto.
        destruct (IH cs _ cd e Wc (key_copies_validk cs cd ks _ _ _ Wc T Vc KC) (valid_validk _ _ Vc) Oc R) as (Q1 & Q2 & Q3 & Q4).
        apply VI; auto. intro N. apply (NPK cs cd); auto.
      + exfalso. destruct Ty as [[T | T] | [T | T]]; congruence.
    - rewrite HA. split; [auto | congruence]. }
  split; [| split; [auto | split; auto]].
  - split; [eauto |]. intros c Hc. destruct (Index_In s _ lr c Ir Hc) as (u & Hu). apply (Index_assoc s _ lr u c Ir) in Hu.
    destruct (G u) as [G1 _]. rewrite Hu in G1. exact G1.
  - intros N E0. destruct (xkids d) as [| c rr] eqn:ED; [congruence |].
    destruct (Index_In s _ ld c Id (or_introl eq_refl)) as (u & Hu). apply (Index_assoc s _ ld u c Id) in Hu.
    destruct (G u) as [_ G2]. rewrite E0 in Ir. apply Index_nil_inv in Ir. subst lr. apply G2; [congruence | auto].
Qed.

(** ** Pointwise *)
Lemma Child_fun : forall s x l u cs c cs' c', Index s (xkids x) l -> Child s x u cs c -> Child s x u cs' c' -> cs' = cs /\ c' = c.
Proof.
  intros s x l u cs c cs' c' I C C'. apply (Child_assoc s x l) in C; auto. apply (Child_assoc s x l) in C'; auto.
  destruct C as [C1 C2], C' as [C3 C4]. split; congruence.
Qed.

Lemma value_inner : forall s x, ~ Leafy s -> value_of s x = None.
Proof. intros s x N. unfold value_of. destruct (sty s) eqn:T; auto; exfalso; apply N; [left | right]; auto. Qed.

Lemma Edited_Union : forall p s x d v, wfs s = true -> ~ Leafy s -> validk s x -> validk s d ->
  (Edited s x d p v <-> Union s x d p v).
Proof.
  induction p as [| u p IH]; intros s x d v W NL VX VD.
  - unfold Union. rewrite !Holds_nil. rewrite !(value_inner s) by auto. split.
    + intro H. inversion H. auto.
    + intros [H | [H _]]; subst; constructor.
  - destruct VX as ((lx & Ix) & KX). destruct VD as ((ld & Id) & KD).
    assert (PL : forall cs c, Child s d u cs c -> op_of c = OpMerge /\ valid cs c = true /\ wfs cs = true /\ (Leafy cs \/ Inner cs) /\ (Leafy cs -> xkids c = [])).
    { intros cs c C. assert (S := Child_schema s d ld u cs c Id C). destruct C as (C1 & _). destruct (KD c C1) as (cs' & S' & V).
      assert (cs' = cs) by congruence. subst cs'. destruct (valid_inv cs c V) as (A & _).
      split; [apply op_merge; auto |]. split; auto. split; [eapply wfs_child; eauto |]. split; [apply (valid_types cs c V (wfs_not_root s _ cs W S)) |].
      intro L. apply (leafish_kids cs c V). destruct L as [T | T]; rewrite T; auto. }
    assert (PX : forall cs c, Child s x u cs c -> valid cs c = true).
    { intros cs c C. assert (S := Child_schema s x lx u cs c Ix C). destruct C as (C1 & _). destruct (KX c C1) as (cs' & S' & V). congruence. }
    assert (NI : forall cs, Inner cs -> ~ Leafy cs) by (intros cs [T | T] [L | L]; congruence).
    split.
    + intro H. inversion H as [| ? ? ? ? cs c ? ? Cx Nd HH | ? ? ? ? cs c ? ? Cd Op HH | ? ? ? ? cs c Cd Op L | ? ? ? ? cs cx c ? ? Cx Cd Op I HE | ? ? ? ? cs c ? ? Nx Cd Op I HE]; subst.
      * right. split; [apply Holds_cons; eauto |]. intros v' X. apply Holds_cons in X. destruct X as (cs' & c' & C' & _). apply (Nd cs' c' C').
      * destruct (PL cs c Cd) as (O & _). destruct Op; congruence.
      * left. destruct (PL cs c Cd) as (_ & _ & _ & _ & NK). apply Holds_cons. exists cs, c. split; auto. apply leaf_Holds; auto.
      * destruct (PL cs c Cd) as (_ & Vc & Wc & _ & _). apply (IH cs cx c v Wc (NI cs I) (valid_validk cs cx (PX cs cx Cx)) (valid_validk cs c Vc)) in HE. destruct HE as [HH | [HH N]].
        -- left. apply Holds_cons. eauto.
        -- right. split; [apply Holds_cons; eauto |]. intros v' X. apply Holds_cons in X. destruct X as (cs' & c' & C' & X).
           destruct (Child_fun s d ld u cs c cs' c' Id Cd C'). subst. apply (N v' X).
      * destruct (PL cs c Cd) as (_ & Vc & Wc & _ & _). apply (IH cs _ c v Wc (NI cs I) (validk_nil _ _ _ _) (valid_validk cs c Vc)) in HE.
        left. apply Holds_cons. exists cs, c. split; auto. destruct HE as [HH | [HH N]]; auto. exfalso. destruct p as [| u' p].
        -- apply (N None). apply Holds_nil. apply value_inner. auto.
        -- apply Holds_cons in HH. destruct HH as (cs' & c' & (C' & _) & _). destruct C'.
    + intros [H | [H N]].
      * apply Holds_cons in H. destruct H as (cs & c & Cd & HH). destruct (PL cs c Cd) as (Op & Vc & Wc & Ty & NK).
        destruct Ty as [L | I].
        -- apply leaf_Holds in HH; auto. destruct HH. subst. eapply ed_leaf; eauto.
        -- destruct (assoc uid_eqb u lx) as [cx |] eqn:A.
           ++ assert (Cx : Child s x u cs cx).
              { apply (Child_assoc s x lx); auto. split; auto. assert (S := Child_schema s d ld u cs c Id Cd). apply (Child_assoc s d ld) in Cd; auto.
                destruct Cd as [Cd _]. destruct (assoc_fst s _ lx u cx Ix A) as (_ & T1 & _). destruct (assoc_fst s _ ld u c Id Cd) as (_ & T2 & _). congruence. }
              apply (ed_merge s x d u cs cx c); auto. apply IH; auto; try (apply valid_validk; auto). left. auto.
           ++ apply (ed_new s x d u cs c); auto. { apply (NoChild_assoc s x lx); auto. } apply IH; auto; [apply validk_nil | apply valid_validk; auto |]. left. auto.
      * apply Holds_cons in H. destruct H as (cs & cx & Cx & HH). destruct (assoc uid_eqb u ld) as [c |] eqn:A.
        -- assert (Cd : Child s d u cs c).
           { apply (Child_assoc s d ld); auto. split; auto. assert (S := Child_schema s x lx u cs cx Ix Cx). apply (Child_assoc s x lx) in Cx; auto.
             destruct Cx as [Cx _]. destruct (assoc_fst s _ lx u cx Ix Cx) as (_ & T1 & _). destruct (assoc_fst s _ ld u c Id A) as (_ & T2 & _). congruence. }
           destruct (PL cs c Cd) as (Op & Vc & Wc & Ty & NK). destruct Ty as [L | I].
           ++ exfalso. assert (Vx := PX cs cx Cx). assert (NX : xkids cx = []) by (apply (leafish_kids cs cx Vx); destruct L as [T | T]; rewrite T; auto).
              apply leaf_Holds in HH; auto. destruct HH. subst. apply (N (xtext c)). apply Holds_cons. exists cs, c. split; auto. apply leaf_Holds; auto.
           ++ apply (ed_merge s x d u cs cx c); auto. apply IH; auto; try (apply valid_validk; eauto). right. split; auto.
              intros v' X. apply (N v'). apply Holds_cons. eauto.
        -- eapply ed_old; eauto. apply (NoChild_assoc s d ld); auto.
Qed.

(** Below a node of a well-formed tree there is one that is no non-presence container. *)
Lemma solid : forall n s, valid s n = true -> exists q s' n', At s n q s' n' /\ np_container s' = false.
Proof.
  intro n. induction n as [t tx a ks IH] using xml_ind'. intros s V. destruct (np_container s) eqn:N.
  - assert (NE := np_kids s _ V N). simpl in NE. destruct ks as [| c r]; [congruence |].
    destruct (valid_inv s _ V) as (_ & (l & I) & K). simpl in I, K. destruct (K c (or_introl eq_refl)) as (cs & S & Vc).
    inversion IH as [| ? ? IHc _]; subst. destruct (IHc cs Vc) as (q & s' & n' & A & E).
    destruct (Index_In s _ l c I (or_introl eq_refl)) as (u & Hu). assert (U := Index_uid s _ l u c I Hu).
    exists (u :: q), s', n'. split; auto. apply (at_down s _ c cs u q s' n'); auto; [left; auto | apply schema_child_Defines; auto | apply (Ident_uid s); auto].
  - exists [], s, (Elem t tx a ks). split; auto. constructor.
Qed.

Lemma At_app : forall p s x s1 n1 q s2 n2, At s x p s1 n1 -> At s1 n1 q s2 n2 -> At s x (p ++ q) s2 n2.
Proof.
  intros p s x s1 n1 q s2 n2 H. induction H; intro G; simpl; auto. econstructor; eauto.
Qed.

Lemma At_Target : forall s x p s' n c, valid s x = true -> At s x p s' n -> Target s p c -> c = s'.
Proof.
  intros s x p s' n c V H. revert V c. induction H as [s x | s x k cs u p s' n H1 H2 H3 H4 IH]; intros V c T.
  - inversion T. auto.
  - destruct (valid_inv s x V) as (_ & (l & I) & K). destruct (K k H1) as (cs1 & S & V1). assert (cs = cs1) by (apply (Defines_schema_child s (xtag k)); auto). subst cs1.
    inversion T as [| ? ? ? cs2 ? D T']; subst. assert (F : fst u = xtag k) by (inversion H3; auto). rewrite F in D.
    assert (cs2 = cs) by (apply (Defines_schema_child s (xtag k)); auto). subst cs2. auto.
Qed.

Lemma valid_intro' : forall s x l, xattrs x = [] -> xtext x = None -> nodeish (sty s) = true \/ sty s = TRoot ->
  (np_container s = true -> xkids x <> []) ->
  Index s (xkids x) l -> (forall c, In c (xkids x) -> exists cs, schema_child s (xtag c) = Ok cs /\ valid cs c = true) ->
  valid s x = true.
Proof.
  intros s x l A T [N | R] NP I K; [apply (valid_intro s x l); auto |]. destruct x as [t tx a ks]. simpl in *. subst a tx. rewrite R.
  apply index_ok in I. rewrite I. simpl. apply forallb_forall. intros c Hc. destruct (K c Hc) as (cs & S & V). rewrite S. auto.
Qed.

Theorem merge_spec : forall s x d, wfs s = true -> ~ Leafy s -> valid s x = true -> valid s d = true ->
  exists r, nc_add s x d = Ok r /\ valid s r = true /\ xtag r = xtag x /\ forall p v, Holds s r p v <-> Union s x d p v.
Proof.
  intros s x d W NL VX VD. assert (O := valid_edit_ok d s W VD).
  destruct (merge_total (height d) s x d W (valid_validk s x VX) (valid_validk s d VD) (le_n _)) as (r & R).
  exists r. split; auto. destruct (merge_validk _ s x d r W (valid_validk s x VX) (valid_validk s d VD) O R) as (K & A & T & NE).
  assert (VR : valid s r = true).
  { destruct K as ((l & I) & K). assert (Ax : xattrs x = []) by (apply (valid_inv s x VX)).
    assert (TY : nodeish (sty s) = true \/ sty s = TRoot).
    { destruct x as [t tx a ks]. cbn [valid] in VX. rewrite !andb_true_iff in VX. destruct VX as [[[_ VX'] _] _].
      destruct (sty s) eqn:TT; auto; try discriminate; exfalso; apply NL; unfold Leafy; auto. }
    apply (valid_intro' s r l); auto; try congruence.
    - rewrite T. apply (valid_text s x VX); intro Q; apply NL; unfold Leafy; auto.
    - intro N. apply NE. apply (np_kids s d VD N). }
  split; auto. split; [eapply add_tag; eauto |].
  assert (EI := Edited_iff (height d) s x d r W NL (valid_lok x s VX) O R).
  assert (EU := fun p v => Edited_Union p s x d v W NL (valid_validk s x VX) (valid_validk s d VD)).
  intros p v. split.
  - intro H. apply EU. apply (EI p v). auto.
  - intro H.
    assert (CORE : forall q y s' n' s1 n1, valid s y = true -> At s y p s1 n1 -> value_of s1 n1 = v -> At s1 n1 q s' n' -> np_container s' = false ->
              np_container s1 = true -> (forall v', Holds s y (p ++ q) v' -> Union s x d (p ++ q) v') -> Holds s r p v).
    { intros q y s' n' s1 n1 VY A1 E1 A2 NP NP1 HU.
      assert (H2 : Holds s r (p ++ q) (value_of s' n')).
      { apply (EI (p ++ q) (value_of s' n')).
        - apply EU. apply HU. exists s', n'. split; auto. eapply At_app; eauto.
        - intros c TG. assert (c = s') by (apply (At_Target s y (p ++ q) s' n' c VY); auto; eapply At_app; eauto). subst c. auto. }
      destruct H2 as (s2 & n2 & A3 & _). apply At_split in A3. destruct A3 as (s3 & n3 & A3 & _).
      exists s3, n3. split; auto. assert (TG : Target s p s1).
      { clear - A1 VY. induction A1 as [s y | s y k cs u p s1 n1 H1 H2 H3 H4 IH]; [constructor |]. apply (tg_down s u p cs).
        - replace (fst u) with (xtag k) by (inversion H3; auto). auto.
        - apply IH. destruct (valid_inv s y VY) as (_ & (l & I) & K). destruct (K k H1) as (cs1 & S & V1).
          assert (cs = cs1) by (apply (Defines_schema_child s (xtag k)); auto). subst cs1. auto. }
      assert (s1 = s3) by (apply (At_Target s r p s3 n3 s1 VR A3); auto). subst s3.
      assert (TC : sty s1 = TContainer) by (unfold np_container in NP1; destruct (sty s1); auto; discriminate).
      unfold value_of in *. rewrite TC in *. auto. }
    assert (NPT : forall y s1 n1, valid s y = true -> At s y p s1 n1 -> np_container s1 = false -> Holds s r p v).
    { intros y s1 n1 VY A1 NP. apply (EI p v); [apply EU; auto |]. intros c TG. assert (c = s1) by (apply (At_Target s y p s1 n1 c VY); auto). subst c. auto. }
    destruct H as [H | [H N]]; assert (HH := H); destruct H as (s1 & n1 & A1 & E1); destruct (np_container s1) eqn:NP; eauto.
    + destruct (solid n1 s1) as (q & s' & n' & A2 & NP2); [apply (At_valid p s d); auto |].
      apply (CORE q d s' n' s1 n1); auto. intros v' X. left. auto.
    + destruct (solid n1 s1) as (q & s' & n' & A2 & NP2); [apply (At_valid p s x); auto |].
      apply (CORE q x s' n' s1 n1); auto. intros v' X. right. split; auto. intros v2 (s2 & n2 & A3 & _).
      apply At_split in A3. destruct A3 as (s3 & n3 & A3 & _). apply (N (value_of s3 n3)). exists s3, n3. auto.
Qed.
