(** node_add on a delta: the result is the destination. *)
From Coq Require Import String Ascii List Bool Arith ZArith Lia Permutation.
From Verif Require Import Base BaseP XmlM CalcM CalcP NetconfM ListP DataSpec DataP DeltaSpec MoveSpec MoveP DeltaR NameP.
Import ListNotations.
Open Scope string_scope.
Open Scope list_scope.

(** ** Copies *)
Lemma valid_plain : forall y s, valid s y = true -> del_attrib y = y.
Proof.
  intro y. induction y as [t tx a ks IH] using xml_ind'. intros s H.
  destruct (valid_inv s _ H) as (Ha & _ & Hk). simpl in *. subst a. f_equal.
  rewrite <- (map_id ks) at 2. apply map_ext_in. intros c Hc.
  rewrite Forall_forall in IH. destruct (Hk c Hc) as (cs & _ & Hv). eapply IH; eauto.
Qed.

Lemma Bare_del : forall x y, Bare x y -> del_attrib x = del_attrib y.
Proof.
  intro x. induction x as [t tx a ks IH] using xml_ind'. intros y H. inversion H as [? ? H1 H2 H3 H4]; subst.
  destruct y as [t' tx' a' ks']. simpl in *. subst. f_equal.
  clear H H3. revert ks' H4. induction IH as [| c r Hc _ IHr]; intros ks' H4; inversion H4; subst; simpl; auto.
  f_equal; auto.
Qed.

Lemma Body_del : forall s cd cb, valid s cb = true -> xtag cd = xtag cb -> Body cd cb -> del_attrib cd = cb.
Proof.
  intros s cd cb Hv Ht [H1 H2]. rewrite <- (valid_plain cb s Hv).
  destruct cd as [t tx a ks], cb as [t' tx' a' ks']. simpl in *. subst. f_equal.
  clear Hv. induction H2; simpl; auto. f_equal; auto. apply Bare_del. auto.
Qed.

(** ** Trees whose children are well formed *)
Definition validk (s : snode) (x : xml) : Prop :=
  (exists l, Index s (xkids x) l) /\
  (forall c, In c (xkids x) -> exists cs, schema_child s (xtag c) = Ok cs /\ valid cs c = true).

Lemma valid_validk : forall s x, valid s x = true -> validk s x.
Proof. intros s x H. destruct (valid_inv s x H) as (_ & H1 & H2). split; auto. Qed.

Lemma validk_nil : forall s t tx a, validk s (Elem t tx a []).
Proof. intros. split; [exists []; apply Index_nil | intros c []]. Qed.

Lemma valid_intro : forall s x l, xattrs x = [] -> xtext x = None -> nodeish (sty s) = true ->
  (np_container s = true -> xkids x <> []) ->
  Index s (xkids x) l -> (forall c, In c (xkids x) -> exists cs, schema_child s (xtag c) = Ok cs /\ valid cs c = true) ->
  valid s x = true.
Proof.
  intros s [t tx a ks] l Ha Htx Hn Hnp HI Hk. simpl in *. subst a tx.
  apply index_ok in HI. rewrite HI. simpl.
  assert (F : forallb (fun c => match schema_child s (xtag c) with Ok cs => valid cs c | Err _ => false end) ks = true).
  { apply forallb_forall. intros c Hc. destruct (Hk c Hc) as (cs & E & V). rewrite E. auto. }
  rewrite F, !andb_true_r. unfold np_container in Hnp. destruct (sty s); try discriminate; auto.
  simpl in *. destruct (s_presence (si s)); auto. simpl. destruct ks; auto. exfalso. apply Hnp; auto.
Qed.

(** ** Equality of data *)
Lemma Same_refl : forall s x, valid s x = true -> Same s x x.
Proof. intros s x H. split; apply node_le_refl; auto. Qed.

Lemma Same_sym : forall s x y, Same s x y -> Same s y x.
Proof. intros s x y [H1 H2]. split; auto. Qed.

Lemma Same_trans : forall s x y z, Same s x y -> Same s y z -> Same s x z.
Proof. intros s x y z [H1 H2] [H3 H4]. split; eapply node_le_trans; eauto. Qed.

Lemma Same_tag : forall s x y, Same s x y -> xtag x = xtag y.
Proof. intros s x y [H _]. apply node_le_spec in H. destruct H as (lx & ly & H & _). exact H. Qed.

Lemma Same_text : forall s x y, valid s x = true -> valid s y = true -> Same s x y ->
  leafish (sty s) = true -> xtext x = xtext y.
Proof.
  intros s x y Hx Hy [H _] Hl. apply node_le_spec in H. destruct H as (lx & ly & _ & H & _).
  destruct (valid_same_text s x y Hx Hy) as (b & Hb & E). assert (b = true) by congruence.
  apply E in H0. unfold value_of in H0. destruct (sty s); try discriminate; auto.
Qed.

Lemma Same_assoc : forall s x y lx ly u c, Same s x y -> Index s (xkids x) lx -> Index s (xkids y) ly ->
  assoc uid_eqb u lx = Some c -> exists c' cs, assoc uid_eqb u ly = Some c' /\ schema_child s (xtag c) = Ok cs /\ Same cs c c'.
Proof.
  intros s x y lx ly u c [H1 H2] Hx Hy Hc.
  apply node_le_spec in H1. destruct H1 as (lx1 & ly1 & T1 & S1 & A1 & X1 & Y1 & P1 & O1).
  apply node_le_spec in H2. destruct H2 as (ly2 & lx2 & T2 & S2 & A2 & Y2 & X2 & P2 & O2).
  assert (lx1 = lx) by (eapply Index_fun; eauto). assert (lx2 = lx) by (eapply Index_fun; eauto).
  assert (ly1 = ly) by (eapply Index_fun; eauto). assert (ly2 = ly) by (eapply Index_fun; eauto). subst.
  assert (Hin : In (u, c) lx) by (apply (Index_assoc s _ lx u c Hx); auto).
  destruct (P1 u c Hin) as (c' & cs & E1 & E2 & E3). simpl in *.
  assert (Hin' : In (u, c') ly) by (apply (Index_assoc s _ ly u c' Hy); auto).
  destruct (P2 u c' Hin') as (c2 & cs2 & F1 & F2 & F3). simpl in *.
  assert (c2 = c) by congruence. subst c2.
  assert (Et : xtag c' = xtag c).
  { rewrite <- (Index_tag s _ ly u c' Hy Hin'). apply (Index_tag s _ lx u c Hx Hin). }
  rewrite Et in F2. assert (cs2 = cs) by congruence. subst. exists c', cs. split; auto. split; auto. split; auto.
Qed.

Lemma Same_seqt : forall s x y lx ly t cs, Same s x y -> Index s (xkids x) lx -> Index s (xkids y) ly ->
  schema_child s t = Ok cs -> is_user_seq cs = true -> seqt t lx = seqt t ly.
Proof.
  intros s x y lx ly t cs [H1 H2] Hx Hy Hs Hus.
  apply node_le_spec in H1. destruct H1 as (lx1 & ly1 & T1 & S1 & A1 & X1 & Y1 & P1 & O1).
  apply node_le_spec in H2. destruct H2 as (ly2 & lx2 & T2 & S2 & A2 & Y2 & X2 & P2 & O2).
  assert (lx1 = lx) by (eapply Index_fun; eauto). assert (lx2 = lx) by (eapply Index_fun; eauto).
  assert (ly1 = ly) by (eapply Index_fun; eauto). assert (ly2 = ly) by (eapply Index_fun; eauto). subst.
  apply subl_antisym; eauto.
Qed.

Lemma Same_intro : forall s x y lx ly, xtag x = xtag y -> xtext x = None -> xtext y = None ->
  xattrs x = [] -> xattrs y = [] -> Index s (xkids x) lx -> Index s (xkids y) ly ->
  (forall u, match assoc uid_eqb u lx, assoc uid_eqb u ly with
             | None, None => True
             | Some c, Some c' => exists cs, schema_child s (xtag c) = Ok cs /\ Same cs c c'
             | _, _ => False
             end) ->
  (forall t cs, schema_child s t = Ok cs -> is_user_seq cs = true -> seqt t lx = seqt t ly) ->
  Same s x y.
Proof.
  intros s x y lx ly Ht T1 T2 A1 A2 Hx Hy HK HO.
  assert (G1 : same_text s x y = Ok true) by (unfold same_text; rewrite T1, T2; auto).
  assert (G2 : same_text s y x = Ok true) by (unfold same_text; rewrite T1, T2; auto).
  split; apply node_le_spec.
  - exists lx, ly. split; auto. split; auto. split; [rewrite A1; reflexivity |]. split; auto. split; auto. split.
    + intros u c Hin. apply (Index_assoc s _ lx u c Hx) in Hin. specialize (HK u). rewrite Hin in HK.
      destruct (assoc uid_eqb u ly) as [c' |] eqn:E; [| contradiction].
      destruct HK as (cs & Hs & S). exists c', cs. simpl. split; auto. split; auto. apply S.
    + intros t cs Hs Hus. rewrite (HO t cs Hs Hus). apply subl_refl.
  - exists ly, lx. split; auto. split; auto. split; [rewrite A2; reflexivity |]. split; auto. split; auto. split.
    + intros u c' Hin. assert (Hin' := Hin). apply (Index_assoc s _ ly u c' Hy) in Hin. specialize (HK u). rewrite Hin in HK.
      destruct (assoc uid_eqb u lx) as [c |] eqn:E; [| contradiction].
      destruct HK as (cs & Hs & S). exists c, cs. simpl. split; auto. split; [| apply S].
      apply (Index_assoc s _ lx u c Hx) in E.
      rewrite <- (Index_tag s _ ly u c' Hy Hin'). rewrite (Index_tag s _ lx u c Hx E). auto.
    + intros t cs Hs Hus. rewrite (HO t cs Hs Hus). apply subl_refl.
Qed.

(** A child of a leaf type is identified by its tag. *)
Lemma one_child : forall s l es k kc, Index s l es -> schema_child s k = Ok kc -> sty kc = TLeaf ->
  kids_tagged k l = olist (assoc uid_eqb (k, KNone) es).
Proof.
  intros s l es k kc HI Hk Ht. destruct HI as (E & HF & ND). rewrite <- E. clear E.
  unfold kids_tagged. induction es as [| [u c] r IH]; simpl; auto.
  inversion HF as [| ? ? Hu HF']; subst. simpl in Hu. simpl in ND. inversion ND as [| ? ? Hn ND']; subst.
  assert (Htag := uid_tag s c u Hu). destruct (String.eqb (xtag c) k) eqn:Ek.
  - apply String.eqb_eq in Ek. rewrite (uid_other s c kc) in Hu by (rewrite ?Ek; auto; congruence).
    inversion Hu; subst u. rewrite Ek. rewrite uid_eqb_refl. simpl. f_equal.
    apply filter_none. intros c' Hc'. destruct (String.eqb (xtag c') k) eqn:Ek'; auto. exfalso.
    apply String.eqb_eq in Ek'. apply in_map_iff in Hc'. destruct Hc' as ([u' c''] & E & Hin). simpl in E. subst c''.
    rewrite Forall_forall in HF'. assert (Hu' := HF' _ Hin). simpl in Hu'.
    rewrite (uid_other s c' kc) in Hu' by (rewrite ?Ek'; auto; congruence). inversion Hu'; subst u'.
    apply Hn. apply (in_map fst) in Hin. simpl in Hin. rewrite Ek, <- Ek'. exact Hin.
  - assert (Eu : uid_eqb (k, KNone) u = false).
    { apply (eqb_neq uid_eqb uid_eqb_ok). intro X. subst u. simpl in Htag. rewrite Htag, String.eqb_refl in Ek. discriminate. }
    rewrite Eu. apply IH; auto.
Qed.

Lemma keys_by : forall cs x y lx ly, wfs cs = true -> sty cs = TList -> valid cs x = true -> valid cs y = true ->
  Index cs (xkids x) lx -> Index cs (xkids y) ly ->
  (forall k kc c, In k (s_keys (si cs)) -> schema_child cs k = Ok kc -> sty kc = TLeaf -> assoc uid_eqb (k, KNone) ly = Some c ->
     exists c', assoc uid_eqb (k, KNone) lx = Some c' /\ Same kc c c') ->
  forall ts, key_tuple cs y = Ok ts -> key_tuple cs x = Ok ts.
Proof.
  intros cs x y lx ly W Ht Vx Vy Hx Hy S ts H. apply key_tuple_Forall2. apply key_tuple_Forall2 in H.
  destruct (wfs_keys cs W Ht) as [_ Hkeys].
  destruct (valid_inv cs x Vx) as (_ & _ & Kx). destruct (valid_inv cs y Vy) as (_ & _ & Ky).
  assert (G : forall k t, In k (s_keys (si cs)) ->
            (exists c, kids_tagged k (xkids y) = [c] /\ parse_text cs c = t) ->
            exists c, kids_tagged k (xkids x) = [c] /\ parse_text cs c = t).
  { intros k t Hk (c & E & P). destruct (Hkeys k Hk) as (_ & kc & Hs & Hl & _).
    rewrite (one_child cs _ lx k kc Hx Hs Hl). rewrite (one_child cs _ ly k kc Hy Hs Hl) in E.
    destruct (assoc uid_eqb (k, KNone) ly) as [c0 |] eqn:Ec; [| discriminate]. simpl in E. inversion E; subst c0.
    destruct (S k kc c Hk Hs Hl Ec) as (c' & E1 & E3).
    rewrite E1. simpl. exists c'. split; auto.
    assert (Ic : In (k, KNone, c) ly) by (apply (Index_assoc cs _ ly _ c Hy); auto).
    assert (Ic' : In (k, KNone, c') lx) by (apply (Index_assoc cs _ lx _ c' Hx); auto).
    assert (T : k = xtag c) by exact (Index_tag cs _ ly _ c Hy Ic).
    assert (T' : k = xtag c') by exact (Index_tag cs _ lx _ c' Hx Ic').
    destruct (Kx c' (Index_kid cs _ lx _ c' Hx Ic')) as (kx & Ex & Vx').
    destruct (Ky c (Index_kid cs _ ly _ c Hy Ic)) as (ky & Ey & Vy').
    rewrite <- T' in Ex. rewrite <- T in Ey. assert (kx = kc) by congruence. assert (ky = kc) by congruence. subst kx ky.
    rewrite parse_text_id in * by congruence. rewrite <- P. symmetry.
    apply (Same_text kc c c' Vy' Vx' E3). rewrite Hl. auto. }
  clear -H G. induction H; constructor; auto.
  - apply G; auto. left. auto.
  - apply IHForall2. intros k t Hk. apply G. right. auto.
Qed.

Lemma Same_keys : forall cs x y, wfs cs = true -> sty cs = TList -> valid cs x = true -> valid cs y = true ->
  Same cs x y -> forall ts, key_tuple cs y = Ok ts -> key_tuple cs x = Ok ts.
Proof.
  intros cs x y W Ht Vx Vy S. destruct (valid_inv cs x Vx) as (_ & (lx & Hx) & _). destruct (valid_inv cs y Vy) as (_ & (ly & Hy) & _).
  apply (keys_by cs x y lx ly); auto. intros k kc c Hk Hs Hl Ec.
  destruct (Same_assoc cs y x ly lx (k, KNone) c (Same_sym _ _ _ S) Hy Hx Ec) as (c' & kc' & E1 & E2 & E3).
  exists c'. split; auto.
  assert (T : k = xtag c) by (apply (Index_tag cs _ ly (k, KNone) c Hy); apply (Index_assoc cs _ ly _ c Hy); auto).
  rewrite <- T in E2. assert (kc' = kc) by congruence. subst kc'. exact E3.
Qed.

Lemma Same_uid : forall s x y cs u, schema_child s (xtag y) = Ok cs -> wfs cs = true ->
  valid cs x = true -> valid cs y = true -> Same cs x y -> uid_of s y = Ok u -> uid_of s x = Ok u.
Proof.
  intros s x y cs u Hs W Vx Vy S Hu. assert (T := Same_tag cs x y S).
  assert (Hs' : schema_child s (xtag x) = Ok cs) by congruence.
  destruct (sty cs) eqn:Ht;
    try (rewrite (uid_other s y cs) in Hu by (auto; congruence);
         rewrite (uid_other s x cs) by (auto; congruence); congruence).
  - rewrite (uid_leaflist s y cs) in Hu by auto. rewrite (uid_leaflist s x cs) by auto.
    rewrite T. rewrite (Same_text cs x y); auto. rewrite Ht. auto.
  - apply (uid_list s y cs Hs Ht) in Hu. destruct Hu as (ts & H1 & H2). subst u.
    apply (uid_list s x cs Hs' Ht). exists ts. split; [| congruence]. apply (Same_keys cs x y); auto.
Qed.

(** ** Outcome of one level *)
Definition Good (s : snode) (u : uid) (e cb : xml) : Prop :=
  exists cs, schema_child s (xtag e) = Ok cs /\ valid cs e = true /\ valid cs cb = true /\ Same cs e cb /\ uid_of s e = Ok u.

Definition KS (s : snode) (lr lb : list ent) : Prop :=
  (forall u, match assoc uid_eqb u lr, assoc uid_eqb u lb with
             | None, None => True
             | Some e, Some cb => Good s u e cb
             | _, _ => False
             end) /\
  (forall t cs, schema_child s t = Ok cs -> is_user_seq cs = true -> seqt t lr = seqt t lb).

Lemma KS_good : forall cs b r lr lb, nodeish (sty cs) = true -> valid cs b = true -> Index cs (xkids b) lb ->
  xtag r = xtag b -> xtext r = None -> xattrs r = [] -> Index cs (xkids r) lr -> KS cs lr lb ->
  valid cs r = true /\ Same cs r b.
Proof.
  intros cs b r lr lb Hn Vb Hb Ht Htx Ha Hr [HK HO].
  destruct (valid_inv cs b Vb) as (Hab & _ & Kb).
  assert (Tb : xtext b = None) by (apply (valid_text cs b Vb); intro X; rewrite X in Hn; discriminate).
  split.
  - apply (valid_intro cs r lr); auto.
    + intros Hnp E. rewrite E in Hr. apply Index_nil_inv in Hr. subst lr.
      destruct b as [t tx a ks]. cbn [valid] in Vb. unfold np_container in Hnp.
      apply andb_true_iff in Hnp. destruct Hnp as [N1 N2]. destruct (sty cs); try discriminate.
      apply negb_true_iff in N2. rewrite N2 in Vb. destruct ks as [| k ks]; [destruct a, tx; discriminate |].
      destruct (Index_In cs _ lb k Hb) as (u & Hin); [left; auto |].
      apply (Index_assoc cs _ lb u k Hb) in Hin. specialize (HK u). rewrite Hin in HK. exact HK.
    + intros c Hc. destruct (Index_In cs _ lr c Hr Hc) as (u & Hin).
      apply (Index_assoc cs _ lr u c Hr) in Hin. specialize (HK u). rewrite Hin in HK.
      destruct (assoc uid_eqb u lb) as [cb |]; [| contradiction]. destruct HK as (ds & H1 & H2 & _). eauto.
  - apply (Same_intro cs r b lr lb); auto. intro u. specialize (HK u).
    destruct (assoc uid_eqb u lr) as [e |], (assoc uid_eqb u lb) as [cb |]; auto.
    destruct HK as (ds & H1 & _ & _ & H2 & _). eauto.
Qed.

(** ** Pairs of configs for which [node_add] reaches the destination *)
Inductive Ok2 : snode -> list xml -> list xml -> Prop :=
| ok2 : forall s ka kb la lb, Index s ka la -> Index s kb lb ->
    (forall t cs, schema_child s t = Ok cs -> is_user_seq cs = true -> replay (seqt t la) (seqt t lb) = seqt t lb) ->
    (forall u ca, In (u, ca) la -> ~ In u (uids lb) -> ~ Suppressed s la lb ca) ->
    (forall u ca cb cs, In (u, ca) la -> In (u, cb) lb -> schema_child s (xtag ca) = Ok cs ->
       Ok2 cs (xkids ca) (xkids cb)) ->
    Ok2 s ka kb.

Lemma Ok2_nil_r : forall s ka la, Index s ka la -> Ok2 s ka [].
Proof.
  intros s ka la H. apply (ok2 s ka [] la []); auto.
  - apply Index_nil.
  - intros t cs _ _. apply kept_replay; [apply seqt_NoDup; apply H | constructor | intros u v _ []].
  - intros u ca _ _ (v & cb & ea & eb & X & _). destruct X.
  - intros u ca cb cs _ X. destruct X.
Qed.

Lemma Ok2_nil_l : forall s kb lb, Index s kb lb -> Ok2 s [] kb.
Proof.
  intros s kb lb H. apply (ok2 s [] kb [] lb); auto.
  - apply Index_nil.
  - intros t cs _ _. apply kept_replay; [constructor | apply seqt_NoDup; apply H |].
    intros u v X. apply before_In in X. destruct X as [X _]. destruct X.
  - intros u ca cb cs X. destruct X.
Qed.

Lemma leafish_kids : forall cs x, valid cs x = true -> leafish (sty cs) = true -> xkids x = [].
Proof.
  intros cs [t tx a ks] V L. cbn [valid] in V. rewrite !andb_true_iff in V. destruct V as [[[_ V] _] _].
  simpl. destruct (sty cs); try discriminate; destruct ks; auto; discriminate.
Qed.

Lemma leafish_eq : forall cs x y, valid cs x = true -> valid cs y = true -> leafish (sty cs) = true ->
  xtag x = xtag y -> xtext x = xtext y -> x = y.
Proof.
  intros cs x y Vx Vy L T X. assert (Kx := leafish_kids cs x Vx L). assert (Ky := leafish_kids cs y Vy L).
  destruct (valid_inv cs x Vx) as (Ax & _). destruct (valid_inv cs y Vy) as (Ay & _).
  destruct x, y. simpl in *. congruence.
Qed.

Lemma np_kids : forall cs x, valid cs x = true -> np_container cs = true -> xkids x <> [].
Proof.
  intros cs [t tx a ks] V N E. simpl in E. subst ks. cbn [valid] in V. unfold np_container in N.
  apply andb_true_iff in N. destruct N as [N1 N2]. destruct (sty cs); try discriminate.
  apply negb_true_iff in N2. rewrite N2 in V. destruct a, tx; discriminate.
Qed.

Lemma Good_refl : forall s u cb cs, schema_child s (xtag cb) = Ok cs -> valid cs cb = true ->
  uid_of s cb = Ok u -> Good s u cb cb.
Proof. intros s u cb cs H1 H2 H3. exists cs. split; auto. split; auto. split; auto. split; auto. apply Same_refl. auto. Qed.

Lemma orderable_kid : forall s x c cs, orderable s x = true -> In c (xkids x) -> schema_child s (xtag c) = Ok cs ->
  (s_user (si cs) = true -> nameable cs c = true) /\ orderable cs c = true.
Proof.
  intros s [t tx a ks] c cs H Hc Hs. cbn [orderable] in H. rewrite forallb_forall in H. specialize (H c Hc).
  rewrite Hs in H. apply andb_true_iff in H. destruct H as [H1 H2]. split; auto.
  intro U. rewrite U in H1. exact H1.
Qed.

Lemma orderable_sub : forall s x y, orderable s x = true -> (forall c, In c (xkids y) -> In c (xkids x)) ->
  orderable s y = true.
Proof.
  intros s [t tx a ks] [t' tx' a' ks'] H Hs. cbn [orderable] in *. rewrite forallb_forall in *.
  intros c Hc. apply H. apply Hs. exact Hc.
Qed.

(** User-ordered list entries are identified by key texts. *)
Definition Nam (s : snode) (l : list ent) : Prop :=
  forall u cs, In u (uids l) -> schema_child s (fst u) = Ok cs -> s_user (si cs) = true -> sty cs = TList ->
    exists ws, snd u = KTup (map Some ws).

Lemma nameable_keys : forall cs c ts, sty cs = TList -> nameable cs c = true -> key_tuple cs c = Ok ts ->
  exists ws, ts = map Some ws /\ Forall (fun v => has_char "'" v = false) ws /\ pred_string (s_keys (si cs)) c = Ok (pstr (s_keys (si cs)) ws).
Proof.
  intros cs c ts Ht N K. unfold nameable in N. rewrite Ht in N. apply key_tuple_Forall2 in K.
  induction K as [| k t ks ts (kn & E & P) K IH]; simpl in *.
  - exists []. repeat split; auto.
  - apply andb_true_iff in N. destruct N as [N1 N2]. rewrite (kids_tagged_find _ _ _ E) in N1.
    destruct (IH N2) as (ws & E1 & E2 & E3). rewrite parse_text_id in P by congruence.
    destruct (xtext kn) as [v |] eqn:X; [| discriminate]. apply negb_true_iff in N1.
    exists (v :: ws). subst. simpl. split; [congruence |]. split; [constructor; auto |].
    rewrite (kids_tagged_find _ _ _ E). rewrite E3. simpl. rewrite X. reflexivity.
Qed.

Lemma orderable_Nam : forall s x l, orderable s x = true -> Index s (xkids x) l -> Nam s l.
Proof.
  intros s x l H HI u cs Hu Hs U Ht. apply in_map_iff in Hu. destruct Hu as ([u' c] & E & Hin). simpl in E. subst u'.
  assert (Hid := Index_uid s _ l u c HI Hin). assert (T := Index_tag s _ l u c HI Hin).
  rewrite T in Hs. apply (uid_list s c cs Hs Ht) in Hid. destruct Hid as (ts & Hk & E). subst u. simpl.
  destruct (orderable_kid s x c cs H (Index_kid s _ l _ c HI Hin) Hs) as [N _].
  destruct (nameable_keys cs c ts Ht (N U) Hk) as (ws & E & _). subst. eauto.
Qed.

Lemma orderable_NamU : forall s x l u cs, orderable s x = true -> Index s (xkids x) l -> In u (uids l) ->
  schema_child s (fst u) = Ok cs -> is_user_seq cs = true -> NamU cs u.
Proof.
  intros s x l u cs H HI Hu Hs U. apply in_map_iff in Hu. destruct Hu as ([u' c] & E & Hin). simpl in E. subst u'.
  assert (Hid := Index_uid s _ l u c HI Hin). assert (T := Index_tag s _ l u c HI Hin). rewrite T in Hs.
  apply is_user_seq_iff in U. destruct U as [U Ht].
  destruct (orderable_kid s x c cs H (Index_kid s _ l _ c HI Hin) Hs) as [N _]. specialize (N U).
  unfold NamU. destruct Ht as [Ht | Ht]; rewrite Ht.
  - rewrite (uid_leaflist s c cs Hs Ht) in Hid. inversion Hid; subst. unfold nameable in N. rewrite Ht in N.
    simpl. destruct (xtext c) as [tx |]; [eauto | discriminate].
  - apply (uid_list s c cs Hs Ht) in Hid. destruct Hid as (ts & Hk & E). subst u. simpl.
    destruct (nameable_keys cs c ts Ht N Hk) as (ws & E & A & _). subst. eauto.
Qed.

Lemma texted_kid : forall s x c cs, texted s x = true -> In c (xkids x) -> schema_child s (xtag c) = Ok cs ->
  (s_user (si cs) = true -> sty cs = TLeafList -> exists tx, xtext c = Some tx) /\ texted cs c = true.
Proof.
  intros s [t tx a ks] c cs H Hc Hs. cbn [texted] in H. rewrite forallb_forall in H. specialize (H c Hc).
  rewrite Hs in H. apply andb_true_iff in H. destruct H as [H1 H2]. split; auto.
  intros U Ht. rewrite U, Ht in H1. simpl in H1. destruct (xtext c); [eauto | discriminate].
Qed.

Lemma orderable_texted : forall x s, orderable s x = true -> texted s x = true.
Proof.
  intro x. induction x as [t tx a ks IH] using xml_ind'. intros s H. cbn [orderable texted] in *.
  rewrite forallb_forall in *. rewrite Forall_forall in IH. intros c Hc. specialize (H c Hc). destruct (schema_child s (xtag c)) as [cs | e]; auto.
  apply andb_true_iff in H. destruct H as [H1 H2]. apply andb_true_iff. split; [| apply IH; auto].
  destruct (s_user (si cs)); auto. simpl in *. unfold nameable in H1. destruct (sty cs); simpl; auto.
Qed.

Lemma texted_TxtU : forall s x l u cs, texted s x = true -> Index s (xkids x) l -> In u (uids l) ->
  schema_child s (fst u) = Ok cs -> is_user_seq cs = true -> TxtU cs u.
Proof.
  intros s x l u cs H HI Hu Hs U. apply in_map_iff in Hu. destruct Hu as ([u' c] & E & Hin). simpl in E. subst u'.
  assert (Hid := Index_uid s _ l u c HI Hin). assert (T := Index_tag s _ l u c HI Hin). rewrite T in Hs.
  apply is_user_seq_iff in U. destruct U as [U _].
  destruct (texted_kid s x c cs H (Index_kid s _ l _ c HI Hin) Hs) as [N _]. specialize (N U).
  unfold TxtU. destruct (sty cs) eqn:Ht; auto. destruct (N eq_refl) as (tx & X).
  rewrite (uid_leaflist s c cs Hs Ht) in Hid. inversion Hid; subst. simpl. exists tx. congruence.
Qed.

(** ** Placement *)
Lemma upd_app_other : forall u e l, ~ In u (uids l) -> upd_uid u e l = l.
Proof.
  intros u e l H. unfold upd_uid. rewrite <- (map_id l) at 2. apply map_ext_in. intros [v y] Hin.
  unfold has_uid. simpl. destruct (uid_eqb u v) eqn:E; auto. apply uid_eqb_ok in E. subst. exfalso. apply H.
  apply (in_map fst) in Hin. exact Hin.
Qed.

Lemma upd_cons : forall u e x l, upd_uid u e (x :: l) = (if has_uid u x then (u, e) else x) :: upd_uid u e l.
Proof. reflexivity. Qed.

Lemma has_uid_not : forall u x l, ~ In u (uids (x :: l)) -> has_uid u x = false /\ ~ In u (uids l).
Proof.
  intros u x l H. split.
  - unfold has_uid. apply (eqb_neq uid_eqb uid_eqb_ok). intro E. apply H. left. auto.
  - intro X. apply H. right. auto.
Qed.

Lemma upd_ins_after_last : forall p u x e l, ~ In u (uids l) ->
  upd_uid u e (ins_after_last p (u, x) l) = ins_after_last p (u, e) l.
Proof.
  intros p u x e l. induction l as [| y r IH]; intro H; simpl.
  - unfold upd_uid. simpl. unfold has_uid. simpl. rewrite uid_eqb_refl. reflexivity.
  - destruct (has_uid_not u y r H) as [Hy Hr].
    destruct (existsb p r); [| destruct (p y)]; rewrite ?upd_cons, Hy, ?IH; auto.
    unfold has_uid at 1. simpl. rewrite uid_eqb_refl, upd_app_other; auto.
Qed.

Lemma upd_ins_before_first : forall p u x e l, ~ In u (uids l) ->
  upd_uid u e (ins_before_first p (u, x) l) = ins_before_first p (u, e) l.
Proof.
  intros p u x e l. induction l as [| y r IH]; intro H; simpl.
  - unfold upd_uid. simpl. unfold has_uid. simpl. rewrite uid_eqb_refl. reflexivity.
  - destruct (has_uid_not u y r H) as [Hy Hr].
    destruct (p y); rewrite ?upd_cons.
    + unfold has_uid at 1. simpl. rewrite uid_eqb_refl, Hy, upd_app_other; auto.
    + rewrite Hy, IH; auto.
Qed.

Lemma upd_ins_after_first : forall p u x e l, ~ In u (uids l) ->
  upd_uid u e (ins_after_first p (u, x) l) = ins_after_first p (u, e) l.
Proof.
  intros p u x e l. induction l as [| y r IH]; intro H; simpl.
  - unfold upd_uid. simpl. unfold has_uid. simpl. rewrite uid_eqb_refl. reflexivity.
  - destruct (has_uid_not u y r H) as [Hy Hr].
    destruct (p y); rewrite ?upd_cons, Hy.
    + unfold has_uid at 1. simpl. rewrite uid_eqb_refl, upd_app_other; auto.
    + rewrite IH; auto.
Qed.

(** The placements that a delta made by node_sub uses *)
Inductive Placed (cs : snode) (cd : xml) (l : list ent) : (ent -> list ent) -> Prop :=
| pl_last : (s_user (si cs) = false \/ get_attr insert_tag cd = None) ->
    Placed cs cd l (fun e => ins_after_last (has_tag (xtag cd)) e l)
| pl_first : s_user (si cs) = true -> get_attr insert_tag cd = Some "first" ->
    Placed cs cd l (fun e => ins_before_first (has_tag (xtag cd)) e l)
| pl_after : forall v, s_user (si cs) = true -> get_attr insert_tag cd = Some "after" ->
    ref_sibling (sty cs) cd l = Ok v -> Placed cs cd l (fun e => ins_after_first (has_uid v) e l).

Lemma Placed_new : forall cs cd l F e, Placed cs cd l F -> place_new cs cd e l = Ok (Some (F e)).
Proof.
  intros cs cd l F e H. unfold place_new. destruct H as [H | H1 H2 | v H1 H2 H3].
  - destruct H as [H | H]; rewrite H; auto. destruct (s_user (si cs)); auto.
  - rewrite H1, H2. reflexivity.
  - rewrite H1, H2, H3. reflexivity.
Qed.

Lemma Placed_Ins : forall cs cd l F e, Placed cs cd l F -> Ins e l (F e).
Proof.
  intros cs cd l F e H. destruct H.
  - apply ins_after_last_Ins.
  - apply ins_before_first_Ins.
  - apply ins_after_first_Ins.
Qed.

Lemma Placed_upd : forall cs cd l F u x e, Placed cs cd l F -> ~ In u (uids l) -> upd_uid u e (F (u, x)) = F (u, e).
Proof.
  intros cs cd l F u x e H Hn. destruct H.
  - apply upd_ins_after_last. auto.
  - apply upd_ins_before_first. auto.
  - apply upd_ins_after_first. auto.
Qed.
