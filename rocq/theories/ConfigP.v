(** Configs and deltas: the round trip, its reverse, and deltas of equal configs. *)
From Coq Require Import String Ascii List Bool Arith ZArith Lia Permutation.
From Verif Require Import Base BaseP XmlM CalcM CalcP NetconfM ConfigM ListP DataSpec DataP CompareP DeltaSpec MoveSpec MoveP DeltaR NameP
  AddP AddStepP PlainP WorkP SubP RoundP TrimSpec TrimP.
Import ListNotations.
Open Scope string_scope.
Open Scope list_scope.

Lemma retrieve_config : forall x, xtag x = config_tag -> retrieve x = Elem config_tag None [] (xkids x).
Proof.
  intros x H. unfold retrieve, xp. rewrite H.
  change (String.eqb config_tag (nc_name "rpc-reply")) with false.
  change (String.eqb config_tag (nc_name "data")) with false.
  change (String.eqb config_tag (nc_name "config")) with true.
  change (String.eqb config_tag (nc_name "rpc")) with false.
  change (String.eqb config_tag (nc_name "edit-config")) with false.
  simpl. rewrite app_nil_r. reflexivity.
Qed.

Lemma retrieve_valid : forall s x, sty s = TRoot -> valid s x = true -> xtag x = config_tag -> retrieve x = x.
Proof.
  intros s x R V T. rewrite (retrieve_config x T). destruct (valid_inv s x V) as (Ha & _ & _).
  assert (Tx : xtext x = None) by (apply (valid_text s x V); rewrite R; discriminate).
  destruct x. simpl in *. congruence.
Qed.

Lemma Same_SameData : forall s x y, valid s x = true -> valid s y = true -> Same s x y -> SameData s x y.
Proof. intros s x y Vx Vy [H1 H2]. apply Contained_antisym. split; apply le_Contained; auto. Qed.

Lemma SameData_Same : forall s x y, valid s x = true -> valid s y = true -> xtag x = xtag y -> SameData s x y -> Same s x y.
Proof.
  intros s x y Vx Vy T H. apply Contained_antisym in H. destruct H. split; apply Contained_le; auto.
Qed.

(** A config: valid, below the config tag, without defaults. *)
Theorem config_round_trip : forall o s a b, wfs s = true -> sty s = TRoot -> valid s a = true -> valid s b = true ->
  xtag a = config_tag -> xtag b = config_tag -> orderable s a = true -> orderable s b = true -> trim s b = Ok b ->
  EndsInPlace s a b -> NoSwitch s a b -> RootKept o s a b ->
  exists r, config_add_delta s a (Delta a b o) = Ok r /\ valid s r = true /\ SameData s r b /\ cmp_eq s r b = Ok true.
Proof.
  intros o s a b W R Va Vb Ta Tb Oa Ob Tr HK HN RK.
  destruct (round_trip o s a b) as (d & r & D1 & D2 & R1 & R2 & R3 & R4); auto; [congruence |].
  assert (Tr' : trim s r = Ok r) by (apply (trimmed_same r s b); auto).
  unfold config_add_delta, delta_nc, config_add, config_new. cbn [d_opts d_dst d_src]. rewrite D1. cbn [bind]. rewrite R1. cbn [bind].
  rewrite (retrieve_valid s r R R3) by congruence. rewrite Tr'. cbn [bind].
  exists r. split; auto. split; auto. assert (S : SameData s r b) by (apply Same_SameData; auto). split; auto.
  destruct (cmp_eq_iff s r b R3 Vb) as (e & E1 & E2); [congruence |]. rewrite E1. f_equal. apply E2. auto.
Qed.

(** ** The reverse *)
Lemma before_total : forall {A} (u v : A) l, In u l -> In v l -> u <> v -> before u v l \/ before v u l.
Proof.
  intros A u v l Hu Hv N. apply in_split in Hu. destruct Hu as (l1 & l2 & E). subst l. apply in_app_or in Hv.
  destruct Hv as [Hv | [Hv | Hv]]; [| contradiction |].
  - right. apply before_split. auto.
  - left. apply in_split in Hv. destruct Hv as (l3 & l4 & E). subst. exists l1, l3, l4. reflexivity.
Qed.

Lemma before_antisym : forall {A} (u v : A) l, NoDup l -> before u v l -> before v u l -> False.
Proof.
  intros A u v l ND (l1 & l2 & l3 & E) H. subst l.
  apply (before_app_inv v u l1 (l2 ++ v :: l3)) in H; auto.
  assert (X : In v (l1 ++ u :: l2)) by (apply in_or_app; auto).
  rewrite app_comm_cons, app_assoc in ND. apply NoDup_remove_2 in ND. apply ND. apply in_or_app. auto.
Qed.

Lemma before_neq : forall {A} (u v : A) l, NoDup l -> before u v l -> u <> v.
Proof. intros A u v l ND H E. subst v. eapply before_antisym; eauto. Qed.

Lemma KeepsOrder_sym : forall s a b, valid s a = true -> valid s b = true -> KeepsOrder s a b -> KeepsOrder s b a.
Proof.
  intros s a b Va Vb H p s' nb na Ab Aa t cs vs us HD HU Ov Ou u v P Iu Iv.
  assert (Vna := At_valid p s a s' na Va Aa). assert (Vnb := At_valid p s b s' nb Vb Ab).
  destruct (valid_inv s' na Vna) as (_ & (la & Ia) & _). destruct (valid_inv s' nb Vnb) as (_ & (lb & Ib) & _).
  assert (NDu : NoDup us).
  { rewrite (Order_seqt s' na la t us cs Vna Ia HD Ou). apply seqt_NoDup. apply Ia. }
  assert (NDv : NoDup vs).
  { rewrite (Order_seqt s' nb lb t vs cs Vnb Ib HD Ov). apply seqt_NoDup. apply Ib. }
  assert (N := before_neq u v vs NDv P).
  destruct (before_total u v us Iu Iv N) as [G | G]; auto. exfalso.
  destruct (before_In u v vs P) as [Ju Jv].
  assert (X := H p s' na nb Aa Ab t cs us vs HD HU Ou Ov v u G Jv Ju). apply (before_antisym u v vs NDv P X).
Qed.

Lemma NoSwitch_sym : forall s a b, NoSwitch s a b -> NoSwitch s b a.
Proof.
  intros s a b H p s' nb na Ab Aa cb ca db da j i n m q kb ka Hcb Hca Db Da L1 L2 L3 T3 L4 T4.
  symmetry. apply (H p s' na nb Aa Ab ca cb da db i j m n q ka kb); auto.
Qed.

(** ** Pairs that end in place *)
Lemma Order_NoDup : forall s x t cs us, valid s x = true -> Defines s t cs -> Order s t (xkids x) us -> NoDup us.
Proof.
  intros s x t cs us V D O. destruct (valid_inv s x V) as (_ & (l & I) & _).
  rewrite (Order_seqt s x l t us cs V I D O). apply seqt_NoDup. apply I.
Qed.

Theorem cuts_end : forall s a b, valid s a = true -> valid s b = true -> CutsOnce s a b -> EndsInPlace s a b.
Proof.
  intros s a b Va Vb H p s' na nb Aa Ab t cs us vs D U Oa Ob.
  assert (Vna := At_valid p s a s' na Va Aa). assert (Vnb := At_valid p s b s' nb Vb Ab).
  apply one_cut; [apply (Order_NoDup s' na t cs) | apply (Order_NoDup s' nb t cs) | apply (H p s' na nb Aa Ab t cs)]; auto.
Qed.

Theorem kept_cuts : forall s a b, KeepsOrder s a b -> CutsOnce s a b.
Proof.
  intros s a b H p s' na nb Aa Ab t cs us vs D U Oa Ob. exists vs, []. rewrite app_nil_r. split; auto.
  split; [exact (H p s' na nb Aa Ab t cs us vs D U Oa Ob) |]. split; [intros u v _ [] | intros u []].
Qed.

Theorem kept_end : forall s a b, valid s a = true -> valid s b = true -> KeepsOrder s a b -> EndsInPlace s a b.
Proof. intros s a b Va Vb H. apply cuts_end; auto. apply kept_cuts. auto. Qed.

(** ** Equal configs *)
Lemma Ok2_same : forall a s b, valid s a = true -> valid s b = true -> Same s a b -> Ok2 s (xkids a) (xkids b).
Proof.
  intro a. induction a as [t tx at_ ks IH] using xml_ind'. intros s b Va Vb S.
  set (a := Elem t tx at_ ks) in *. change ks with (xkids a) in IH. rewrite Forall_forall in IH.
  destruct (valid_inv s a Va) as (_ & (la & Ia) & Ka). destruct (valid_inv s b Vb) as (_ & (lb & Ib) & Kb).
  apply (ok2 s (xkids a) (xkids b) la lb); auto.
  - intros n cs Hs U. rewrite <- (Same_seqt s a b la lb n cs); auto.
    apply kept_replay; [apply seqt_NoDup; apply Ia | apply seqt_NoDup; apply Ia | intros u v H _ _; exact H].
  - intros u ca Hin Hn _. apply Hn. apply (Index_assoc s _ la u ca Ia) in Hin.
    destruct (Same_assoc s a b la lb u ca S Ia Ib Hin) as (cb & cs & H & _). apply (assoc_Some_In uid_eqb uid_eqb_ok). eauto.
  - intros u ca cb cs H1 H2 Hs.
    assert (Ca := Index_kid s _ la u ca Ia H1). assert (Cb := Index_kid s _ lb u cb Ib H2).
    assert (H1' := H1). apply (Index_assoc s _ la u ca Ia) in H1'. apply (Index_assoc s _ lb u cb Ib) in H2.
    destruct (Same_assoc s a b la lb u ca S Ia Ib H1') as (cb' & cs' & E1 & E2 & E3).
    assert (cb' = cb) by congruence. assert (cs' = cs) by congruence. subst.
    destruct (Ka ca Ca) as (cs1 & Q1 & V1). destruct (Kb cb Cb) as (cs2 & Q2 & V2).
    assert (T : xtag ca = xtag cb) by (apply (Same_tag cs); auto).
    assert (cs1 = cs) by congruence. assert (cs2 = cs) by congruence. subst. apply IH; auto.
Qed.

Theorem round_trip_same : forall o s a b, wfs s = true -> sty s = TRoot -> valid s a = true -> valid s b = true ->
  Same s a b -> orderable s a = true -> orderable s b = true -> RootKept o s a b ->
  exists d r, nc_sub o s b a = Ok d /\ xtag d = xtag b /\ nc_add s a d = Ok r /\ xtag r = xtag a /\ valid s r = true /\ Same s r b.
Proof.
  intros o s a b W Rt Va Vb HS Oa Ob RK. assert (Et : xtag a = xtag b) by (apply (Same_tag s); auto).
  destruct (valid_inv s a Va) as (Aa & _ & Ka). destruct (valid_inv s b Vb) as (Ab & _ & Kb).
  assert (Ta : xtext a = None) by (apply (valid_text s a Va); rewrite Rt; discriminate).
  assert (Tb : xtext b = None) by (apply (valid_text s b Vb); rewrite Rt; discriminate).
  destruct (nc_sub_ok o s a b) as (d & D1 & D2 & D3); auto using valid_validk.
  destruct (round_trip_ok2 s a b d) as (r & R); auto.
  { apply Ok2_same; auto. }
  exists d, r. tauto.
Qed.

Lemma Same_leaf_lists : forall s a b, valid s a = true -> valid s b = true -> Same s a b -> TopLeafListsAgree s a b.
Proof.
  intros s a b Va Vb S t cs HD Ht N1 N2.
  destruct (valid_inv s a Va) as (_ & (la & Ia) & Ka). destruct (valid_inv s b Vb) as (_ & (lb & Ib) & Kb).
  assert (Hs : schema_child s t = Ok cs).
  { unfold values_below in N1. destruct (filter _ (xkids a)) as [| c r] eqn:E; [exfalso; apply N1; auto |].
    assert (I : In c (filter (fun c => String.eqb (xtag c) t) (xkids a))) by (rewrite E; left; auto).
    apply filter_In in I. destruct I as [I1 I2]. apply String.eqb_eq in I2. destruct (Ka c I1) as (cs' & Q & _).
    rewrite I2 in Q. assert (cs = cs') by (eapply Defines_schema_child; eauto). congruence. }
  unfold values_below. fold (kids_tagged t (xkids a)). fold (kids_tagged t (xkids b)).
  rewrite (leaf_list_values s (xkids a) la t cs), (leaf_list_values s (xkids b) lb t cs) by auto.
  destruct (s_user (si cs)) eqn:U.
  - f_equal. apply (Same_seqt s a b la lb t cs); auto. apply is_user_seq_iff. auto.
  - intro v. rewrite !in_map_iff. split; intros (w & E & Hin); exists w; split; auto;
      [apply (Same_seqt_In s a b la lb) | apply (Same_seqt_In s b a lb la)]; auto using Same_sym.
Qed.

(** Working lists in which everything treated so far is an entry of a user-ordered
    sequence *)
Definition user_tag (s : snode) (t : string) : Prop := exists cs, schema_child s t = Ok cs /\ is_user_seq cs = true.
Definition OnlyUser (s : snode) (todo : list uid) (L : list went) : Prop :=
  forall w, In w L -> fst (w_uid w) = xtag (w_xml w) /\ (In (w_uid w) todo \/ user_tag s (fst (w_uid w))).

Lemma OnlyUser_init : forall s l es, Index s l es -> OnlyUser s (uids es) (w_init es).
Proof.
  intros s l es I w Hw. apply in_map_iff in Hw. destruct Hw as ([u c] & E & Hin). subst w. simpl. split.
  - apply (Index_tag s l es u c I Hin).
  - left. apply (in_map fst) in Hin. exact Hin.
Qed.

Lemma OnlyUser_del : forall s u todo L, OnlyUser s (u :: todo) L -> OnlyUser s todo (w_del u L).
Proof.
  intros s u todo L H w Hw. apply filter_In in Hw. destruct Hw as [H1 H2]. destruct (H w H1) as [H3 [[H4 | H4] | H4]]; auto.
  exfalso. rewrite <- H4, uid_eqb_refl in H2. discriminate.
Qed.

Lemma OnlyUser_upd : forall s u todo L x, OnlyUser s (u :: todo) L -> user_tag s (fst u) -> xtag x = fst u -> OnlyUser s todo (w_upd u x L).
Proof.
  intros s u todo L x H U T w Hw. apply in_map_iff in Hw. destruct Hw as (w0 & E & H0). specialize (H w0 H0).
  destruct (uid_eqb u (w_uid w0)) eqn:F.
  - subst w. simpl. auto.
  - subst w0. destruct H as [H1 [[H2 | H2] | H2]]; auto. exfalso. rewrite <- H2, uid_eqb_refl in F. discriminate.
Qed.

Lemma OnlyUser_keep : forall s u todo L, OnlyUser s (u :: todo) L -> user_tag s (fst u) -> OnlyUser s todo L.
Proof.
  intros s u todo L H U w Hw. destruct (H w Hw) as [H1 [[H2 | H2] | H2]]; auto. subst u. auto.
Qed.

Lemma strip_tag : forall cs x x', strip_to_keys cs x = Ok x' -> xtag x' = xtag x.
Proof.
  intros cs x x' H. unfold strip_to_keys in H. apply bind_ok in H. destruct H as (l & _ & H). inversion H. destruct x. reflexivity.
Qed.

Lemma seq_attrs_tags : forall t k L prev L', seq_attrs t k prev L = Ok L' ->
  map (fun w => xtag (w_xml w)) L' = map (fun w => xtag (w_xml w)) L.
Proof.
  intros t k L. induction L as [| w r IH]; intros prev L' H; cbn [seq_attrs] in H; [inversion H; auto |].
  destruct (w_orig w && w_tag t w).
  - apply bind_ok in H. destruct H as (x' & H1 & H). apply bind_ok in H. destruct H as (r' & H2 & H). inversion H; subst L'.
    cbn [map w_xml]. f_equal; [| eapply IH; eauto].
    destruct prev as [p |]; [destruct k as [keys |] |].
    + apply bind_ok in H1. destruct H1 as (ps & _ & H1). inversion H1. destruct (w_xml w). reflexivity.
    + destruct (xtext p); inversion H1. destruct (w_xml w). reflexivity.
    + inversion H1. destruct (w_xml w). reflexivity.
  - apply bind_ok in H. destruct H as (r' & H2 & H). inversion H; subst L'. cbn [map]. f_equal. eapply IH; eauto.
Qed.

Lemma all_seq_tags : forall m L L', all_seq_attrs m L = Ok L' ->
  map (fun w => xtag (w_xml w)) L' = map (fun w => xtag (w_xml w)) L.
Proof.
  intros m. unfold all_seq_attrs. induction m as [| [t k] m IH]; intros L L' H; cbn [foldM] in H; [inversion H; auto |].
  apply bind_ok in H. destruct H as (L1 & H1 & H2). rewrite (IH _ _ H2). eapply seq_attrs_tags; eauto.
Qed.

Lemma no_root_keys : forall s t cs, wfs s = true -> sty s = TRoot -> schema_child s t = Ok cs -> s_is_key (si cs) = false.
Proof.
  intros [i ks] t cs W R Hs. apply schema_child_entry in Hs. destruct Hs as (e & He & E). apply schema_entry_In in He.
  destruct He as [He _]. cbn [wfs] in W. rewrite !andb_true_iff in W. destruct W as [[_ W] _].
  rewrite forallb_forall in W. specialize (W e He). rewrite E in W. unfold sty, si in R. rewrite R in W. simpl in W.
  rewrite andb_true_iff in W. destruct W as [W _]. destruct (s_is_key (si cs)); auto.
Qed.

Lemma Same_marked : forall s n v x y, valid s x = true -> valid s y = true -> node_eq s (set_attr n v x) (set_attr n v y) = node_eq s x y.
Proof.
  intros s n v x y Vx Vy. destruct (valid_inv s x Vx) as (Ax & _ & _). destruct (valid_inv s y Vy) as (Ay & _ & _).
  unfold node_eq. rewrite !node_le_marked; auto.
Qed.

Section Equal.
Variables (o : opts) (s : snode) (a b : xml) (la lb : list ent).
Hypothesis W : wfs s = true.
Hypothesis Rt : sty s = TRoot.
Hypothesis Va : valid s a = true.
Hypothesis Vb : valid s b = true.
Hypothesis HS : Same s a b.
Hypothesis Ia : Index s (xkids a) la.
Hypothesis Ib : Index s (xkids b) lb.

Lemma only_in_nil : forall x y lx ly, Same s x y -> Index s (xkids x) lx -> Index s (xkids y) ly -> only_in lx ly = [].
Proof.
  intros x y lx ly S Ix Iy. destruct (only_in lx ly) as [| [u c] r] eqn:E; auto. exfalso.
  assert (H : In (u, c) (only_in lx ly)) by (rewrite E; left; auto). apply only_in_In in H. destruct H as [H1 H2].
  apply (Index_assoc s _ lx u c Ix) in H1. destruct (Same_assoc s x y lx ly u c S Ix Iy H1) as (c' & cs & H & _).
  apply H2. apply (assoc_Some_In uid_eqb uid_eqb_ok). eauto.
Qed.

Lemma both_facts : forall u cb ca, In (u, cb, ca) (both_in lb la) -> exists cs, schema_child s (xtag cb) = Ok cs /\
  valid cs cb = true /\ valid cs ca = true /\ Same cs cb ca /\ fst u = xtag cb /\ xtag ca = xtag cb.
Proof.
  intros u cb ca H. apply both_in_In in H. destruct H as [H1 H2]. assert (H1' := H1).
  apply (Index_assoc s _ lb u cb Ib) in H1'.
  destruct (Same_assoc s b a lb la u cb (Same_sym _ _ _ HS) Ib Ia H1') as (ca' & cs & E1 & E2 & E3).
  assert (ca' = ca) by congruence. subst. exists cs. split; auto.
  destruct (valid_inv s a Va) as (_ & _ & Ka). destruct (valid_inv s b Vb) as (_ & _ & Kb).
  apply (Index_assoc s _ la u ca Ia) in H2.
  destruct (Kb cb (Index_kid s _ lb u cb Ib H1)) as (cs1 & Q1 & V1).
  destruct (Ka ca (Index_kid s _ la u ca Ia H2)) as (cs2 & Q2 & V2).
  assert (T : xtag cb = xtag ca) by (apply (Same_tag cs); auto).
  assert (cs1 = cs) by congruence. assert (cs2 = cs) by congruence. subst. split; auto. split; auto. split; auto. split; auto.
  apply (Index_tag s _ lb u cb Ib H1).
Qed.

Lemma both_uids : map (fun p => fst (fst p)) (both_in lb la) = uids lb.
Proof.
  assert (N := only_in_nil b a lb la (Same_sym _ _ _ HS) Ib Ia). unfold both_in, only_in, uids in *.
  revert N. generalize la as lA. clear. induction lb as [| [u c] r IH]; intros lA N; auto. cbn [flat_map filter fst] in *.
  destruct (assoc uid_eqb u lA) as [x |] eqn:E.
  - cbn [app map fst]. f_equal. apply IH. destruct (mem uid_eqb u (map fst lA)) eqn:M; cbn [negb] in N; [auto | discriminate].
  - exfalso. apply (assoc_None uid_eqb uid_eqb_ok) in E. apply (mem_not_In uid_eqb uid_eqb_ok) in E.
    rewrite E in N. discriminate.
Qed.

Lemma sub_both_equal : forall rec p st st' todo, In p (both_in lb la) -> sub_both o rec s st p = Ok st' ->
  OnlyUser s (fst (fst p) :: todo) (ss_self st) -> OnlyUser s todo (ss_self st').
Proof.
  intros rec [[u cb] ca] st st' todo Hin H I. destruct (both_facts u cb ca Hin) as (cs & Hs & V1 & V2 & S & T & T2).
  unfold sub_both in H. rewrite Hs in H. cbn [bind] in H. cbn [fst] in I.
  destruct (node_eq_total cs cb ca V1 V2) as (e & E1 & E2). assert (Ee : e = true) by (apply E2; auto). subst e.
  assert (NK := no_root_keys s _ cs W Rt Hs).
  assert (UT : is_user_seq cs = true -> user_tag s (fst u)) by (intro; exists cs; rewrite T; auto).
  destruct (sty cs) eqn:Et; try discriminate.
  - assert (ST : same_text cs cb ca = Ok true).
    { destruct (valid_same_text cs cb ca V1 V2) as (e & Q1 & Q2). rewrite Q1. f_equal. apply Q2. unfold value_of. rewrite Et.
      apply (Same_text cs); auto. rewrite Et. auto. }
    rewrite ST in H. cbn [bind] in H. rewrite NK in H. inversion H. apply OnlyUser_del. auto.
  - destruct (s_user (si cs)) eqn:U; inversion H; cbn [ss_self].
    + apply (OnlyUser_upd s u todo); auto. apply UT. apply is_user_seq_iff. auto.
    + apply OnlyUser_del. auto.
  - rewrite E1 in H. cbn [bind] in H. inversion H. apply OnlyUser_del. auto.
  - rewrite E1 in H. cbn [bind] in H. destruct (s_user (si cs)) eqn:U; cycle 1.
    + inversion H. apply OnlyUser_del. auto.
    + apply bind_ok in H. destruct H as (x1 & X1 & H). apply bind_ok in H. destruct H as (x2 & X2 & H). inversion H. cbn [ss_self].
      apply (OnlyUser_upd s u todo); auto; [apply UT; apply is_user_seq_iff; auto |]. rewrite (strip_tag _ _ _ X1). auto.
Qed.

Lemma repl_both_equal : forall p st st' todo, In p (both_in lb la) -> repl_both s st p = Ok st' ->
  OnlyUser s (fst (fst p) :: todo) (r_self st) -> OnlyUser s todo (r_self st').
Proof.
  intros [[u cb] ca] st st' todo Hin H I. destruct (both_facts u cb ca Hin) as (cs & Hs & V1 & V2 & S & T & T2).
  unfold repl_both in H. rewrite Hs in H. cbn [bind] in H. cbn [fst] in I. rewrite (Same_marked cs _ _ cb ca V1 V2) in H.
  destruct (node_eq_total cs cb ca V1 V2) as (e & E1 & E2). assert (Ee : e = true) by (apply E2; auto). subst e.
  assert (NK := no_root_keys s _ cs W Rt Hs).
  assert (UT : is_user_seq cs = true -> user_tag s (fst u)) by (intro; exists cs; rewrite T; auto).
  assert (TG : xtag (set_attr operation_tag "replace" cb) = fst u) by (destruct cb; auto).
  destruct (sty cs) eqn:Et; try discriminate.
  - assert (ST : same_text cs cb ca = Ok true).
    { destruct (valid_same_text cs cb ca V1 V2) as (e & Q1 & Q2). rewrite Q1. f_equal. apply Q2. unfold value_of. rewrite Et.
      apply (Same_text cs); auto. rewrite Et. auto. }
    rewrite ST in H. cbn [bind] in H. rewrite NK in H. inversion H. apply OnlyUser_del. auto.
  - destruct (s_user (si cs)) eqn:U; inversion H; cbn [r_self].
    + apply (OnlyUser_upd s u todo); auto. apply UT. apply is_user_seq_iff. auto.
    + apply OnlyUser_del. auto.
  - rewrite E1 in H. cbn [bind] in H. inversion H. apply OnlyUser_del. auto.
  - rewrite E1 in H. cbn [bind] in H. destruct (s_user (si cs)) eqn:U; cbn [negb andb] in H; inversion H; cbn [r_self].
    + apply (OnlyUser_upd s u todo); auto. apply UT. apply is_user_seq_iff. auto.
    + apply OnlyUser_del. auto.
Qed.

Lemma fold_equal : forall {S} (f : S -> uid * xml * xml -> res S) (g : S -> list went) l st st',
  (forall p st st' todo, In p l -> f st p = Ok st' -> OnlyUser s (fst (fst p) :: todo) (g st) -> OnlyUser s todo (g st')) ->
  foldM f st l = Ok st' -> OnlyUser s (map (fun p => fst (fst p)) l) (g st) -> OnlyUser s [] (g st').
Proof.
  intros S f g l. induction l as [| p r IH]; intros st st' Hf H I; cbn [foldM map] in *; [inversion H; subst; auto |].
  apply bind_ok in H. destruct H as (st1 & H1 & H2). apply (IH st1 st'); auto.
  - intros. eapply Hf; eauto. right. auto.
  - apply (Hf p st st1); auto. left. auto.
Qed.

Lemma OnlyUser_kids : forall m L L', OnlyUser s [] L -> all_seq_attrs m L = Ok L' ->
  forall c, In c (map w_xml L') -> user_tag s (xtag c).
Proof.
  intros m L L' H A c Hc. apply all_seq_tags in A. apply in_map_iff in Hc. destruct Hc as (w & E & Hw).
  assert (G : In (xtag c) (map (fun w => xtag (w_xml w)) L')) by (apply in_map_iff; exists w; subst; auto).
  rewrite A in G. apply in_map_iff in G. destruct G as (w0 & E0 & H0). destruct (H w0 H0) as [H1 [[] | H2]]. congruence.
Qed.

Theorem equal_delta : forall d, nc_sub o s b a = Ok d -> forall c, In c (xkids d) -> user_tag s (xtag c).
Proof.
  intros d H.
  assert (Gr : group_kids s (xkids b) (xkids a) = Ok (Groups [] [] (both_in lb la))).
  { rewrite (group_ok s (xkids b) (xkids a) lb la Ib Ia).
    rewrite (only_in_nil b a lb la (Same_sym _ _ _ HS) Ib Ia), (only_in_nil a b la lb HS Ia Ib). reflexivity. }
  assert (Xb : index_kids s (xkids b) = Ok lb) by (apply index_ok; auto).
  assert (Xa : index_kids s (xkids a) = Ok la) by (apply index_ok; auto).
  assert (In0 : OnlyUser s (map (fun p => fst (fst p)) (both_in lb la)) (w_init lb)).
  { rewrite both_uids. eapply OnlyUser_init; eauto. }
  assert (GR : forall d, config_replace o s b a = Ok d -> forall c, In c (xkids d) -> user_tag s (xtag c)).
  { clear H d. intros d H c Hc. unfold config_replace in H. rewrite Gr in H. cbn [bind in_1_not_2 in_2_not_1 in_1_and_2] in H.
    rewrite Xb in H. cbn [bind foldM] in H. apply bind_ok in H. destruct H as (st3 & H3 & H). apply bind_ok in H.
    destruct H as (l & Hl & H). inversion H; subst d. destruct (set_kids_parts (map w_xml l) b) as (_ & _ & _ & K).
    rewrite K in Hc. apply (OnlyUser_kids (r_obu st3) (r_self st3) l); auto.
    apply (fold_equal (repl_both s) r_self (both_in lb la) _ _ (fun p st st' todo => repl_both_equal p st st' todo) H3). exact In0. }
  assert (GS : forall p, node_sub (height b) o s 0 b a = Ok p -> forall c, In c (xkids (fst p)) -> user_tag s (xtag c)).
  { intros p Hp c Hc. destruct (height b) as [| f]; [discriminate |]. cbn [node_sub] in Hp.
    assert (DF : match o_replace o with PRMerge => Ok false | PRReplace => leaf_lists_differ s (xkids b) (xkids a) end = Ok false).
    { destruct (o_replace o); auto. apply differ_none; auto using valid_validk. apply Same_leaf_lists; auto. }
    rewrite DF in Hp. cbn [bind] in Hp. rewrite Gr in Hp. cbn [bind in_1_not_2 in_2_not_1 in_1_and_2] in Hp.
    rewrite Xb in Hp. cbn [bind] in Hp. rewrite Xa in Hp. cbn [bind foldM] in Hp. apply bind_ok in Hp. destruct Hp as (st3 & H3 & Hp).
    apply bind_ok in Hp. destruct Hp as (ls & Hl & Hp). apply bind_ok in Hp. destruct Hp as (lo & _ & Hp). inversion Hp; subst p.
    cbn [fst] in Hc. destruct (set_kids_parts (map w_xml ls) b) as (_ & _ & _ & K). rewrite K in Hc.
    apply (OnlyUser_kids (ss_obu st3) (ss_self st3) ls); auto.
    eapply (fold_equal _ ss_self (both_in lb la) _ _ (fun p st st' todo => sub_both_equal _ p st st' todo) H3). exact In0. }
  unfold nc_sub in H. destruct (o_type o).
  - apply bind_ok in H. destruct H as (d' & H1 & H2). inversion H2; subst d'. apply bind_ok in H1. destruct H1 as (p & P1 & P2).
    inversion P2; subst. eapply GS; eauto.
  - apply bind_ok in H. destruct H as (d' & H1 & H2). inversion H2; subst d. apply bind_ok in H1. destruct H1 as (p & P1 & P2).
    inversion P2; subst. intros c Hc. rewrite mark_kids in Hc. apply in_map_iff in Hc. destruct Hc as (c0 & E & Hc0).
    subst c. destruct (mark_parts (o_depth o + 1 - 1) c0) as [E _]. rewrite E. eapply GS; eauto.
  - destruct (Z.eqb (o_depth o) 0).
    + apply bind_ok in H. destruct H as (d' & H1 & H2). inversion H2; subst d'. eapply GR; eauto.
    + apply bind_ok in H. destruct H as (d' & H1 & H2). inversion H2; subst d'. apply bind_ok in H1. destruct H1 as (p & P1 & P2).
      inversion P2; subst. eapply GS; eauto.
Qed.
End Equal.
