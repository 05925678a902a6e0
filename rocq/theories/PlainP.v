(** The nodes that node_sub and get_config_replace put into a delta for data that
    only one of the two configs has. *)
From Coq Require Import String Ascii List Bool Arith ZArith Lia Permutation.
From Verif Require Import Base BaseP XmlM CalcM CalcP NetconfM ListP DataSpec DataP DeltaSpec DeltaR NameP AddP AddStepP.
Import ListNotations.
Open Scope string_scope.
Open Scope list_scope.

Section Late.
Context {LK : late}.

(** ** Attributes *)
Lemma assoc_dset : forall n m v (l : list (string * string)),
  assoc String.eqb n (dset String.eqb m v l) = if String.eqb n m then Some v else assoc String.eqb n l.
Proof.
  intros n m v l. induction l as [| [k w] r IH]; simpl.
  - destruct (String.eqb n m) eqn:E; auto.
  - destruct (String.eqb m k) eqn:E; simpl.
    + apply String.eqb_eq in E. subst k. destruct (String.eqb n m); auto.
    + destruct (String.eqb n k) eqn:F; auto. apply String.eqb_eq in F. subst k.
      rewrite String.eqb_sym in E. rewrite E. auto.
Qed.

Lemma get_set : forall n m v x, get_attr n (set_attr m v x) = if String.eqb n m then Some v else get_attr n x.
Proof. intros n m v [t tx a ks]. unfold get_attr. simpl. apply assoc_dset. Qed.

Lemma set_attr_parts : forall n v x, xtag (set_attr n v x) = xtag x /\ xtext (set_attr n v x) = xtext x /\
  xkids (set_attr n v x) = xkids x.
Proof. intros n v [t tx a ks]. auto. Qed.

Lemma op_set : forall v x, get_attr operation_tag (set_attr operation_tag v x) = Some v.
Proof. intros. rewrite get_set. reflexivity. Qed.

Lemma op_replace : forall x, op_of (set_attr operation_tag "replace" x) = OpReplace.
Proof. intros. unfold op_of. rewrite op_set. reflexivity. Qed.
Lemma op_create : forall x, op_of (set_attr operation_tag "create" x) = OpCreate.
Proof. intros. unfold op_of. rewrite op_set. reflexivity. Qed.

Lemma no_attrs : forall n x, xattrs x = [] -> get_attr n x = None.
Proof. intros n x H. unfold get_attr. rewrite H. reflexivity. Qed.

Lemma op_merge : forall x, xattrs x = [] -> op_of x = OpMerge.
Proof. intros x H. unfold op_of. rewrite no_attrs; auto. Qed.

(** ** Identity depends on tag, text and children only *)
Lemma uid_congr : forall s x y, xtag x = xtag y -> xtext x = xtext y -> xkids x = xkids y -> uid_of s x = uid_of s y.
Proof.
  intros s x y H1 H2 H3. unfold uid_of. rewrite H1. destruct (schema_child s (xtag y)) as [cs |]; simpl; auto.
  destruct (sty cs) eqn:Ht; auto.
  - unfold parse_text. rewrite H2, Ht. reflexivity.
  - unfold key_tuple, find_one_child. rewrite H3. reflexivity.
Qed.

Lemma uid_set_attr : forall s n v x, uid_of s (set_attr n v x) = uid_of s x.
Proof. intros s n v x. destruct (set_attr_parts n v x) as (H1 & H2 & H3). apply uid_congr; auto. Qed.

(** [EntD] depends on operation, text and children of the delta node only. *)
Lemma EntD_congr : forall n s la lb oa ob cd cd', EntD n s la lb oa ob (Some cd) ->
  op_of cd' = op_of cd -> xtext cd' = xtext cd -> xkids cd' = xkids cd -> EntD n s la lb oa ob (Some cd').
Proof.
  intros n s la lb oa ob cd cd' H E1 E2 E3.
  assert (HB : forall cb, Body cd cb -> Body cd' cb) by (intros cb [B1 B2]; split; congruence).
  inversion H; subst; unfold key_copies in *; rewrite <- ?E1, <- ?E3 in *;
  first [ eapply e_put; eauto; fail | eapply e_new_cont; eauto; fail
        | eapply e_new_list; unfold key_copies; eauto; fail | eapply e_del; eauto; fail
        | eapply e_del_cont; eauto; fail | eapply e_leaf; eauto; fail
        | eapply e_repl; eauto; fail | eapply e_deep; eauto; fail ].
Qed.

(** ** Copies *)
Lemma Bare_refl : forall x s, valid s x = true -> Bare x x.
Proof.
  intro x. induction x as [t tx a ks IH] using xml_ind'. intros s V. destruct (valid_inv s _ V) as (Ha & _ & Hk).
  simpl in *. apply bare; simpl; auto.
  - unfold no_edit, get_attr. simpl. rewrite Ha. auto.
  - clear V. induction IH as [| c r Hc IHf IHl]; constructor.
    + destruct (Hk c (or_introl eq_refl)) as (cs & _ & Vc). eapply Hc; eauto.
    + apply IHl. intros c' Hc'. apply Hk. right. auto.
Qed.

Lemma Body_refl : forall x s, valid s x = true -> Body x x.
Proof. intros x s V. assert (H := Bare_refl x s V). inversion H; subst. split; auto. Qed.

Lemma Body_congr : forall x y cb, xtext x = xtext y -> xkids x = xkids y -> Body y cb -> Body x cb.
Proof. intros x y cb H1 H2 [B1 B2]. split; congruence. Qed.

(** ** Lists with the same identities *)
Lemma index_parallel : forall (Q : uid -> xml -> xml -> Prop) s kb lb kd,
  Index s kb lb -> Forall2 (fun e cd => uid_of s cd = Ok (fst e) /\ Q (fst e) (snd e) cd) lb kd ->
  exists ld, Index s kd ld /\ uids ld = uids lb /\
    forall u, (assoc uid_eqb u lb = None /\ assoc uid_eqb u ld = None) \/
              exists cb cd, assoc uid_eqb u lb = Some cb /\ assoc uid_eqb u ld = Some cd /\ Q u cb cd.
Proof.
  intros Q s kb lb kd HI HF.
  assert (G : exists ld, map snd ld = kd /\ Forall (fun e => uid_of s (snd e) = Ok (fst e)) ld /\ uids ld = uids lb /\
    forall u, (assoc uid_eqb u lb = None /\ assoc uid_eqb u ld = None) \/
              exists cb cd, assoc uid_eqb u lb = Some cb /\ assoc uid_eqb u ld = Some cd /\ Q u cb cd).
  { clear HI. induction HF as [| [u cb] cd lb kd [H1 H2] HF IH].
    - exists []. repeat split; auto.
    - destruct IH as (ld & I1 & I2 & I3 & I4). simpl in *. exists ((u, cd) :: ld). simpl. split; [congruence |].
      split; [constructor; auto |]. split; [congruence |]. intro w. destruct (uid_eqb w u) eqn:E.
      + apply uid_eqb_ok in E. subst. right. eauto.
      + apply I4. }
  destruct G as (ld & G1 & G2 & G3 & G4). exists ld. split; auto. split; auto. split; auto. rewrite G3. apply HI.
Qed.

Lemma dseq_all : forall t lb ld, uids ld = uids lb -> map fst (dseq t lb ld) = seqt t lb.
Proof.
  intros t lb ld E. unfold dseq, seqt. rewrite <- E. unfold uids. rewrite filter_map. f_equal.
  apply filter_ext_in. intros e He. 
  assert (M : mem uid_eqb (fst e) (uids ld) = true) by (apply (mem_In uid_eqb uid_eqb_ok); apply (in_map fst); auto).
  transitivity (String.eqb (fst (fst e)) t && true); [f_equal; exact M | apply andb_true_r].
Qed.

(** ** Keys *)
Lemma key_copies_valid : forall s cs x u, wfs cs = true -> schema_child s (xtag x) = Ok cs -> sty cs = TList ->
  valid cs x = true -> uid_of s x = Ok u -> exists lk,
    key_copies cs x = Ok (map snd lk) /\ Index cs (map snd lk) lk /\
    (forall w kn, assoc uid_eqb w lk = Some kn -> In kn (xkids x) /\ w = (xtag kn, KNone) /\ uid_of cs kn = Ok w /\
       exists kc, schema_child cs (xtag kn) = Ok kc /\ sty kc = TLeaf).
Proof.
  intros s cs x u W Hs Ht V Hu. destruct (wfs_keys cs W Ht) as [ND HK].
  destruct (valid_inv cs x V) as (_ & _ & Hv).
  assert (HU : forall k, In k (s_keys (si cs)) -> exists kn, kids_tagged k (xkids x) = [kn])
    by (intros k Hk; apply (uid_key s x cs u k); auto).
  unfold key_copies. clear Hu.
  assert (G : exists lk, mapM (fun k => match find_kid k (xkids x) with
                 | None => Err AttributeError | Some kn => Ok (del_attrib kn) end) (s_keys (si cs)) = Ok (map snd lk) /\
            uids lk = map (fun k => (k, KNone)) (s_keys (si cs)) /\
            Forall (fun e => In (snd e) (xkids x) /\ fst e = (xtag (snd e), KNone) /\
               exists kc, schema_child cs (xtag (snd e)) = Ok kc /\ sty kc = TLeaf) lk).
  { induction (s_keys (si cs)) as [| k ks IH].
    - exists []. repeat split; auto.
    - inversion ND as [| ? ? Hn ND']; subst.
      destruct IH as (lk & I1 & I2 & I3); auto; [intros k' Hk'; apply HK; right; auto |
                                                intros k' Hk'; apply HU; right; auto |].
      destruct (HU k (or_introl eq_refl)) as (kn & Hkn). destruct (HK k (or_introl eq_refl)) as (_ & kc & K1 & K2 & _).
      assert (I : In kn (kids_tagged k (xkids x))) by (rewrite Hkn; left; auto).
      apply filter_In in I. destruct I as [Ik It]. apply String.eqb_eq in It.
      destruct (Hv kn Ik) as (kc' & _ & Vk).
      exists (((k, KNone), kn) :: lk). cbn [mapM]. rewrite (kids_tagged_find k _ kn Hkn). cbn [bind]. rewrite I1. cbn [bind].
      rewrite (valid_plain kn kc' Vk). split; auto. split; [simpl; f_equal; exact I2 |]. constructor; auto. simpl.
      split; auto. rewrite It. split; auto. eauto. }
  destruct G as (lk & G1 & G2 & G3). rewrite Forall_forall in G3.
  assert (Huid : forall e, In e lk -> uid_of cs (snd e) = Ok (fst e)).
  { intros e He. destruct (G3 e He) as (_ & E & kc & K1 & K2). transitivity (Ok (xtag (snd e), KNone)); [| f_equal; auto].
    apply (uid_other cs _ kc); auto; congruence. }
  exists lk. split; auto. split.
  - split; auto. split; [apply Forall_forall; auto |]. rewrite G2. clear -ND.
    induction ND as [| k ks Hn ND IH]; simpl; constructor; auto. intro X. apply in_map_iff in X.
    destruct X as (k' & E & X). inversion E; subst. contradiction.
  - intros w kn Hw. apply (assoc_In uid_eqb uid_eqb_ok) in Hw. destruct (G3 _ Hw) as (H1 & H2 & H3).
    assert (H4 := Huid _ Hw). simpl in *. auto.
Qed.

(** ** A copy of new data *)
Lemma no_user_leaves : forall s ka la t cs, Index s ka la ->
  (forall u c, assoc uid_eqb u la = Some c -> exists kc, schema_child s (xtag c) = Ok kc /\ sty kc = TLeaf) ->
  schema_child s t = Ok cs -> is_user_seq cs = true -> seqt t la = [].
Proof.
  intros s ka la t cs HI HL Hs U. destruct (seqt t la) as [| u r] eqn:E; auto. exfalso.
  assert (X : In u (seqt t la)) by (rewrite E; left; auto). apply seqt_In in X. destruct X as [X1 X2].
  apply assoc_Some_uids in X1. destruct X1 as (c & Hc). destruct (HL u c Hc) as (kc & K1 & K2).
  apply (Index_assoc s ka la u c HI) in Hc. rewrite <- (Index_tag s ka la u c HI Hc), X2 in K1.
  apply is_user_seq_iff in U. destruct U as [_ [U | U]]; congruence.
Qed.

Lemma dseq_In : forall t lb ld e, In e (dseq t lb ld) -> In e ld.
Proof. intros t lb ld e H. apply filter_In in H. tauto. Qed.

Lemma plain_new : forall x n s cs u la lb, schema_child s (xtag x) = Ok cs -> wfs s = true ->
  valid cs x = true -> uid_of s x = Ok u -> EntD n s la lb None (Some x) (Some x).
Proof.
  intro x. induction x as [t tx a ks IH] using xml_ind'. intros n s cs u la lb Hs Ws V Hu.
  set (x := Elem t tx a ks) in *.
  assert (W := wfs_child s _ cs Ws Hs).
  destruct (valid_inv cs x V) as (Ha & (lx & Hx) & Hk).
  assert (Hop := op_merge x Ha). assert (HB := Body_refl x cs V).
  assert (HIH : forall u c, assoc uid_eqb u lx = Some c -> EntD (S n) cs [] [] None (Some c) (Some c)).
  { intros w c Hc. apply (Index_assoc cs _ lx w c Hx) in Hc. rewrite Forall_forall in IH.
    assert (Hc' := Index_kid cs _ lx w c Hx Hc). destruct (Hk c Hc') as (kc & K1 & K2).
    apply (IH c Hc' (S n) cs kc w); auto. apply (Index_uid cs _ lx w c Hx Hc). }
  assert (Hgen : forall w c la lb, assoc uid_eqb w lx = Some c -> EntD (S n) cs la lb None (Some c) (Some c)).
  { intros w c la' lb' Hc. apply (Index_assoc cs _ lx w c Hx) in Hc. rewrite Forall_forall in IH.
    assert (Hc' := Index_kid cs _ lx w c Hx Hc). destruct (Hk c Hc') as (kc & K1 & K2).
    apply (IH c Hc' (S n) cs kc w); auto. apply (Index_uid cs _ lx w c Hx Hc). }
  assert (Hins : forall t0, Forall (fun e : uid * xml => get_attr insert_tag (snd e) = None) (dseq t0 lx lx)).
  { intro t0. apply Forall_forall. intros [w c] He. apply dseq_In in He. simpl.
    destruct (Hk c (Index_kid cs _ lx w c Hx He)) as (kc & _ & Vk). apply no_attrs. apply (valid_inv kc c Vk). }
  destruct (nonroot_data s _ cs x Ws Hs V) as [L | L].
  - apply (e_put n s la lb x x cs); auto.
  - destruct (sty cs) eqn:Ht; try discriminate.
    + apply (e_new_cont n s la lb x x cs); auto. apply (isd (S n) cs [] (xkids x) (xkids x) [] lx lx); auto.
      * apply Index_nil.
      * intro w. simpl. destruct (assoc uid_eqb w lx) as [c |] eqn:Ec; [eapply Hgen; eauto | apply e_none].
      * intros t0 cs0 _ _. apply ord_plain; auto. apply dseq_all. auto.
    + destruct (key_copies_valid s cs x u W Hs Ht V Hu) as (lk & K1 & K2 & K3).
      apply (e_new_list n s la lb x x cs (map snd lk)); auto.
      apply (isd (S n) cs (map snd lk) (xkids x) (xkids x) lk lx lx); auto.
      * intro w. destruct (assoc uid_eqb w lk) as [kn |] eqn:Ek.
        -- destruct (K3 w kn Ek) as (I1 & I2 & I3 & kc & I4 & I5).
           destruct (Index_In cs _ lx kn Hx I1) as (w' & Hw').
           assert (w' = w) by (assert (X := Index_uid cs _ lx w' kn Hx Hw'); congruence). subst w'.
           apply (Index_assoc cs _ lx w kn Hx) in Hw'. rewrite Hw'.
           destruct (Hk kn I1) as (kc' & J1 & J2). assert (kc' = kc) by congruence. subst kc'.
           apply (e_leaf (S n) cs lk lx kn kn kn kc); auto.
           ++ rewrite I5. auto.
           ++ left. apply op_merge. apply (valid_inv kc kn J2).
           ++ apply (Body_refl kn kc J2).
        -- destruct (assoc uid_eqb w lx) as [c |] eqn:Ec; [eapply Hgen; eauto | apply e_none].
      * intros t0 cs0 Hs0 U. apply ord_plain; auto.
        -- apply (no_user_leaves cs (map snd lk) lk t0 cs0); auto. intros w c Hw. destruct (K3 w c Hw) as (_ & _ & _ & X). exact X.
        -- apply dseq_all. auto.
Qed.

(** ** set_create_operation *)
Lemma set_create_kids : forall s t tx a ks, np_container s = true ->
  set_create s (Elem t tx a ks) =
  let! ks' := mapM (fun c => let! ce := schema_entry s (xtag c) in
                             if mem pos_eqb (ce_pos ce) (default_pos [] s) then Ok c
                             else set_create (ce_node ce) c) ks in
  Ok (Elem t tx a ks').
Proof.
  intros s t tx a ks N. cbn [set_create]. rewrite N. f_equal.
  induction ks as [| c r IH]; simpl; auto. destruct (schema_entry s (xtag c)) as [ce |]; simpl; auto.
  rewrite IH. reflexivity.
Qed.

Lemma schema_entry_child : forall s t cs, schema_child s t = Ok cs -> exists ce, schema_entry s t = Ok ce /\ ce_node ce = cs.
Proof. intros s t cs H. apply schema_child_entry. auto. Qed.

Lemma set_create_new : forall x s cs u, schema_child s (xtag x) = Ok cs -> wfs s = true ->
  valid cs x = true -> uid_of s x = Ok u ->
  exists x', set_create cs x = Ok x' /\ uid_of s x' = Ok u /\ get_attr insert_tag x' = None /\
    forall n la lb, EntD n s la lb None (Some x) (Some x').
Proof.
  intro x. induction x as [t tx a ks IH] using xml_ind'. intros s cs u Hs Ws V Hu.
  set (x := Elem t tx a ks) in *.
  assert (W := wfs_child s _ cs Ws Hs).
  destruct (valid_inv cs x V) as (Ha & (lx & Hx) & Hk).
  destruct (np_container cs) eqn:N.
  - assert (Hty : sty cs = TContainer).
    { unfold np_container in N. apply andb_true_iff in N. destruct N as [X _]. destruct (sty cs); auto; discriminate. }
    unfold x. rewrite set_create_kids; auto.
    set (Q := fun (w : uid) c c' => get_attr insert_tag c' = None /\ forall n la lb, EntD n cs la lb None (Some c) (Some c')).
    assert (G : exists ks', mapM (fun c => let! ce := schema_entry cs (xtag c) in
                             if mem pos_eqb (ce_pos ce) (default_pos [] cs) then Ok c
                             else set_create (ce_node ce) c) ks = Ok ks' /\
              Forall2 (fun e cd => uid_of cs cd = Ok (fst e) /\ Q (fst e) (snd e) cd) lx ks').
    { assert (E : map snd lx = ks) by apply Hx. clear V Hu. unfold x in *. clear x.
      change (xkids (Elem t tx a ks)) with ks in *.
      assert (Hl : forall e, In e lx -> In (snd e) ks /\ uid_of cs (snd e) = Ok (fst e)).
      { intros [w c] He. split; [eapply Index_kid; eauto | eapply Index_uid; eauto]. }
      rewrite Forall_forall in IH. rewrite <- E. clear E Hx. induction lx as [| [w c] r IHr]; [exists []; simpl; auto |].
      destruct IHr as (ks' & R1 & R2); [intros e He; apply Hl; right; auto |].
      destruct (Hl (w, c) (or_introl eq_refl)) as [Hc Hw]. simpl in Hc, Hw.
      destruct (Hk c Hc) as (kc & K1 & K2). destruct (schema_entry_child cs _ kc K1) as (ce & C1 & C2).
      assert (Z : exists c', (if mem pos_eqb (ce_pos ce) (default_pos [] cs) then Ok c else set_create (ce_node ce) c) = Ok c' /\
                uid_of cs c' = Ok w /\ Q w c c').
      { destruct (mem pos_eqb (ce_pos ce) (default_pos [] cs)).
        - exists c. split; auto. split; auto. split; [apply no_attrs; apply (valid_inv kc c K2) |].
          intros n la lb. apply (plain_new c n cs kc w); auto.
        - rewrite C2. destruct (IH c Hc cs kc w K1 W K2 Hw) as (c' & Z1 & Z2 & Z3 & Z4).
          exists c'. split; auto. split; auto. split; auto. }
      destruct Z as (c' & Z1 & Z2 & Z3). exists (c' :: ks'). simpl. rewrite C1. cbn [bind]. rewrite Z1. cbn [bind].
      rewrite R1. cbn [bind]. split; auto. }
    destruct G as (ks' & G1 & G2). rewrite G1. cbn [bind]. exists (Elem t tx a ks'). split; auto.
    change (xattrs x) with a in Ha. subst a.
    split.
    { rewrite (uid_other s (Elem t tx [] ks') cs) by (auto; congruence).
      rewrite (uid_other s x cs) in Hu by (auto; congruence). exact Hu. }
    split; [reflexivity |]. intros n la lb. apply (e_new_cont n s la lb x _ cs); auto.
    destruct (index_parallel Q cs _ lx ks' Hx G2) as (ld & P1 & P2 & P3).
    simpl. apply (isd (S n) cs [] ks ks' [] lx ld); auto.
    + apply Index_nil.
    + intro w. simpl. destruct (P3 w) as [(E1 & E2) | (cb & cd & E1 & E2 & _ & E3)]; rewrite E1, E2; [apply e_none | apply E3].
    + intros t0 cs0 _ _. apply ord_plain; auto; [apply dseq_all; auto |]. apply Forall_forall. intros [w c] He.
      apply dseq_In in He. apply (Index_assoc cs _ ld w c P1) in He. simpl.
      destruct (P3 w) as [(E1 & E2) | (cb & cd & E1 & E2 & E3 & _)]; congruence.
  - unfold x at 1. cbn [set_create]. rewrite N. fold x. exists (set_attr operation_tag "create" x). split; auto.
    split; [rewrite uid_set_attr; auto |].
    split; [rewrite get_set; simpl; apply no_attrs; auto |].
    intros n la lb. destruct (set_attr_parts operation_tag "create" x) as (P1 & P2 & P3).
    apply (e_put n s la lb x _ cs); auto; [left; apply op_create |].
    apply (Body_congr _ x); auto. apply (Body_refl x cs V).
Qed.

(** ** Deletions *)
Lemma del_keys_uid : forall s cs c u op, schema_child s (xtag c) = Ok cs -> wfs cs = true -> sty cs = TList ->
  uid_of s c = Ok u -> exists kk, del_keys cs c = Ok kk /\ uid_of s (Elem (xtag c) None [(operation_tag, op)] kk) = Ok u /\
    (forall k, In k kk -> xkids k = [] /\ no_edit k) /\ (forall k, In k kk -> In (xtag k) (s_keys (si cs))).
Proof.
  intros s cs c u op Hs W Ht Hu. destruct (wfs_keys cs W Ht) as [ND _].
  assert (Hu' := Hu). apply (uid_list s c cs Hs Ht) in Hu'. destruct Hu' as (ts & Hk & E).
  apply key_tuple_Forall2 in Hk.
  assert (G : exists kk, del_keys cs c = Ok kk /\
     Forall2 (fun k x => exists kn, kids_tagged k (xkids c) = [kn] /\ x = Elem k (xtext kn) [] []) (s_keys (si cs)) kk).
  { unfold del_keys. clear ND E Hu. induction Hk as [| k t ks ts (kn & H1 & _) Hk IH].
    - exists []. simpl. auto.
    - destruct IH as (kk & I1 & I2). exists (Elem k (xtext kn) [] [] :: kk). cbn [mapM].
      rewrite (kids_tagged_find k _ kn H1). cbn [bind]. rewrite I1. cbn [bind]. split; auto. constructor; eauto. }
  destruct G as (kk & G1 & G2). exists kk. split; auto. split.
  - apply (uid_list s (Elem (xtag c) None [(operation_tag, op)] kk) cs Hs Ht). exists ts. split; auto. apply key_tuple_Forall2. simpl.
    assert (Z : forall k t, In k (s_keys (si cs)) -> (exists x, kids_tagged k (xkids c) = [x] /\ parse_text cs x = t) ->
              exists x, kids_tagged k kk = [x] /\ parse_text cs x = t).
    { intros k t Hin (x & X1 & X2). clear Hk E G1. rewrite parse_text_id in X2 by congruence.
      revert Hin ND. induction G2 as [| k0 y ks kk (kn & Y1 & Y2) G2 IH]; intros Hin ND; [destruct Hin |].
      inversion ND as [| ? ? Hn ND']; subst. unfold kids_tagged. simpl.
      destruct Hin as [E | Hin].
      - subst k0. rewrite String.eqb_refl. assert (kn = x) by congruence. subst kn.
        exists (Elem k (xtext x) [] []). split; [f_equal |].
        + apply filter_none. intros z Hz. apply String.eqb_neq. intro E. apply Hn.
          clear -G2 Hz E. induction G2 as [| k1 y1 l1 l2 (kn1 & A1 & A2) G2 IH]; [destruct Hz |].
          destruct Hz as [Hz | Hz]; [left; subst; auto | right; auto].
        + rewrite parse_text_id by congruence. reflexivity.
      - destruct (String.eqb k0 k) eqn:Ek; [apply String.eqb_eq in Ek; subst; contradiction |]. apply IH; auto. }
    clear -Hk Z. induction Hk; constructor; auto.
    + apply Z; auto. left. auto.
    + apply IHHk. intros k t Hin. apply Z. right. auto.
  - split; intros k Hin; clear -G2 Hin; induction G2 as [| k0 y ks kk (kn & Y1 & Y2) G2 IH]; [destruct Hin | | destruct Hin |];
    (destruct Hin as [E | Hin]; [| simpl; auto]); subst; [repeat split; reflexivity | left; reflexivity].
Qed.

Definition del_one (s : snode) (c : xml) : res xml :=
  let! cs := schema_child s (xtag c) in
  match sty cs with
  | TLeafList => Ok (Elem (xtag c) (xtext c) [(operation_tag, "delete")] [])
  | TList => let! kk := del_keys cs c in Ok (Elem (xtag c) None [(operation_tag, "delete")] kk)
  | _ => if np_container cs
         then let! kk := del_kids cs c in Ok (Elem (xtag c) None [] kk)
         else Ok (Elem (xtag c) None [(operation_tag, "delete")] [])
  end.

Lemma del_kids_eq : forall s x, del_kids s x = mapM (del_one s) (xkids x).
Proof.
  intros s [t tx a ks]. cbn [del_kids xkids]. induction ks as [| c r IH]; auto. cbn [mapM]. rewrite <- IH.
  unfold del_one. destruct (schema_child s (xtag c)) as [cs |]; auto.
Qed.

Lemma np_cont : forall cs, np_container cs = true -> sty cs = TContainer.
Proof.
  intros cs N. unfold np_container in N. apply andb_true_iff in N. destruct N as [X _].
  destruct (sty cs); auto; discriminate.
Qed.

Lemma mk_del_op : forall o cs c d, mk_del o cs c = Ok d ->
  (o_delete o = PDDelete -> op_of d <> OpRemove) /\ (o_delete o = PDRemove -> op_of d = OpRemove).
Proof.
  intros o cs c d H. unfold mk_del in H. assert (G : forall tx kk, op_of (Elem (xtag c) tx [(operation_tag, del_op o)] kk) = match o_delete o with PDDelete => OpDelete | PDRemove => OpRemove end).
  { intros tx kk. unfold op_of, del_op. destruct (o_delete o); reflexivity. }
  assert (K : forall kk, op_of (Elem (xtag c) None [] kk) = OpMerge) by reflexivity.
  destruct (sty cs); try destruct (del_keys cs c) as [kk |]; try destruct (np_container cs && _) eqn:N; try destruct (del_kids cs c) as [kk' |]; cbn [bind] in H; try discriminate; inversion H; subst d;
    try (rewrite G; destruct (o_delete o); split; congruence);
    (apply andb_true_iff in N; destruct N as [_ N]; destruct (o_delete o); [split; [discriminate | congruence] | discriminate]).
Qed.

(** One deleted node, given the result for its children *)
Lemma del_node : forall s cs c u o, schema_child s (xtag c) = Ok cs -> wfs s = true -> valid cs c = true ->
  uid_of s c = Ok u -> (np_container cs = true -> exists kk, del_kids cs c = Ok kk /\ (lk_walk -> forall n, IsD n cs (xkids c) [] kk)) ->
  exists d, mk_del o cs c = Ok d /\ uid_of s d = Ok u /\ forall n la lb, lk n s la lb c (op_of d) -> EntD n s la lb (Some c) None (Some d).
Proof.
  intros s cs c u o Hs Ws V Hu HK. assert (W := wfs_child s _ cs Ws Hs).
  assert (Hop : forall tx kk, op_of (Elem (xtag c) tx [(operation_tag, del_op o)] kk) = OpDelete \/
                              op_of (Elem (xtag c) tx [(operation_tag, del_op o)] kk) = OpRemove).
  { intros tx kk. unfold op_of, del_op. destruct (o_delete o); [left | right]; reflexivity. }
  assert (Hnil : forall tx, sty cs <> TList ->
     (sty cs = TLeafList -> tx = xtext c) -> uid_of s (Elem (xtag c) tx [(operation_tag, del_op o)] []) = Ok u).
  { intros tx N L. rewrite <- Hu. destruct (sty cs) eqn:Ht;
      try (rewrite (uid_other s c cs) by (auto; congruence); rewrite (uid_other s _ cs) by (auto; congruence); reflexivity).
    - rewrite (uid_leaflist s c cs) by auto. rewrite (uid_leaflist s _ cs) by auto. simpl. rewrite L; auto. }
  unfold mk_del. destruct (nonroot_data s _ cs c Ws Hs V) as [L | L].
  - assert (N : np_container cs = false) by (unfold np_container; destruct (sty cs); try discriminate; reflexivity).
    rewrite N. simpl. destruct (sty cs) eqn:Ht; try discriminate; eexists; (split; [reflexivity |]); split.
    + apply Hnil; congruence.
    + intros n la lb HL. apply (e_del n s la lb c _ cs); auto; simpl; intros k [].
    + apply Hnil; congruence.
    + intros n la lb HL. apply (e_del n s la lb c _ cs); auto; simpl; intros k [].
  - destruct (sty cs) eqn:Ht; try discriminate.
    + destruct (np_container cs && match o_delete o with PDDelete => true | PDRemove => false end) eqn:N.
      * apply andb_true_iff in N. destruct N as [N _]. destruct (HK N) as (kk & K1 & K2). rewrite K1. cbn [bind].
        eexists. split; [reflexivity |]. split.
        -- rewrite <- Hu. rewrite (uid_other s c cs) by (auto; congruence). rewrite (uid_other s _ cs) by (auto; congruence). reflexivity.
        -- intros n la lb HL. apply (e_del_cont n s la lb c _ cs); auto. apply K2. apply (lk_merge n s la lb c HL).
      * eexists. split; [reflexivity |]. split; [apply Hnil; congruence |].
        intros n la lb HL. apply (e_del n s la lb c _ cs); auto; simpl; intros k [].
    + destruct (del_keys_uid s cs c u (del_op o) Hs W Ht Hu) as (kk & K1 & K2 & K3 & K4). rewrite K1. cbn [bind].
      eexists. split; [reflexivity |]. split; auto. intros n la lb HL. apply (e_del n s la lb c _ cs); auto.
Qed.

Lemma del_kids_ok : forall x s, wfs s = true -> valid s x = true ->
  exists kk, del_kids s x = Ok kk /\ (lk_walk -> forall n, IsD n s (xkids x) [] kk).
Proof.
  intro x. induction x as [t tx a ks IH] using xml_ind'. intros s W V.
  destruct (valid_inv s _ V) as (Ha & (lx & Hx) & Hk). rewrite del_kids_eq. cbn [xkids] in *.
  set (Q := fun (w : uid) c c' => lk_walk -> forall n la, EntD n s la [] (Some c) None (Some c')).
  assert (G : exists kk, mapM (del_one s) ks = Ok kk /\
            Forall2 (fun e cd => uid_of s cd = Ok (fst e) /\ Q (fst e) (snd e) cd) lx kk).
  { assert (E : map snd lx = ks) by apply Hx. clear V.
    assert (Hl : forall e, In e lx -> In (snd e) ks /\ uid_of s (snd e) = Ok (fst e)).
    { intros [w c] He. split; [eapply Index_kid; eauto | eapply Index_uid; eauto]. }
    rewrite Forall_forall in IH. rewrite <- E. clear E Hx. induction lx as [| [w c] r IHr]; [exists []; simpl; auto |].
    destruct IHr as (kk & R1 & R2); [intros e He; apply Hl; right; auto |].
    destruct (Hl (w, c) (or_introl eq_refl)) as [Hc Hw]. simpl in Hc, Hw.
    destruct (Hk c Hc) as (kc & K1 & K2).
    destruct (del_node s kc c w default_opts K1 W K2 Hw) as (d & D1 & D2 & D3).
    { intro N. apply IH; auto. apply (wfs_child s _ kc W K1). }
    assert (D : del_one s c = Ok d).
    { unfold del_one. rewrite K1. cbn [bind]. unfold mk_del in D1. simpl in D1. rewrite andb_true_r in D1. exact D1. }
    exists (d :: kk). cbn [map snd mapM]. rewrite D. cbn [bind]. rewrite R1. cbn [bind]. split; auto.
    constructor; auto. split; auto. intros HW n la. apply D3. apply lk_nil; auto.
    apply (mk_del_op default_opts kc c d D1). reflexivity. }
  destruct G as (kk & G1 & G2). exists kk. split; auto. intros HW n.
  destruct (index_parallel Q s ks lx kk Hx G2) as (ld & P1 & P2 & P3).
  apply (isd n s ks [] kk lx [] ld); auto.
  - apply Index_nil.
  - intro w. simpl. destruct (P3 w) as [(E1 & E2) | (cb & cd & E1 & E2 & E3)]; rewrite E1, E2; [apply e_none | apply E3; exact HW].
  - intros t0 cs0 _ _. assert (E : dseq t0 [] ld = []).
    { apply filter_none. intros e _. apply andb_false_r. }
    exact (ord_chain t0 cs0 lx [] ld (f_equal (map fst) E) (eq_ind_r (x := []) (Chain cs0 None) I E)).
Qed.

Lemma mk_del_ok : forall o s cs c u, schema_child s (xtag c) = Ok cs -> wfs s = true -> valid cs c = true ->
  uid_of s c = Ok u ->
  exists d, mk_del o cs c = Ok d /\ uid_of s d = Ok u /\ forall n la lb, lk n s la lb c (op_of d) -> EntD n s la lb (Some c) None (Some d).
Proof.
  intros o s cs c u Hs W V Hu. apply (del_node s cs c u o); auto.
  intros _. apply del_kids_ok; auto. apply (wfs_child s _ cs W Hs).
Qed.

(** ** Marked new data *)
Lemma mark_replace_new : forall s cs c u, schema_child s (xtag c) = Ok cs -> valid cs c = true -> uid_of s c = Ok u ->
  uid_of s (set_attr operation_tag "replace" c) = Ok u /\
  forall n la lb, EntD n s la lb None (Some c) (Some (set_attr operation_tag "replace" c)).
Proof.
  intros s cs c u Hs V Hu. rewrite uid_set_attr. split; auto. intros n la lb.
  destruct (set_attr_parts operation_tag "replace" c) as (P1 & P2 & P3).
  apply (e_put n s la lb c _ cs); auto; [right; left; apply op_replace |].
  apply (Body_congr _ c); auto. apply (Body_refl c cs V).
Qed.

Lemma mark_create_ok : forall o s cs c u, schema_child s (xtag c) = Ok cs -> wfs s = true -> valid cs c = true ->
  uid_of s c = Ok u ->
  exists c', mark_create o cs c = Ok c' /\ uid_of s c' = Ok u /\ forall n la lb, EntD n s la lb None (Some c) (Some c').
Proof.
  intros o s cs c u Hs W V Hu. unfold mark_create. destruct (o_create o).
  - exists c. split; auto. split; auto. intros n la lb. apply (plain_new c n s cs u); auto.
  - destruct (set_create_new c s cs u Hs W V Hu) as (c' & H1 & H2 & _ & H3). eauto.
  - destruct (mark_replace_new s cs c u Hs V Hu) as [H1 H2]. eauto.
Qed.
End Late.
