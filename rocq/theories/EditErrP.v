(** The exceptions an edit can raise. *)
From Coq Require Import String Ascii List Bool Arith ZArith Lia Permutation.
From Verif Require Import Base BaseP XmlM CalcM CalcP NetconfM ConfigM ListP DataSpec DataP DeltaSpec DeltaR NameP AddP PlainP AddStepP EditSpec EditP EditSemP EditValP MergeP.
Import ListNotations.
Open Scope string_scope.
Open Scope list_scope.

Lemma bind_err : forall {A B} (r : res A) (k : A -> res B) e, bind r k = Err e <-> r = Err e \/ exists a, r = Ok a /\ k a = Err e.
Proof.
  intros A B [a | x] k e; simpl; split.
  - intro H. right. exists a. auto.
  - intros [H | (b & H1 & H2)]; [discriminate | inversion H1; subst; auto].
  - intro H. left. inversion H. auto.
  - intros [H | (b & H1 & _)]; [inversion H; auto | discriminate].
Qed.

Lemma foldM_err : forall {A S} (f : S -> A -> res S) l s e, foldM f s l = Err e -> exists s0 x, In x l /\ f s0 x = Err e.
Proof.
  intros A S f l. induction l as [| x r IH]; intros s e H; [discriminate |]. cbn [foldM] in H. apply bind_err in H.
  destruct H as [H | (s1 & _ & H)]; [exists s, x; split; [left; auto | auto] |]. destruct (IH s1 e H) as (s0 & y & H1 & H2). exists s0, y. split; [right; auto | auto].
Qed.

Lemma peers_err : forall rec s (N : list (uid * xml * xml)) l e, foldM (add_peer rec s) l N = Err e ->
  NoDup (map (fun p => fst (fst p)) N) -> NoDup (uids l) -> (forall u x c, In (u, x, c) N -> assoc uid_eqb u l = Some x) ->
  exists l0 u x c, In (u, x, c) N /\ assoc uid_eqb u l0 = Some x /\ add_peer rec s l0 (u, x, c) = Err e.
Proof.
  intros rec s N. induction N as [| [[u x] c] r IH]; intros l e H NN ND D; [discriminate |]. cbn [foldM] in H. apply bind_err in H.
  destruct H as [H | (l1 & H1 & H)].
  - exists l, u, x, c. split; [left; auto |]. split; auto. apply (D u x c). left. auto.
  - simpl in NN. inversion NN as [| ? ? NI NN']; subst.
    destruct (add_peer_inv rec s l u x c l1 H1 ND) as (A1 & A2 & A3); [apply (D u x c); left; auto |].
    destruct (IH l1 e H NN' A1) as (l0 & v & y & d & B1 & B2).
    { intros v y d Hv. rewrite A3; [apply (D v y d); right; exact Hv |]. intro E. subst v. apply NI. apply in_map_iff. exists (u, y, d). auto. }
    exists l0, v, y, d. split; [right; auto | auto].
Qed.

Lemma ref_err : forall ty c l e, refs_ok c = true -> ref_sibling ty c l = Err e -> e = ConfigDeltaError.
Proof.
  intros ty [t tx a ks] l e R H. cbn [refs_ok] in R. apply andb_true_iff in R. destruct R as [R _]. unfold ref_sibling, get_attr in H. cbn [xattrs] in H.
  assert (K : match assoc String.eqb key_tag a with
              | Some p => let! o := find_key t p l in match o with Some u => Ok u | None => Err ConfigDeltaError end
              | None => Err ConfigDeltaError end = Err e -> e = ConfigDeltaError).
  { clear H. intro H. destruct (assoc String.eqb key_tag a) as [p |]; [| inversion H; auto]. unfold find_key in H.
    destruct (parse_preds (String.length p) p); [| discriminate]. cbn [bind] in H.
    match type of H with context [option_map fst ?z] => destruct (option_map fst z) end; inversion H; auto. }
  destruct ty; try (apply K; exact H). destruct (assoc String.eqb value_tag a); [| inversion H; auto]. cbn [xtag] in H.
  match type of H with context [find_value ?z1 ?z2 ?z3] => destruct (find_value z1 z2 z3) end; inversion H; auto.
Qed.

Lemma place_err : forall cs c x l e, insert_known c = true -> refs_ok c = true -> place_new cs c x l = Err e -> e = ConfigDeltaError.
Proof.
  intros cs c x l e IK R H. unfold place_new in H. destruct (s_user (si cs)); [| discriminate].
  destruct (ins_known c IK) as [E | [E | [E | [E | E]]]]; rewrite E in H; try discriminate;
    apply bind_err in H; destruct H as [H | (u & _ & H)]; try discriminate; eapply ref_err; eauto.
Qed.

Lemma find_self : forall (p : ent -> bool) l e, In e l -> p e = true -> exists e0, find p l = Some e0.
Proof. intros p l e H1 H2. destruct (find p l) as [x |] eqn:E; eauto. assert (X := find_none p l E e H1). congruence. Qed.

Lemma move_err : forall cs c u x l e, insert_known c = true -> refs_ok c = true -> assoc uid_eqb u l = Some x -> xtag x = xtag c ->
  move_peer cs c (u, x) l = Err e -> e = ConfigDeltaError.
Proof.
  intros cs c u x l e IK R A T H. unfold move_peer in H. apply (assoc_In uid_eqb uid_eqb_ok) in A.
  assert (HT : has_tag (xtag c) (u, x) = true) by (unfold has_tag; simpl; rewrite T; apply String.eqb_refl).
  destruct (s_user (si cs)); [| discriminate].
  destruct (ins_known c IK) as [E | [E | [E | [E | E]]]]; rewrite E in H; try discriminate.
  - destruct (find_self (has_tag (xtag c)) l (u, x) A HT) as (e0 & F). rewrite F in H. destruct (has_uid (fst (u, x)) e0); discriminate.
  - apply in_rev in A. destruct (find_self (has_tag (xtag c)) (rev l) (u, x) A HT) as (e0 & F). 
    match type of H with context [find ?p ?z] => replace (find p z) with (Some e0) in H by (symmetry; exact F) end. destruct (has_uid (fst (u, x)) e0); discriminate.
  - apply bind_err in H. destruct H as [H | (v & _ & H)]; [eapply ref_err; eauto |]. destruct (uid_eqb v (fst (u, x))); discriminate.
  - apply bind_err in H. destruct H as [H | (v & _ & H)]; [eapply ref_err; eauto |]. destruct (uid_eqb v (fst (u, x))); discriminate.
Qed.

(** No empty non-presence containers *)
Fixpoint npk (s : snode) (x : xml) : bool :=
  let '(Elem _ _ _ ks) := x in
  forallb (fun c => match schema_child s (xtag c) with
                    | Err _ => true
                    | Ok cs => (negb (np_container cs) || match xkids c with [] => false | _ => true end) && npk cs c
                    end) ks.

Lemma npk_inv : forall s x c cs, npk s x = true -> In c (xkids x) -> schema_child s (xtag c) = Ok cs ->
  (np_container cs = true -> xkids c <> []) /\ npk cs c = true.
Proof.
  intros s [t tx a ks] c cs H Hc S. cbn [npk] in H. rewrite forallb_forall in H. specialize (H c Hc). rewrite S in H.
  apply andb_true_iff in H. destruct H as [H1 H2]. split; auto. intro N. rewrite N in H1. simpl in H1. destruct (xkids c); congruence.
Qed.

Lemma valid_npk : forall x s, valid s x = true -> npk s x = true.
Proof.
  intro x. induction x as [t tx a ks IH] using xml_ind'. intros s V. cbn [npk]. apply forallb_forall. intros c Hc.
  destruct (valid_inv s _ V) as (_ & _ & K). destruct (K c Hc) as (cs & S & Vc). rewrite S.
  rewrite Forall_forall in IH. rewrite (IH c Hc cs Vc). rewrite andb_true_r.
  destruct (np_container cs) eqn:L; auto. assert (N := np_kids cs c Vc L). destruct (xkids c); [congruence | auto].
Qed.

Lemma fresh_npk : forall cs c ks t tx a, edit_ok cs c = true -> wfs cs = true -> sty cs = TList -> key_copies cs c = Ok ks ->
  npk cs (Elem t tx a ks) = true.
Proof.
  intros cs c ks t tx a O W T K. cbn [npk]. apply forallb_forall. intros y Hy. destruct (key_copies_In cs c ks y K Hy) as (k & kn & H1 & H2 & E).
  apply find_tagged in H2. destruct H2 as [H2 H3]. destruct (edit_ok_inv cs c O) as (_ & OK). destruct (OK kn H2) as (cs' & S & _ & NK & _).
  destruct (del_parts kn) as (E1 & _ & E3). subst y. rewrite E1, S.
  destruct (wfs_keys cs W T) as (_ & WK). destruct (WK k H1) as (_ & kc & Sk & Tk & _). assert (cs' = kc) by congruence. subst cs'.
  assert (N : xkids kn = []) by (apply NK; left; auto). unfold np_container. rewrite Tk. simpl. destruct kn as [t1 t2 t3 t4]. simpl in N. subst t4. auto.
Qed.

Lemma fresh_index : forall cs c ks t tx a, edit_ok cs c = true -> wfs cs = true -> sty cs = TList -> key_copies cs c = Ok ks ->
  exists l, Index cs (xkids (Elem t tx a ks)) l.
Proof.
  intros cs c ks t tx a O W T K. destruct (wfs_keys cs W T) as (ND & WK). rewrite <- (key_copies_tags cs c ks K) in ND.
  exists (map (fun y => ((xtag y, KNone), y)) ks). split; [rewrite map_map; simpl; apply map_id |]. split.
  - apply Forall_forall. intros e He. apply in_map_iff in He. destruct He as (y & E & Hy). subst e. simpl.
    destruct (key_copies_In cs c ks y K Hy) as (k & kn & H1 & H2 & E). apply find_tagged in H2. destruct H2 as [H2 H3].
    destruct (WK k H1) as (_ & kc & Sk & Tk & _). assert (xtag y = k) by (subst y; destruct kn; auto). apply (uid_other cs y kc); congruence.
  - unfold uids. rewrite map_map. simpl. clear - ND. induction ks as [| y r IH]; simpl in *; [constructor |]. inversion ND as [| ? ? N1 N2]; subst. constructor; auto.
    intro X. apply N1. apply in_map_iff in X. destruct X as (z & E & Hz). inversion E. apply in_map_iff. eauto.
Qed.

Fixpoint idx (s : snode) (x : xml) : bool :=
  let '(Elem _ _ _ ks) := x in
  is_ok (index_kids s ks) && forallb (fun c => match schema_child s (xtag c) with Ok cs => idx cs c | Err _ => true end) ks.

Lemma idx_inv : forall s x, idx s x = true -> (exists l, Index s (xkids x) l) /\
  forall c cs, In c (xkids x) -> schema_child s (xtag c) = Ok cs -> idx cs c = true.
Proof.
  intros s [t tx a ks] H. cbn [idx] in H. apply andb_true_iff in H. destruct H as [H1 H2]. split.
  - destruct (index_kids s ks) as [l |] eqn:E; [| discriminate]. exists l. apply index_ok. auto.
  - intros c cs Hc S. rewrite forallb_forall in H2. specialize (H2 c Hc). rewrite S in H2. auto.
Qed.
Lemma valid_idx : forall x s, valid s x = true -> idx s x = true.
Proof.
  intro x. induction x as [t tx a ks IH] using xml_ind'. intros s V. cbn [idx]. destruct (valid_inv s _ V) as (_ & (l & I) & K). simpl in I, K.
  apply index_ok in I. rewrite I. simpl. apply forallb_forall. intros c Hc. destruct (K c Hc) as (cs & S & Vc). rewrite S.
  rewrite Forall_forall in IH. auto.
Qed.
Lemma fresh_idx : forall cs c ks t tx a, edit_ok cs c = true -> wfs cs = true -> sty cs = TList -> key_copies cs c = Ok ks ->
  idx cs (Elem t tx a ks) = true.
Proof.
  intros cs c ks t tx a O W T K. cbn [idx]. destruct (fresh_index cs c ks t tx a O W T K) as (l & I). apply index_ok in I. simpl in I. rewrite I. simpl.
  apply forallb_forall. intros y Hy. destruct (key_copies_In cs c ks y K Hy) as (k & kn & H1 & H2 & E).
  apply find_tagged in H2. destruct H2 as [H2 H3]. destruct (edit_ok_inv cs c O) as (_ & OK). destruct (OK kn H2) as (cs' & S & _ & NK & _).
  destruct (del_parts kn) as (E1 & _ & E3). subst y. rewrite E1, S.
  destruct (wfs_keys cs W T) as (_ & WK). destruct (WK k H1) as (_ & kc & Sk & Tk & _). assert (cs' = kc) by congruence. subst cs'.
  assert (N : xkids kn = []) by (apply NK; left; auto). destruct kn as [t1 t2 t3 t4]. simpl in N. subst t4. auto.
Qed.

Lemma refs_kid : forall d c, refs_ok d = true -> In c (xkids d) -> refs_ok c = true.
Proof. intros [t tx a ks] c H Hc. cbn [refs_ok] in H. apply andb_true_iff in H. destruct H as [_ H]. rewrite forallb_forall in H. auto. Qed.

Theorem add_errors : forall f s x d e, wfs s = true -> npk s x = true -> idx s x = true -> edit_ok s d = true -> refs_ok d = true ->
  height d <= f -> node_add f s x d = Err e -> e = ConfigDeltaError.
Proof.
  induction f as [| f IH]; intros s x d e W NP IX O RO HF H; [destruct d; simpl in HF; lia |].
  destruct (idx_inv s x IX) as ((lx & Ix) & IXc). destruct (edit_ok_inv s d O) as ((ld & Id) & OK). cbn [node_add] in H.
  rewrite (group_ok s _ _ lx ld Ix Id) in H. cbn [bind in_2_not_1 in_1_and_2] in H. assert (Ix' := Ix). apply index_ok in Ix'. rewrite Ix' in H. cbn [bind] in H.
  assert (HT : forall c, In c (xkids d) -> height c <= f) by (intros c Hc; apply height_kid in Hc; lia).
  assert (NDx : NoDup (uids lx)) by apply Ix. assert (NDd : NoDup (uids ld)) by apply Id.
  apply bind_err in H. destruct H as [H | (l1 & H1 & H)].
  - apply foldM_err in H. destruct H as (l & [u c] & Hin & H). apply only_in_In in Hin. destruct Hin as [Hu _]. assert (Hc := Index_kid s _ ld u c Id Hu).
    destruct (OK c Hc) as (cs & S & Ty & NK & Mg & Ik & Oc). assert (Wc := wfs_child s _ cs W S). assert (Rc := refs_kid d c RO Hc).
    unfold add_new in H. rewrite S in H. cbn [bind] in H.
    assert (PL : forall y, (let! r := place_new cs c (u, y) l in match r with Some l' => Ok l' | None => Ok l end) = Err e -> e = ConfigDeltaError).
    { intros y Q. apply bind_err in Q. destruct Q as [Q | (o & _ & Q)]; [eapply place_err; eauto | destruct o; discriminate]. }
    destruct (op_of c); try (inversion H; auto; fail); try discriminate;
      destruct Ty as [[T | T] | [T | T]]; rewrite T in H; try discriminate; try (eapply PL; exact H).
    + apply bind_err in H. destruct H as [H | (q & _ & H)]; [| discriminate]. eapply (IH cs _ c); eauto; reflexivity.
    + apply bind_err in H. destruct H as [H | (ks & KC & H)].
      { assert (U := Index_uid s _ ld u c Id Hu). apply (uid_list s c cs S T) in U. destruct U as (ts & KT & _).
        destruct (key_copies_total cs c ts KT) as (ks & EK). congruence. }
      apply bind_err in H. destruct H as [H | (o & PN & H)]; [eapply place_err; eauto |].
      apply place_new_inv in PN. destruct o as [l' |].
      * apply bind_err in H. destruct H as [H | (q & _ & H)]; [| discriminate].
        eapply (IH cs _ c); [auto | eapply fresh_npk; eauto | eapply fresh_idx; eauto | auto | auto | auto | exact H].
      * unfold bad_insert in PN. rewrite Ik in PN. rewrite andb_false_r in PN. discriminate.
  - apply bind_err in H. destruct H as [H | (l2 & _ & H)]; [| discriminate].
    assert (OI : forall u y, assoc uid_eqb u lx = Some y -> assoc uid_eqb u (only_in ld lx) = None).
    { intros u y A. apply assoc_None_uids. intro Q. apply in_map_iff in Q. destruct Q as ([v c] & E & Q). simpl in E. subst v. apply only_in_In in Q.
      destruct Q as [_ Q]. apply Q. apply assoc_Some_uids. eauto. }
    destruct (news_inv (node_add f) s (only_in ld lx) lx l1 H1) as (A1 & A2); auto.
    { unfold only_in. unfold uids. apply NoDup_map_filter. exact NDd. }
    { intros u Hu. apply in_map_iff in Hu. destruct Hu as ([v c] & E & Q). simpl in E. subst v. apply only_in_In in Q. tauto. }
    apply peers_err in H; auto; [| apply both_NoDup; auto |].
    2: { intros u y c Hin. apply both_in_In in Hin. destruct Hin as [Hin _]. apply (Index_assoc s _ lx u y Ix) in Hin. specialize (A2 u). rewrite (OI u y Hin) in A2. congruence. }
    destruct H as (l0 & u & y & c & Hin & A & H). apply both_in_In in Hin. destruct Hin as [Hy Hu]. apply (Index_assoc s _ ld u c Id) in Hu.
    assert (Hc := Index_kid s _ ld u c Id Hu). assert (Hx := Index_kid s _ lx u y Ix Hy).
    assert (TT : xtag y = xtag c) by (rewrite <- (Index_tag s _ lx u y Ix Hy); apply (Index_tag s _ ld u c Id Hu)).
    destruct (OK c Hc) as (cs & S & Ty & NK & Mg & Ik & Oc). assert (Wc := wfs_child s _ cs W S). assert (Rc := refs_kid d c RO Hc).
    assert (Sy : schema_child s (xtag y) = Ok cs) by congruence. destruct (npk_inv s x y cs NP Hx Sy) as (NE & NPy). assert (IXy := IXc y cs Hx Sy).
    unfold add_peer in H. rewrite Sy in H. cbn [bind] in H.
    assert (MV : forall z, move_peer cs c (u, y) z = Err e -> z = l0 -> e = ConfigDeltaError) by (intros z Q E; subst z; eapply move_err; eauto).
    assert (RC : node_add f cs y c = Err e -> e = ConfigDeltaError) by (intro Q; eapply (IH cs y c); eauto).
    assert (GO : np_container cs && match xkids y with [] => true | _ => false end = false).
    { destruct (np_container cs); auto. specialize (NE eq_refl). destruct (xkids y); [congruence | auto]. }
    destruct Ty as [[T | T] | [T | T]]; rewrite T in H.
    + destruct (op_of c); inversion H; auto.
    + destruct (op_of c); try (inversion H; auto; fail); eapply MV; eauto.
    + cbv zeta in H. rewrite GO in H. destruct (op_of c); try (inversion H; auto; fail). apply bind_err in H. destruct H as [H | (q & _ & H)]; auto.
      destruct (xkids q); [destruct (np_container cs) |]; discriminate.
    + destruct (op_of c); try (inversion H; auto; fail); apply bind_err in H; destruct H as [H | (q & _ & H)]; try (eapply MV; eauto; fail);
        try (inversion H; auto; fail). apply bind_err in H. destruct H as [H | (w & _ & H)]; auto. discriminate.
Qed.
