(** What node_add does, for all edits. *)
From Coq Require Import String Ascii List Bool Arith ZArith Lia Permutation.
From Verif Require Import Base BaseP XmlM CalcM CalcP NetconfM ConfigM ListP DataSpec DataP DeltaSpec NameP EditSpec.
Import ListNotations.
Open Scope string_scope.
Open Scope list_scope.

(** ** One level *)
Definition bad_insert (cs : snode) (c : xml) : bool := s_user (si cs) && negb (insert_known c).

Inductive NewRes (rec : snode -> xml -> xml -> res xml) (s : snode) (c : xml) : option xml -> Prop :=
| nr_remove : op_of c = OpRemove -> NewRes rec s c None
| nr_leaf : forall cs, schema_child s (xtag c) = Ok cs -> sty cs = TLeaf ->
    op_of c = OpMerge \/ op_of c = OpCreate \/ op_of c = OpReplace -> NewRes rec s c (Some (del_attrib c))
| nr_set : forall cs, schema_child s (xtag c) = Ok cs -> sty cs = TContainer \/ (sty cs = TList /\ bad_insert cs c = false) ->
    op_of c = OpCreate \/ op_of c = OpReplace -> NewRes rec s c (Some (del_attrib c))
| nr_leaf_list : forall cs, schema_child s (xtag c) = Ok cs -> sty cs = TLeafList -> bad_insert cs c = false ->
    op_of c = OpMerge \/ op_of c = OpCreate \/ op_of c = OpReplace -> NewRes rec s c (Some (del_attrib c))
| nr_cont : forall cs e, schema_child s (xtag c) = Ok cs -> sty cs = TContainer -> op_of c = OpMerge ->
    rec cs (Elem (xtag c) None [] []) c = Ok e -> NewRes rec s c (Some e)
| nr_list : forall cs ks e, schema_child s (xtag c) = Ok cs -> sty cs = TList -> op_of c = OpMerge ->
    key_copies cs c = Ok ks -> rec cs (Elem (xtag c) None [] ks) c = Ok e -> bad_insert cs c = false -> NewRes rec s c (Some e)
| nr_bad : forall cs, schema_child s (xtag c) = Ok cs -> bad_insert cs c = true -> sty cs = TLeafList \/ (sty cs = TList /\ op_of c <> OpMerge) ->
    op_of c <> OpDelete -> op_of c <> OpUnknown -> NewRes rec s c None
| nr_other : forall cs, schema_child s (xtag c) = Ok cs -> sty cs <> TLeaf -> sty cs <> TLeafList -> sty cs <> TContainer -> sty cs <> TList ->
    op_of c <> OpDelete -> op_of c <> OpUnknown -> NewRes rec s c None.

Inductive PeerRes (rec : snode -> xml -> xml -> res xml) (s : snode) (x c : xml) : option xml -> Prop :=
| pr_leaf : forall cs, schema_child s (xtag x) = Ok cs -> sty cs = TLeaf -> op_of c = OpMerge \/ op_of c = OpReplace ->
    PeerRes rec s x c (Some (set_text (xtext c) x))
| pr_leaf_list : forall cs, schema_child s (xtag x) = Ok cs -> sty cs = TLeafList -> op_of c = OpMerge \/ op_of c = OpReplace ->
    PeerRes rec s x c (Some x)
| pr_del : forall cs, schema_child s (xtag x) = Ok cs -> Leafy cs \/ Inner cs -> op_of c = OpDelete \/ op_of c = OpRemove ->
    PeerRes rec s x c None
| pr_replace : forall cs, schema_child s (xtag x) = Ok cs -> Inner cs -> op_of c = OpReplace -> PeerRes rec s x c (Some (del_attrib c))
| pr_merge : forall cs e, schema_child s (xtag x) = Ok cs -> Inner cs -> op_of c = OpMerge -> rec cs x c = Ok e ->
    (np_container cs = true -> xkids e <> []) -> PeerRes rec s x c (Some e)
| pr_empty : forall cs e, schema_child s (xtag x) = Ok cs -> np_container cs = true -> op_of c = OpMerge -> rec cs x c = Ok e ->
    xkids e = [] -> PeerRes rec s x c None
| pr_other : forall cs, schema_child s (xtag x) = Ok cs -> sty cs <> TLeaf -> sty cs <> TLeafList -> sty cs <> TContainer -> sty cs <> TList ->
    PeerRes rec s x c (Some x).

Lemma ins_known : forall c, insert_known c = true -> get_attr insert_tag c = None \/ get_attr insert_tag c = Some "first" \/
  get_attr insert_tag c = Some "last" \/ get_attr insert_tag c = Some "before" \/ get_attr insert_tag c = Some "after".
Proof.
  intros c H. unfold insert_known in H. destruct (get_attr insert_tag c) as [v |]; auto. simpl in H.
  repeat (apply orb_true_iff in H; destruct H as [H | H]); try discriminate; apply String.eqb_eq in H; subst; auto.
Qed.

Lemma place_new_inv : forall cs c e l r, place_new cs c e l = Ok r ->
  match r with Some l' => Ins e l l' /\ bad_insert cs c = false | None => bad_insert cs c = true end.
Proof.
  intros cs c e l r H. unfold place_new, bad_insert, insert_known in *. destruct (s_user (si cs)).
  2: { inversion H; subst. simpl. split; auto. apply ins_after_last_Ins. }
  destruct (get_attr insert_tag c) as [v |].
  2: { inversion H; subst. simpl. split; auto. apply ins_after_last_Ins. }
  destruct (String.eqb v "first") eqn:E1; [apply String.eqb_eq in E1; subst v; inversion H; subst; split; auto; apply ins_before_first_Ins |].
  destruct (String.eqb v "last") eqn:E2; [apply String.eqb_eq in E2; subst v; inversion H; subst; split; auto; apply ins_after_last_Ins |].
  destruct (String.eqb v "before") eqn:E3.
  { apply String.eqb_eq in E3; subst v. apply bind_ok in H. destruct H as (w & _ & H). inversion H; subst; split; auto; apply ins_before_first_Ins. }
  destruct (String.eqb v "after") eqn:E4.
  { apply String.eqb_eq in E4; subst v. apply bind_ok in H. destruct H as (w & _ & H). inversion H; subst; split; auto; apply ins_after_first_Ins. }
  assert (G : r = None).
  { apply String.eqb_neq in E1, E2, E3, E4.
    repeat match type of H with context [match ?x with _ => _ end] => destruct x; try (exfalso; congruence); try (inversion H; reflexivity) end. }
  subst r. simpl. rewrite E1, E2, E3, E4. reflexivity.
Qed.

Lemma del_ins_assoc : forall (F : ent -> list ent -> list ent) u x l,
  (forall e l, Ins e l (F e l)) -> NoDup (uids l) -> assoc uid_eqb u l = Some x ->
  NoDup (uids (F (u, x) (del_uid u l))) /\ forall v, assoc uid_eqb v (F (u, x) (del_uid u l)) = assoc uid_eqb v l.
Proof.
  intros F u x l HF ND A. assert (N : ~ In u (uids (del_uid u l))).
  { rewrite uids_del. rewrite filter_In. intros [_ H]. rewrite uid_eqb_refl in H. discriminate. }
  split.
  - apply (Ins_NoDup u (uids (del_uid u l))); auto.
    + apply (Ins_map fst (u, x)). apply HF.
    + rewrite uids_del. apply NoDup_filter'. auto.
  - intro v. rewrite (assoc_Ins v (u, x) (del_uid u l) _ (HF _ _) N). simpl. rewrite assoc_del.
    destruct (uid_eqb v u) eqn:E; auto. apply uid_eqb_ok in E. subst. auto.
Qed.

Lemma move_peer_inv : forall cs c u x l l', move_peer cs c (u, x) l = Ok l' -> NoDup (uids l) -> assoc uid_eqb u l = Some x ->
  NoDup (uids l') /\ forall v, assoc uid_eqb v l' = assoc uid_eqb v l.
Proof.
  intros cs c u x l l' H ND A. unfold move_peer in H. cbn [fst] in H.
  assert (ID : Ok l = Ok l' -> NoDup (uids l') /\ (forall v, assoc uid_eqb v l' = assoc uid_eqb v l)).
  { intro E. inversion E; subst; auto. }
  assert (PU : forall F, (forall e l, Ins e l (F e l)) -> Ok (F (u, x) (del_uid u l)) = Ok l' ->
            NoDup (uids l') /\ (forall v, assoc uid_eqb v l' = assoc uid_eqb v l)).
  { intros F HF E. inversion E; subst. apply (del_ins_assoc F u x l HF ND A). }
  destruct (if s_user (si cs) then get_attr insert_tag c else None) as [v |]; [| auto].
  destruct (String.eqb v "first") eqn:E1.
  { apply String.eqb_eq in E1. subst v. destruct (find _ l) as [e0 |]; [| discriminate]. destruct (has_uid u e0); auto.
    apply (PU (ins_before_first (has_tag (xtag c)))); auto. intros. apply ins_before_first_Ins. }
  destruct (String.eqb v "last") eqn:E2.
  { apply String.eqb_eq in E2. subst v. destruct (find _ (rev l)) as [e0 |]; [| discriminate]. destruct (has_uid u e0); auto.
    apply (PU (ins_after_last (has_tag (xtag c)))); auto. intros. apply ins_after_last_Ins. }
  destruct (String.eqb v "before") eqn:E3.
  { apply String.eqb_eq in E3. subst v. apply bind_ok in H. destruct H as (w & _ & H). destruct (uid_eqb w u); auto.
    apply (PU (ins_before_first (has_uid w))); auto. intros. apply ins_before_first_Ins. }
  destruct (String.eqb v "after") eqn:E4.
  { apply String.eqb_eq in E4. subst v. apply bind_ok in H. destruct H as (w & _ & H). destruct (uid_eqb w u); auto.
    apply (PU (ins_after_first (has_uid w))); auto. intros. apply ins_after_first_Ins. }
  apply ID. apply String.eqb_neq in E1, E2, E3, E4.
  repeat match type of H with context [match ?x with _ => _ end] => destruct x; try (exfalso; congruence); try exact H end.
Qed.

Section Step.
Variable rec : snode -> xml -> xml -> res xml.
Variable s : snode.

Lemma Ins_step : forall u e l l', Ins (u, e) l l' -> NoDup (uids l) -> ~ In u (uids l) ->
  NoDup (uids l') /\ assoc uid_eqb u l' = Some e /\ forall v, v <> u -> assoc uid_eqb v l' = assoc uid_eqb v l.
Proof.
  intros u e l l' I ND N. split; [| split].
  - apply (Ins_NoDup u (uids l)); auto. apply (Ins_map fst (u, e)). auto.
  - rewrite (assoc_Ins u (u, e) l l' I N). simpl. rewrite uid_eqb_refl. reflexivity.
  - intros v Hv. rewrite (assoc_Ins v (u, e) l l' I N). simpl.
    destruct (uid_eqb v u) eqn:E; auto. apply uid_eqb_ok in E. contradiction.
Qed.

Lemma add_new_inv : forall l u c l', add_new rec s l (u, c) = Ok l' -> NoDup (uids l) -> ~ In u (uids l) ->
  NoDup (uids l') /\ NewRes rec s c (assoc uid_eqb u l') /\ forall v, v <> u -> assoc uid_eqb v l' = assoc uid_eqb v l.
Proof.
  intros l u c l' H ND N. unfold add_new in H. assert (NN : assoc uid_eqb u l = None) by (apply assoc_not_In; auto).
  assert (SAME : forall P, Ok l = Ok l' -> (P -> NewRes rec s c None) -> P ->
     NoDup (uids l') /\ NewRes rec s c (assoc uid_eqb u l') /\ forall v, v <> u -> assoc uid_eqb v l' = assoc uid_eqb v l).
  { intros P E HP p. inversion E; subst. rewrite NN. auto. }
  assert (ADD : forall e l1, Ok l1 = Ok l' -> Ins (u, e) l l1 -> NewRes rec s c (Some e) ->
     NoDup (uids l') /\ NewRes rec s c (assoc uid_eqb u l') /\ forall v, v <> u -> assoc uid_eqb v l' = assoc uid_eqb v l).
  { intros e l1 E I R. inversion E; subst. destruct (Ins_step u e l l' I ND N) as (A & B & C). rewrite B. auto. }
  destruct (op_of c) eqn:Op; try discriminate.
  - (* merge *)
    apply bind_ok in H. destruct H as (cs & Hs & H). destruct (sty cs) eqn:Ty.
    + apply (ADD (del_attrib c) (l ++ [(u, del_attrib c)])); auto; [apply app_Ins |]. apply (nr_leaf rec s c cs); auto.
    + apply bind_ok in H. destruct H as (r & Hp & H). apply place_new_inv in Hp. destruct r as [l1 |].
      * destruct Hp as [I B]. apply (ADD (del_attrib c) l1); auto. apply (nr_leaf_list rec s c cs); auto.
      * apply (SAME True); auto. intros _. apply (nr_bad rec s c cs); auto; try congruence; right; split; congruence.
    + apply bind_ok in H. destruct H as (e & He & H). apply (ADD e (l ++ [(u, e)])); auto; [apply app_Ins |].
      apply (nr_cont rec s c cs); auto.
    + apply bind_ok in H. destruct H as (ks & Hk & H). apply bind_ok in H. destruct H as (r & Hp & H).
      apply place_new_inv in Hp. destruct r as [l1 |]; [| discriminate]. destruct Hp as [I B].
      apply bind_ok in H. destruct H as (e & He & H). inversion H; subst. clear H.
      destruct (Ins_step u _ l l1 I ND N) as (A1 & A2 & A3). split; [rewrite uids_upd; auto |]. split.
      * rewrite assoc_upd, uid_eqb_refl, A2. apply (nr_list rec s c cs ks e); auto.
      * intros v Hv. rewrite assoc_upd. destruct (uid_eqb v u) eqn:E; [apply uid_eqb_ok in E; contradiction |]. auto.
    + apply (SAME True); auto. intros _. apply (nr_other rec s c cs); congruence.
    + apply (SAME True); auto. intros _. apply (nr_other rec s c cs); congruence.
    + apply (SAME True); auto. intros _. apply (nr_other rec s c cs); congruence.
    + apply (SAME True); auto. intros _. apply (nr_other rec s c cs); congruence.
  - (* create *)
    apply bind_ok in H. destruct H as (cs & Hs & H). destruct (sty cs) eqn:Ty.
    + apply (ADD (del_attrib c) (l ++ [(u, del_attrib c)])); auto; [apply app_Ins |]. apply (nr_leaf rec s c cs); auto.
    + apply bind_ok in H. destruct H as (r & Hp & H). apply place_new_inv in Hp. destruct r as [l1 |].
      * destruct Hp as [I B]. apply (ADD (del_attrib c) l1); auto. apply (nr_leaf_list rec s c cs); auto.
      * apply (SAME True); auto. intros _. apply (nr_bad rec s c cs); auto; try congruence; right; split; congruence.
    + apply (ADD (del_attrib c) (l ++ [(u, del_attrib c)])); auto; [apply app_Ins |]. apply (nr_set rec s c cs); auto.
    + apply bind_ok in H. destruct H as (r & Hp & H). apply place_new_inv in Hp. destruct r as [l1 |].
      * destruct Hp as [I B]. apply (ADD (del_attrib c) l1); auto. apply (nr_set rec s c cs); auto.
      * apply (SAME True); auto. intros _. apply (nr_bad rec s c cs); auto; try congruence; right; split; congruence.
    + apply (SAME True); auto. intros _. apply (nr_other rec s c cs); congruence.
    + apply (SAME True); auto. intros _. apply (nr_other rec s c cs); congruence.
    + apply (SAME True); auto. intros _. apply (nr_other rec s c cs); congruence.
    + apply (SAME True); auto. intros _. apply (nr_other rec s c cs); congruence.
  - (* replace *)
    apply bind_ok in H. destruct H as (cs & Hs & H). destruct (sty cs) eqn:Ty.
    + apply (ADD (del_attrib c) (l ++ [(u, del_attrib c)])); auto; [apply app_Ins |]. apply (nr_leaf rec s c cs); auto.
    + apply bind_ok in H. destruct H as (r & Hp & H). apply place_new_inv in Hp. destruct r as [l1 |].
      * destruct Hp as [I B]. apply (ADD (del_attrib c) l1); auto. apply (nr_leaf_list rec s c cs); auto.
      * apply (SAME True); auto. intros _. apply (nr_bad rec s c cs); auto; try congruence; right; split; congruence.
    + apply (ADD (del_attrib c) (l ++ [(u, del_attrib c)])); auto; [apply app_Ins |]. apply (nr_set rec s c cs); auto.
    + apply bind_ok in H. destruct H as (r & Hp & H). apply place_new_inv in Hp. destruct r as [l1 |].
      * destruct Hp as [I B]. apply (ADD (del_attrib c) l1); auto. apply (nr_set rec s c cs); auto.
      * apply (SAME True); auto. intros _. apply (nr_bad rec s c cs); auto; try congruence; right; split; congruence.
    + apply (SAME True); auto. intros _. apply (nr_other rec s c cs); congruence.
    + apply (SAME True); auto. intros _. apply (nr_other rec s c cs); congruence.
    + apply (SAME True); auto. intros _. apply (nr_other rec s c cs); congruence.
    + apply (SAME True); auto. intros _. apply (nr_other rec s c cs); congruence.
  - (* remove *) apply (SAME True); auto. intros _. apply nr_remove; auto.
Qed.

Lemma add_peer_inv : forall l u x c l', add_peer rec s l (u, x, c) = Ok l' -> NoDup (uids l) -> assoc uid_eqb u l = Some x ->
  NoDup (uids l') /\ PeerRes rec s x c (assoc uid_eqb u l') /\ forall v, v <> u -> assoc uid_eqb v l' = assoc uid_eqb v l.
Proof.
  intros l u x c l' H ND A. unfold add_peer in H. apply bind_ok in H. destruct H as (cs & Hs & H).
  assert (UPD : forall e l1, NoDup (uids l1) -> (forall v, assoc uid_eqb v l1 = assoc uid_eqb v l) -> Ok (upd_uid u e l1) = Ok l' ->
     PeerRes rec s x c (Some e) ->
     NoDup (uids l') /\ PeerRes rec s x c (assoc uid_eqb u l') /\ forall v, v <> u -> assoc uid_eqb v l' = assoc uid_eqb v l).
  { intros e l1 N1 A1 E R. inversion E; subst. split; [rewrite uids_upd; auto |]. split.
    - rewrite assoc_upd, uid_eqb_refl, A1, A. auto.
    - intros v Hv. rewrite assoc_upd. destruct (uid_eqb v u) eqn:E2; [apply uid_eqb_ok in E2; contradiction | auto]. }
  assert (DEL : Ok (del_uid u l) = Ok l' -> PeerRes rec s x c None ->
     NoDup (uids l') /\ PeerRes rec s x c (assoc uid_eqb u l') /\ forall v, v <> u -> assoc uid_eqb v l' = assoc uid_eqb v l).
  { intros E R. inversion E; subst. split; [rewrite uids_del; apply NoDup_filter'; auto |]. split.
    - rewrite assoc_del, uid_eqb_refl. auto.
    - intros v Hv. rewrite assoc_del. destruct (uid_eqb v u) eqn:E2; [apply uid_eqb_ok in E2; contradiction | auto]. }
  assert (MOV : forall l1, move_peer cs c (u, x) l = Ok l1 -> NoDup (uids l1) /\ (forall v, assoc uid_eqb v l1 = assoc uid_eqb v l)).
  { intros l1 E. apply (move_peer_inv cs c u x l l1 E ND A). }
  assert (OTH : Ok l = Ok l' -> sty cs <> TLeaf -> sty cs <> TLeafList -> sty cs <> TContainer -> sty cs <> TList ->
     NoDup (uids l') /\ PeerRes rec s x c (assoc uid_eqb u l') /\ forall v, v <> u -> assoc uid_eqb v l' = assoc uid_eqb v l).
  { intros E N1 N2 N3 N4. inversion E; subst. split; auto. split; auto. rewrite A. apply (pr_other rec s x c cs); auto. }
  destruct (sty cs) eqn:Ty; try (apply OTH; congruence).
  - destruct (op_of c) eqn:Op; try discriminate.
    + apply (UPD (set_text (xtext c) x) l); auto. apply (pr_leaf rec s x c cs); auto.
    + apply (UPD (set_text (xtext c) x) l); auto. apply (pr_leaf rec s x c cs); auto.
    + apply DEL; auto. apply (pr_del rec s x c cs); auto. left. left. auto.
    + apply DEL; auto. apply (pr_del rec s x c cs); auto. left. left. auto.
  - destruct (op_of c) eqn:Op; try discriminate.
    + destruct (MOV l' H) as [M1 M2]. split; auto. split; auto. rewrite M2, A. apply (pr_leaf_list rec s x c cs); auto.
    + destruct (MOV l' H) as [M1 M2]. split; auto. split; auto. rewrite M2, A. apply (pr_leaf_list rec s x c cs); auto.
    + apply DEL; auto. apply (pr_del rec s x c cs); auto. left. right. auto.
    + apply DEL; auto. apply (pr_del rec s x c cs); auto. left. right. auto.
  - assert (IC : Inner cs) by (left; auto). destruct (op_of c) eqn:Op; try discriminate.
    + apply bind_ok in H. destruct H as (e & He & H). destruct (xkids e) as [| k ks] eqn:EK.
      * destruct (np_container cs) eqn:NP.
        -- apply DEL; auto. apply (pr_empty rec s x c cs e); auto.
        -- apply (UPD e l); auto. apply (pr_merge rec s x c cs e); auto. congruence.
      * apply (UPD e l); auto. apply (pr_merge rec s x c cs e); auto. intros _ X. congruence.
    + destruct (np_container cs && _); [discriminate |]. apply (UPD (del_attrib c) l); auto. apply (pr_replace rec s x c cs); auto.
    + destruct (np_container cs && _); [discriminate |]. apply DEL; auto. apply (pr_del rec s x c cs); auto.
    + destruct (np_container cs && _); [discriminate |]. apply DEL; auto. apply (pr_del rec s x c cs); auto.
  - assert (IC : Inner cs) by (right; auto).
    assert (NP : np_container cs = true -> False) by (unfold np_container; rewrite Ty; discriminate).
    destruct (op_of c) eqn:Op.
    + apply bind_ok in H. destruct H as (l1 & M & H). destruct (MOV l1 M) as [M1 M2]. apply bind_ok in H. destruct H as (e & He & H).
      apply (UPD e l1); auto. apply (pr_merge rec s x c cs e); auto; tauto.
    + apply bind_ok in H. destruct H as (l1 & M & H). discriminate.
    + apply bind_ok in H. destruct H as (l1 & M & H). destruct (MOV l1 M) as [M1 M2].
      apply (UPD (del_attrib c) l1); auto. apply (pr_replace rec s x c cs); auto.
    + apply DEL; auto. apply (pr_del rec s x c cs); auto.
    + apply DEL; auto. apply (pr_del rec s x c cs); auto.
    + apply bind_ok in H. destruct H as (l1 & M & H). discriminate.
Qed.

Lemma news_inv : forall N l l', foldM (add_new rec s) l N = Ok l' -> NoDup (uids N) -> NoDup (uids l) ->
  (forall u, In u (uids N) -> ~ In u (uids l)) ->
  NoDup (uids l') /\
  forall u, match assoc uid_eqb u N with Some c => NewRes rec s c (assoc uid_eqb u l') | None => assoc uid_eqb u l' = assoc uid_eqb u l end.
Proof.
  induction N as [| [u c] r IH]; intros l l' H NN ND D.
  - simpl in H. inversion H; subst. split; auto. intro u. reflexivity.
  - cbn [foldM] in H. apply bind_ok in H. destruct H as (l1 & H1 & H). simpl in NN. inversion NN as [| ? ? NI NN']; subst.
    destruct (add_new_inv l u c l1 H1 ND) as (A1 & A2 & A3); [apply D; left; auto |].
    destruct (IH l1 l' H NN' A1) as (B1 & B2).
    { intros v Hv C. apply assoc_Some_uids in C. destruct C as (y & C). rewrite A3 in C.
      - apply (D v); [right; auto |]. apply assoc_Some_uids. eauto.
      - intro E. subst v. contradiction. }
    split; auto. intro v. cbn [assoc]. destruct (uid_eqb v u) eqn:E.
    + apply uid_eqb_ok in E. subst v. specialize (B2 u). rewrite (assoc_not_In u r NI) in B2. rewrite B2. auto.
    + specialize (B2 v). destruct (assoc uid_eqb v r); auto. rewrite B2. apply A3. intro X. subst. rewrite uid_eqb_refl in E. discriminate.
Qed.

Lemma peers_inv : forall (N : list (uid * xml * xml)) l l', foldM (add_peer rec s) l N = Ok l' -> NoDup (map (fun p => fst (fst p)) N) -> NoDup (uids l) ->
  (forall u x c, In (u, x, c) N -> assoc uid_eqb u l = Some x) ->
  NoDup (uids l') /\
  (forall u x c, In (u, x, c) N -> PeerRes rec s x c (assoc uid_eqb u l')) /\
  (forall u, ~ In u (map (fun p => fst (fst p)) N) -> assoc uid_eqb u l' = assoc uid_eqb u l).
Proof.
  induction N as [| [[u x] c] r IH]; intros l l' H NN ND D.
  - simpl in H. inversion H; subst. split; auto. split; auto. intros u x c [].
  - cbn [foldM] in H. apply bind_ok in H. destruct H as (l1 & H1 & H). simpl in NN. inversion NN as [| ? ? NI NN']; subst.
    destruct (add_peer_inv l u x c l1 H1 ND) as (A1 & A2 & A3); [apply (D u x c); left; auto |].
    assert (NE : forall v, In v (map (fun p : uid * xml * xml => fst (fst p)) r) -> v <> u) by (intros v Hv E; subst; contradiction).
    destruct (IH l1 l' H NN' A1) as (B1 & B2 & B3).
    { intros v y d Hv. rewrite A3; [apply (D v y d); right; exact Hv |]. apply NE. apply in_map_iff. exists (v, y, d). auto. }
    split; auto. split.
    + intros v y d [E | Hv]; [inversion E; subst; rewrite B3 by auto; exact A2 | eauto].
    + intros v Hv. simpl in Hv. rewrite B3 by intuition. apply A3. intuition.
Qed.
End Step.

Lemma both_NoDup : forall la lb, NoDup (uids la) -> NoDup (map (fun p : uid * xml * xml => fst (fst p)) (both_in la lb)).
Proof.
  intros la lb ND. induction la as [| [u c] r IH]; simpl; [constructor |]. simpl in ND. inversion ND as [| ? ? NI ND']; subst.
  destruct (assoc uid_eqb u lb) as [b |]; simpl; auto. constructor; auto. intro H. apply in_map_iff in H.
  destruct H as ([[v x] y] & E & H). simpl in E. subst v. apply both_in_In in H. destruct H as [H _]. apply NI.
  apply in_map_iff. exists (u, x). auto.
Qed.

Theorem node_add_steps : forall f s x d r, node_add (S f) s x d = Ok r ->
  exists lx ld lr, Index s (xkids x) lx /\ Index s (xkids d) ld /\ r = set_kids (map snd lr) x /\ NoDup (uids lr) /\
    (exists l1, foldM (add_new (node_add f) s) lx (only_in ld lx) = Ok l1 /\ foldM (add_peer (node_add f) s) l1 (both_in lx ld) = Ok lr) /\
    forall u, match assoc uid_eqb u lx, assoc uid_eqb u ld with
              | None, None => assoc uid_eqb u lr = None
              | Some c, None => assoc uid_eqb u lr = Some c
              | None, Some cd => NewRes (node_add f) s cd (assoc uid_eqb u lr)
              | Some cx, Some cd => PeerRes (node_add f) s cx cd (assoc uid_eqb u lr)
              end.
Proof.
  intros f s x d r H. cbn [node_add] in H. apply bind_ok in H. destruct H as (g & Hg & H). apply bind_ok in H. destruct H as (l0 & H0 & H).
  apply bind_ok in H. destruct H as (l1 & H1 & H). apply bind_ok in H. destruct H as (l2 & H2 & H). inversion H; subst r. clear H.
  destruct (group_inv _ _ _ _ Hg) as (lx & ld & Ix & Id & Eg). subst g. cbn [in_2_not_1 in_1_and_2] in *.
  apply index_ok in H0. assert (l0 = lx) by (apply (Index_fun s (xkids x)); auto). subst l0. clear H0 Hg.
  assert (NDx : NoDup (uids lx)) by apply Ix. assert (NDd : NoDup (uids ld)) by apply Id.
  destruct (news_inv (node_add f) s (only_in ld lx) lx l1 H1) as (A1 & A2); auto.
  { unfold only_in, uids. apply NoDup_map_filter. auto. }
  { intros u Hu. unfold uids in Hu. apply in_map_iff in Hu. destruct Hu as ([v c] & E & Hu). simpl in E. subst v.
    apply only_in_In in Hu. tauto. }
  assert (OI : forall u, assoc uid_eqb u (only_in ld lx) = match assoc uid_eqb u lx with Some _ => None | None => assoc uid_eqb u ld end).
  { intro u. destruct (assoc uid_eqb u lx) as [c |] eqn:E.
    - apply assoc_not_In. intro C. unfold uids in C. apply in_map_iff in C. destruct C as ([v c'] & E' & C). simpl in E'. subst v.
      apply only_in_In in C. destruct C as [_ C]. apply C. apply assoc_Some_uids. eauto.
    - destruct (assoc uid_eqb u ld) as [c |] eqn:E2.
      + apply (assoc_NoDup uid_eqb uid_eqb_ok); [unfold only_in; apply NoDup_map_filter; auto |]. apply only_in_In. split.
        * apply (assoc_In uid_eqb uid_eqb_ok). auto.
        * apply assoc_None_uids. auto.
      + apply assoc_not_In. intro C. unfold uids in C. apply in_map_iff in C. destruct C as ([v c'] & E' & C). simpl in E'. subst v.
        apply only_in_In in C. destruct C as [C _]. apply assoc_None_uids in E2. apply E2. apply in_map_iff. exists (u, c'). auto. }
  destruct (peers_inv (node_add f) s (both_in lx ld) l1 l2 H2) as (B1 & B2 & B3); auto.
  { apply both_NoDup. auto. }
  { intros u y c Hin. apply both_in_In in Hin. destruct Hin as [Hin _]. specialize (A2 u). rewrite OI in A2.
    assert (E : assoc uid_eqb u lx = Some y) by (apply (Index_assoc s (xkids x)); auto). rewrite E in A2. congruence. }
  exists lx, ld, l2. split; auto. split; auto. split; auto. split; auto. split; [exists l1; auto |]. intro u. specialize (A2 u). rewrite OI in A2.
  assert (NB : assoc uid_eqb u lx = None \/ assoc uid_eqb u ld = None -> ~ In u (map (fun p : uid * xml * xml => fst (fst p)) (both_in lx ld))).
  { intros E C. apply in_map_iff in C. destruct C as ([[v y] c] & E' & C). simpl in E'. subst v. apply both_in_In in C. destruct C as [C1 C2].
    destruct E as [E | E]; [| congruence]. apply assoc_None_uids in E. apply E. apply in_map_iff. exists (u, y). auto. }
  destruct (assoc uid_eqb u lx) as [y |] eqn:E1; destruct (assoc uid_eqb u ld) as [c |] eqn:E2.
  - apply B2. apply both_in_In. split; auto. apply (assoc_In uid_eqb uid_eqb_ok). auto.
  - rewrite B3 by auto. congruence.
  - rewrite B3 by auto. auto.
  - rewrite B3 by auto. congruence.
Qed.

Theorem node_add_step : forall f s x d r, node_add (S f) s x d = Ok r ->
  exists lx ld lr, Index s (xkids x) lx /\ Index s (xkids d) ld /\ r = set_kids (map snd lr) x /\ NoDup (uids lr) /\
    forall u, match assoc uid_eqb u lx, assoc uid_eqb u ld with
              | None, None => assoc uid_eqb u lr = None
              | Some c, None => assoc uid_eqb u lr = Some c
              | None, Some cd => NewRes (node_add f) s cd (assoc uid_eqb u lr)
              | Some cx, Some cd => PeerRes (node_add f) s cx cd (assoc uid_eqb u lr)
              end.
Proof. intros f s x d r H. destruct (node_add_steps f s x d r H) as (lx & ld & lr & H1 & H2 & H3 & H4 & _ & H6). exists lx, ld, lr. auto. Qed.
