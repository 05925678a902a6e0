(** The working lists of node_sub and get_config_replace and the attributes of
    user-ordered entries. *)
From Coq Require Import String Ascii List Bool Arith ZArith Lia Permutation.
From Verif Require Import Base BaseP XmlM CalcM CalcP NetconfM ListP DataSpec DataP DeltaSpec DeltaR NameP AddP AddStepP PlainP.
Import ListNotations.
Open Scope string_scope.
Open Scope list_scope.

Definition we (w : went) : ent := (w_uid w, w_xml w).
Definition wes (L : list went) : list ent := map we L.

Lemma wes_upd : forall u x L, wes (w_upd u x L) = upd_uid u x (wes L).
Proof.
  intros u x L. unfold wes, w_upd, upd_uid. rewrite !map_map. apply map_ext. intros [b v y]. unfold has_uid, we. simpl.
  destruct (uid_eqb u v); auto.
Qed.

Lemma wes_del : forall u L, wes (w_del u L) = del_uid u (wes L).
Proof.
  intros u L. unfold wes, w_del, del_uid. rewrite filter_map. reflexivity.
Qed.

Lemma wes_init : forall l, wes (w_init l) = l.
Proof.
  intro l. unfold wes, w_init. rewrite map_map. rewrite <- (map_id l) at 2. apply map_ext. intros [u x]. reflexivity.
Qed.

Lemma wes_kids : forall L, map snd (wes L) = map w_xml L.
Proof. intro L. unfold wes. rewrite map_map. reflexivity. Qed.

Lemma wes_Ins : forall w L L', Ins w L L' -> Ins (we w) (wes L) (wes L').
Proof. intros w L L' H. apply (Ins_map we). auto. Qed.

(** Entries that were there at the start, with a given tag *)
Definition oq (t : string) (w : went) : bool := w_orig w && String.eqb (fst (w_uid w)) t.
Definition oseq (t : string) (L : list went) : list uid := map w_uid (filter (oq t) L).

(** [lb]: the children at the start; [la]: the children of the other node *)
Record WInv (s : snode) (la lb : list ent) (L : list went) : Prop := {
  wi_id : WellId s (wes L);
  wi_known : forall w, In w L -> if w_orig w then In (w_uid w) (uids lb)
                                 else In (w_uid w) (uids la) /\ ~ In (w_uid w) (uids lb);
  wi_ord : forall t cs, schema_child s t = Ok cs -> is_user_seq cs = true -> oseq t L = seqt t lb }.

Lemma WInv_init : forall s k la lb, Index s k lb -> WInv s la lb (w_init lb).
Proof.
  intros s k la lb H. split.
  - rewrite wes_init. eapply Index_WellId; eauto.
  - intros w Hw. apply in_map_iff in Hw. destruct Hw as (e & E & He). subst. simpl. apply (in_map fst). auto.
  - intros t cs _ _. unfold oseq, w_init, seqt, uids. rewrite !filter_map, map_map. f_equal.
Qed.

Lemma WellId_upd : forall s l u x, WellId s l -> uid_of s x = Ok u -> WellId s (upd_uid u x l).
Proof.
  intros s l u x [H1 H2] Hu. split; [| rewrite uids_upd; auto]. apply upd_Forall; auto.
Qed.

Lemma WellId_del : forall s l u, WellId s l -> WellId s (del_uid u l).
Proof.
  intros s l u [H1 H2]. split; [apply filter_Forall; auto |]. rewrite uids_del. apply NoDup_filter. auto.
Qed.

Lemma WellId_Ins : forall s e l l', WellId s l -> Ins e l l' -> uid_of s (snd e) = Ok (fst e) ->
  ~ In (fst e) (uids l) -> WellId s l'.
Proof.
  intros s e l l' [H1 H2] HI Hu Hn. split; [apply (Ins_Forall _ e l l'); auto |].
  apply (Ins_NoDup (fst e) (uids l)); auto. apply (Ins_map fst). auto.
Qed.

Lemma oseq_upd : forall t u x L, oseq t (w_upd u x L) = oseq t L.
Proof.
  intros t u x L. unfold oseq, w_upd. rewrite filter_map, map_map.
  assert (E : forall w, oq t (if uid_eqb u (w_uid w) then W (w_orig w) u x else w) = oq t w).
  { intros [b v y]. simpl. destruct (uid_eqb u v) eqn:E; auto. apply uid_eqb_ok in E. subst. reflexivity. }
  rewrite (filter_ext _ _ E). apply map_ext. intros [b v y]. simpl. destruct (uid_eqb u v) eqn:F; auto.
  apply uid_eqb_ok in F. auto.
Qed.

Lemma WInv_upd : forall s la lb L u x, WInv s la lb L -> uid_of s x = Ok u -> WInv s la lb (w_upd u x L).
Proof.
  intros s la lb L u x [H1 H2 H3] Hu. split.
  - rewrite wes_upd. apply WellId_upd; auto.
  - intros w Hw. apply in_map_iff in Hw. destruct Hw as (w0 & E & H0). specialize (H2 w0 H0).
    destruct (uid_eqb u (w_uid w0)) eqn:F; [| subst; auto]. apply uid_eqb_ok in F. subst. exact H2.
  - intros t cs Hs U. rewrite oseq_upd. eauto.
Qed.

Lemma WInv_del : forall s la lb L u, WInv s la lb L ->
  (forall cs, schema_child s (fst u) = Ok cs -> is_user_seq cs = false) -> WInv s la lb (w_del u L).
Proof.
  intros s la lb L u [H1 H2 H3] Hu. split.
  - rewrite wes_del. apply WellId_del; auto.
  - intros w Hw. apply filter_In in Hw. apply H2. tauto.
  - intros t cs Hs U. rewrite <- (H3 t cs Hs U). unfold oseq, w_del. f_equal.
    rewrite filter_comm. apply filter_all. intros w Hw. apply filter_In in Hw. destruct Hw as [_ Hw].
    apply negb_true_iff. apply (eqb_neq uid_eqb uid_eqb_ok). intro E. subst u.
    unfold oq in Hw. apply andb_true_iff in Hw. destruct Hw as [_ Hw]. apply String.eqb_eq in Hw. subst t.
    rewrite (Hu cs Hs) in U. discriminate.
Qed.

Lemma WInv_ins : forall s la lb L L' u x, WInv s la lb L -> Ins (W false u x) L L' -> uid_of s x = Ok u ->
  In u (uids la) -> ~ In u (uids lb) -> ~ In u (uids (wes L)) -> WInv s la lb L'.
Proof.
  intros s la lb L L' u x [H1 H2 H3] HI Hu Ha Hb Hn. split.
  - apply (WellId_Ins s (we (W false u x)) (wes L)); auto. apply wes_Ins. auto.
  - intros w Hw. apply (Ins_In _ w L L' HI) in Hw. destruct Hw as [E | Hw]; [subst; simpl; auto | apply H2; auto].
  - intros t cs Hs U. rewrite <- (H3 t cs Hs U). unfold oseq. f_equal.
    apply (Ins_filter_out (oq t) (W false u x)); auto.
Qed.

(** ** Results per identity *)
Definition Part (P : uid -> option xml -> Prop) (lb : list ent) (todo : list uid) (L : list went) : Prop :=
  forall u, (In u todo -> assoc uid_eqb u (wes L) = assoc uid_eqb u lb) /\
            (~ In u todo -> P u (assoc uid_eqb u (wes L))).

Lemma Part_step : forall P lb u rest L L', Part P lb (u :: rest) L -> ~ In u rest ->
  (forall v, v <> u -> assoc uid_eqb v (wes L') = assoc uid_eqb v (wes L)) ->
  P u (assoc uid_eqb u (wes L')) -> Part P lb rest L'.
Proof.
  intros P lb u rest L L' H Hn Hv Hu v. destruct (uid_dec v u) as [E | E].
  - subst v. split; [intro X; contradiction | auto].
  - rewrite (Hv v E). destruct (H v) as [H1 H2]. split; [intro X; apply H1; right; auto |].
    intro X. apply H2. intros [Y | Y]; [congruence | contradiction].
Qed.

Lemma Part_upd : forall P lb u rest L x, Part P lb (u :: rest) L -> ~ In u rest ->
  In u (uids lb) -> P u (Some x) -> Part P lb rest (w_upd u x L).
Proof.
  intros P lb u rest L x H Hn Hb HP. apply (Part_step P lb u rest L); auto; rewrite wes_upd.
  - intros v Hv. rewrite assoc_upd. rewrite (proj2 (eqb_neq uid_eqb uid_eqb_ok v u) Hv). reflexivity.
  - rewrite assoc_upd, uid_eqb_refl. destruct (H u) as [H1 _]. rewrite H1 by (left; auto).
    apply assoc_Some_uids in Hb. destruct Hb as (y & E). rewrite E. auto.
Qed.

Lemma Part_del : forall P lb u rest L, Part P lb (u :: rest) L -> ~ In u rest ->
  P u None -> Part P lb rest (w_del u L).
Proof.
  intros P lb u rest L H Hn HP. apply (Part_step P lb u rest L); auto; rewrite wes_del.
  - intros v Hv. rewrite assoc_del. rewrite (proj2 (eqb_neq uid_eqb uid_eqb_ok v u) Hv). reflexivity.
  - rewrite assoc_del, uid_eqb_refl. auto.
Qed.

Lemma Part_keep : forall P lb u rest L, Part P lb (u :: rest) L -> ~ In u rest ->
  P u (assoc uid_eqb u lb) -> Part P lb rest L.
Proof.
  intros P lb u rest L H Hn HP. apply (Part_step P lb u rest L); auto.
  destruct (H u) as [H1 _]. rewrite H1 by (left; auto). auto.
Qed.

Lemma Part_new : forall P lb u rest L, Part P lb (u :: rest) L -> ~ In u (uids lb) -> ~ In u (uids (wes L)).
Proof.
  intros P lb u rest L H Hb. apply assoc_None_uids. destruct (H u) as [H1 _]. rewrite H1 by (left; auto).
  apply assoc_None_uids. auto.
Qed.

Lemma Part_ins : forall P lb u rest L L' x, Part P lb (u :: rest) L -> ~ In u rest ->
  ~ In u (uids lb) -> Ins (W false u x) L L' -> P u (Some x) -> Part P lb rest L'.
Proof.
  intros P lb u rest L L' x H Hn Hb HI HP. assert (N := Part_new P lb u rest L H Hb).
  assert (A : forall v, assoc uid_eqb v (wes L') = if uid_eqb v u then Some x else assoc uid_eqb v (wes L)).
  { intro v. apply (assoc_Ins v (we (W false u x)) (wes L)); auto. apply wes_Ins. auto. }
  apply (Part_step P lb u rest L); auto.
  - intros v Hv. rewrite A. rewrite (proj2 (eqb_neq uid_eqb uid_eqb_ok v u) Hv). reflexivity.
  - rewrite A, uid_eqb_refl. auto.
Qed.

(** ** The insert, value and key attributes *)
Definition kind_of (cs : snode) : option (list string) :=
  match sty cs with TList => Some (s_keys (si cs)) | _ => None end.
Definition ObuOK (s : snode) (m : obu) : Prop :=
  forall t k, In (t, k) m -> exists cs, schema_child s t = Ok cs /\ is_user_seq cs = true /\ k = kind_of cs.

Lemma child_tag : forall s t cs, schema_child s t = Ok cs -> stag cs = t.
Proof.
  intros s t cs H. apply schema_child_entry in H. destruct H as (e & He & E). apply schema_entry_In in He. subst. tauto.
Qed.

Lemma ObuOK_add : forall s t cs m, ObuOK s m -> schema_child s t = Ok cs -> ObuOK s (obu_add cs m).
Proof.
  intros s t cs m H Hs. unfold obu_add. destruct (is_user_seq cs) eqn:U; auto.
  rewrite (child_tag s t cs Hs). destruct (assoc String.eqb t m); auto.
  intros t' k Hin. apply in_app_or in Hin. destruct Hin as [Hin | [E | []]]; [apply H; auto |].
  inversion E; subst. exists cs. split; auto.
Qed.

Lemma obu_add_mem : forall t cs m s, schema_child s t = Ok cs -> is_user_seq cs = true ->
  In t (map fst (obu_add cs m)).
Proof.
  intros t cs m s Hs U. unfold obu_add. rewrite U, (child_tag s t cs Hs).
  destruct (assoc String.eqb t m) eqn:E.
  - apply (assoc_In String.eqb string_eqb_ok) in E. apply (in_map fst) in E. exact E.
  - rewrite map_app. apply in_or_app. right. left. auto.
Qed.

Lemma obu_add_incl : forall cs m t, In t (map fst m) -> In t (map fst (obu_add cs m)).
Proof.
  intros cs m t H. unfold obu_add. destruct (is_user_seq cs); auto. destruct (assoc String.eqb (stag cs) m); auto.
  rewrite map_app. apply in_or_app. auto.
Qed.

Lemma uid_pred : forall s x cs u vs, schema_child s (xtag x) = Ok cs -> sty cs = TList -> uid_of s x = Ok u ->
  snd u = KTup (map Some vs) -> pred_string (s_keys (si cs)) x = Ok (pstr (s_keys (si cs)) vs).
Proof.
  intros s x cs u vs Hs Ht Hu Hv. apply (uid_list s x cs Hs Ht) in Hu. destruct Hu as (ts & Hk & E). subst u.
  simpl in Hv. inversion Hv; subst ts. clear Hv. apply key_tuple_Forall2 in Hk.
  revert vs Hk. induction (s_keys (si cs)) as [| k ks IH]; intros vs Hk.
  - reflexivity.
  - destruct vs as [| v vs]; simpl in Hk; inversion Hk as [| ? ? ? ? (kn & H1 & H2) H3]; subst.
    rewrite parse_text_id in H2 by congruence. cbn [pred_string]. rewrite (kids_tagged_find _ _ _ H1).
    rewrite (IH vs H3). cbn [bind pstr]. rewrite H2. reflexivity.
Qed.

Lemma uid_pred_total : forall s x cs u, schema_child s (xtag x) = Ok cs -> sty cs = TList -> uid_of s x = Ok u ->
  exists ps, pred_string (s_keys (si cs)) x = Ok ps.
Proof.
  intros s x cs u Hs Ht Hu. apply (uid_list s x cs Hs Ht) in Hu. destruct Hu as (ts & Hk & _).
  apply key_tuple_Forall2 in Hk. induction Hk as [| k t ks ts (kn & H1 & _) Hk (ps & IH)]; [eexists; reflexivity |].
  cbn [pred_string]. rewrite (kids_tagged_find _ _ _ H1), IH. eexists. reflexivity.
Qed.

(** A result, or a TypeError and a reason for it *)
Definition RT {A} (B : Prop) (r : res A) (P : A -> Prop) : Prop :=
  (exists x, r = Ok x /\ P x) \/ (r = Err TypeError /\ B).

(** Only attributes of the sequence change *)
Definition SameW (w w' : went) : Prop :=
  w_orig w' = w_orig w /\ w_uid w' = w_uid w /\ xtag (w_xml w') = xtag (w_xml w) /\
  xtext (w_xml w') = xtext (w_xml w) /\ xkids (w_xml w') = xkids (w_xml w) /\
  op_of (w_xml w') = op_of (w_xml w).

Lemma SameW_refl : forall w, SameW w w.
Proof. intro w. unfold SameW. auto 10. Qed.

Lemma SameW_trans : forall w1 w2 w3, SameW w1 w2 -> SameW w2 w3 -> SameW w1 w3.
Proof.
  intros w1 w2 w3 (A1 & A2 & A3 & A4 & A5 & A6) (B1 & B2 & B3 & B4 & B5 & B6). unfold SameW.
  repeat split; congruence.
Qed.

Lemma SameW_uid : forall s w w', SameW w w' -> uid_of s (w_xml w) = Ok (w_uid w) -> uid_of s (w_xml w') = Ok (w_uid w').
Proof.
  intros s w w' (A1 & A2 & A3 & A4 & A5 & A6) H. rewrite A2, <- H. apply uid_congr; auto.
Qed.

Lemma seq_attrs_ok : forall B s t cs, schema_child s t = Ok cs -> is_user_seq cs = true ->
  forall L prev,
  (forall w, In w L -> uid_of s (w_xml w) = Ok (w_uid w)) ->
  (forall w, In w L -> oq t w = true -> TxtU cs (w_uid w) \/ B) ->
  (forall w, prev = Some w -> uid_of s (w_xml w) = Ok (w_uid w) /\ (TxtU cs (w_uid w) \/ B) /\ fst (w_uid w) = t) ->
  RT B (seq_attrs t (kind_of cs) (option_map w_xml prev) L) (fun L' =>
    Forall2 (fun w w' => SameW w w' /\ (oq t w = false -> w' = w)) L L' /\
    Chain cs (option_map w_uid prev) (wes (filter (oq t) L'))).
Proof.
  intros B s t cs Hs U L. induction L as [| w r IH]; intros prev Hid Hn Hp.
  - left. exists []. simpl. auto.
  - assert (Hw := Hid w (or_introl eq_refl)). assert (Tw := uid_tag s _ _ Hw).
    cbn [seq_attrs].
    assert (Eq : w_orig w && w_tag t w = oq t w) by (unfold oq, w_tag; rewrite Tw; auto). rewrite Eq.
    assert (Hr : forall w0, In w0 r -> uid_of s (w_xml w0) = Ok (w_uid w0)) by (intros; apply Hid; right; auto).
    assert (Hnr : forall w0, In w0 r -> oq t w0 = true -> TxtU cs (w_uid w0) \/ B) by (intros; apply Hn; auto; right; auto).
    destruct (oq t w) eqn:Q.
    + assert (Hnw := Hn w (or_introl eq_refl) Q).
      assert (Ht : fst (w_uid w) = t).
      { unfold oq in Q. apply andb_true_iff in Q. destruct Q as [_ Q]. apply String.eqb_eq. auto. }
      assert (IHw := IH (Some w) Hr Hnr). set (x := w_xml w) in *.
      assert (G : RT B (match option_map w_xml prev with
                | None => Ok (set_attr insert_tag "first" x)
                | Some p => match kind_of cs with
                            | None => match xtext p with
                                      | None => Err TypeError
                                      | Some v => Ok (set_attr value_tag v (set_attr insert_tag "after" x))
                                      end
                            | Some keys => let! ps := pred_string keys p in Ok (set_attr key_tag ps (set_attr insert_tag "after" x))
                            end
                end) (fun x' => InsAttr cs (option_map w_uid prev) x' /\
                xtag x' = xtag x /\ xtext x' = xtext x /\ xkids x' = xkids x /\ op_of x' = op_of x)).
      { destruct prev as [p |]; simpl.
        - destruct (Hp p eq_refl) as (P1 & P2 & P3). assert (Tp := uid_tag s _ _ P1).
          assert (Hsp : schema_child s (xtag (w_xml p)) = Ok cs) by (rewrite <- Tp, P3; auto).
          apply is_user_seq_iff in U. destruct U as [U Hty]. unfold kind_of, TxtU in *. destruct Hty as [Hty | Hty]; rewrite Hty in *.
          + rewrite (uid_leaflist s _ cs Hsp Hty) in P1. inversion P1 as [P1'].
            rewrite <- P1' in P2. simpl in P2. destruct (xtext (w_xml p)) as [tx |] eqn:Ep.
            2:{ right. split; auto. destruct P2 as [(tx & P2) | P2]; [discriminate | auto]. }
            left. eexists. split; [reflexivity |]. destruct x as [xt xx xa xk].
            split; [| repeat split; auto; unfold op_of; rewrite !get_set; reflexivity].
            split; [rewrite !get_set; reflexivity |]. intros ty Ey. simpl in Ey. inversion Ey. rewrite get_set. reflexivity. 
          + destruct (uid_pred_total s _ cs _ Hsp Hty P1) as (ps & Eps). rewrite Eps. cbn [bind].
            left. eexists. split; [reflexivity |]. destruct x as [xt xx xa xk].
            split; [| repeat split; auto; unfold op_of; rewrite !get_set; reflexivity].
            split; [rewrite !get_set; reflexivity |]. intros vs Ev. rewrite (uid_pred s _ cs _ vs Hsp Hty P1 Ev) in Eps. inversion Eps. rewrite get_set. reflexivity.
        - left. eexists. split; [reflexivity |]. destruct x as [xt xx xa xk].
          split; [rewrite get_set; reflexivity | repeat split; auto; unfold op_of; rewrite !get_set; reflexivity]. }
      cbv zeta. fold x.
      destruct G as [(x' & G1 & G2 & G3 & G4 & G5 & G6) | [G1 G2]]; rewrite G1; cbn [bind]; [| right; auto].
      destruct IHw as [(r' & R1 & R2 & R3) | [R1 R2]]; [intros w0 E; inversion E; subst; auto | |]; simpl in R1; fold x in R1; rewrite R1; cbn [bind]; [| right; auto].
      left. eexists. split; [reflexivity |]. split.
      * constructor; auto. split; [unfold SameW; simpl; auto 10 | intro X; congruence].
      * assert (Q' : oq t (W (w_orig w) (w_uid w) x') = true) by exact Q.
        cbn [filter]. rewrite Q'. simpl. split; auto.
    + destruct (IH prev Hr Hnr Hp) as [(r' & R1 & R2 & R3) | [R1 R2]]; rewrite R1; cbn [bind]; [| right; auto].
      left. eexists. split; [reflexivity |].
      split; [constructor; auto; split; [apply SameW_refl | auto] |]. cbn [filter]. rewrite Q. auto.
Qed.

Lemma oq_SameW : forall t w w', SameW w w' -> oq t w' = oq t w.
Proof. intros t w w' (A1 & A2 & _). unfold oq. rewrite A1, A2. reflexivity. Qed.

Lemma Forall2_compose : forall {A} (R S T : A -> A -> Prop) l1 l2 l3,
  (forall x y z, R x y -> S y z -> T x z) -> Forall2 R l1 l2 -> Forall2 S l2 l3 -> Forall2 T l1 l3.
Proof.
  intros A R S T l1 l2 l3 H H1. revert l3. induction H1; intros l3 H2; inversion H2; subst; constructor; eauto.
Qed.

Lemma Forall2_refl : forall {A} (R : A -> A -> Prop) l, (forall x, R x x) -> Forall2 R l l.
Proof. intros A R l H. induction l; constructor; auto. Qed.

Lemma all_seq_ok : forall B s m L, ObuOK s m ->
  (forall w, In w L -> uid_of s (w_xml w) = Ok (w_uid w)) ->
  (forall w cs, In w L -> schema_child s (fst (w_uid w)) = Ok cs -> is_user_seq cs = true -> TxtU cs (w_uid w) \/ B) ->
  RT B (all_seq_attrs m L) (fun L' => Forall2 SameW L L' /\
    (forall t cs, In t (map fst m) -> schema_child s t = Ok cs -> Chain cs None (wes (filter (oq t) L'))) /\
    (forall t, ~ In t (map fst m) -> filter (oq t) L' = filter (oq t) L)).
Proof.
  intros B s m. induction m as [| [t k] m IH]; intros L HO Hid Hn.
  - left. exists L. simpl. split; auto. split; [apply Forall2_refl; apply SameW_refl |]. split; [intros t cs [] | auto].
  - destruct (HO t k (or_introl eq_refl)) as (cs & Hs & U & E). subst k.
    destruct (seq_attrs_ok B s t cs Hs U L None) as [(L1 & A1 & A2 & A3) | [A1 A2]]; auto.
    { intros w Hw Q. apply Hn; auto. unfold oq in Q. apply andb_true_iff in Q. destruct Q as [_ Q].
      apply String.eqb_eq in Q. rewrite Q. auto. }
    { intros w X. discriminate. }
    2:{ right. unfold all_seq_attrs. cbn [foldM fst snd]. simpl in A1. rewrite A1. auto. }
    assert (S1 : Forall2 SameW L L1) by (eapply Forall2_impl; [| exact A2]; intros x y [X _]; exact X).
    assert (Hb : forall w, In w L1 -> exists w0, In w0 L /\ SameW w0 w).
    { clear -S1. induction S1; intros w0 Hw; [destruct Hw |]. destruct Hw as [E | Hw]; [subst; exists x; split; auto; left; auto |].
      destruct (IHS1 w0 Hw) as (w1 & B1 & B2). exists w1. split; auto. right. auto. }
    unfold all_seq_attrs in *. cbn [foldM fst snd]. simpl in A1. rewrite A1. cbn [bind].
    destruct (IH L1) as [(L2 & B1 & B2 & B3 & B4) | [B1 B2]]; [| | | | right; auto].
    { intros t' k' H'. apply HO. right. auto. }
    { intros w Hw. destruct (Hb w Hw) as (w0 & I0 & S0). apply (SameW_uid s w0 w S0). auto. }
    { intros w cs' Hw Hs' U'. destruct (Hb w Hw) as (w0 & I0 & S0). destruct S0 as (_ & E & _). rewrite E in *. eapply Hn; eauto. }
    left. exists L2. split; auto.
    split; [eapply Forall2_compose; [apply SameW_trans | exact S1 | exact B2] |].
    assert (F : forall t', t' <> t -> filter (oq t') L1 = filter (oq t') L).
    { intros t' N. clear -A2 N. induction A2 as [| w w' r r' [X1 X2] A2 IHA]; auto. simpl.
      rewrite (oq_SameW t' w w' X1). destruct (oq t' w) eqn:Q; auto. f_equal; auto. apply X2.
      unfold oq in *. apply andb_true_iff in Q. destruct Q as [_ Q]. apply String.eqb_eq in Q.
      apply andb_false_iff. right. apply String.eqb_neq. congruence. }
    split.
    + intros t' cs' Hin Hs'. destruct (in_dec string_dec t' (map fst m)) as [Hm | Hm]; [apply B3; auto |].
      rewrite B4 by auto. destruct Hin as [E | Hin]; [| contradiction]. simpl in E. subst t'.
      assert (cs' = cs) by congruence. subst. exact A3.
    + intros t' Hnin. rewrite B4; [| intro X; apply Hnin; right; auto]. apply F. intro X. apply Hnin. left. auto.
Qed.

(** The list after the attributes have been set *)
Lemma SameW_wes : forall L L', Forall2 SameW L L' -> uids (wes L') = uids (wes L) /\
  forall u, (assoc uid_eqb u (wes L) = None /\ assoc uid_eqb u (wes L') = None) \/
            exists x x', assoc uid_eqb u (wes L) = Some x /\ assoc uid_eqb u (wes L') = Some x' /\
              xtag x' = xtag x /\ xtext x' = xtext x /\ xkids x' = xkids x /\ op_of x' = op_of x.
Proof.
  intros L L' H. induction H as [| w w' r r' (A1 & A2 & A3 & A4 & A5 & A6) H [I1 I2]]; simpl.
  - split; auto.
  - split; [f_equal; auto |]. intro u. rewrite A2. destruct (uid_eqb u (w_uid w)); [right; eauto 10 | auto].
Qed.

Lemma WInv_same : forall s la lb L L', WInv s la lb L -> Forall2 SameW L L' -> WInv s la lb L'.
Proof.
  intros s la lb L L' [H1 H2 H3] HF. destruct (SameW_wes L L' HF) as [E1 E2]. split.
  - split; [| rewrite E1; apply H1]. destruct H1 as [H1 _]. clear -HF H1.
    induction HF as [| w w' r r' X HF IH]; simpl; [constructor |].
    simpl in H1. inversion H1 as [| ? ? H2 H3]; subst. constructor; [exact (SameW_uid s w w' X H2) | apply IH; exact H3].
  - intros w' Hw. assert (G : exists w, In w L /\ SameW w w').
    { clear -HF Hw. induction HF; [destruct Hw |]. destruct Hw as [E | Hw]; [subst; exists x; split; auto; left; auto |].
      destruct (IHHF Hw) as (w1 & B1 & B2). exists w1. split; auto. right. auto. }
    destruct G as (w & Hin & A1 & A2 & _). rewrite A1, A2. exact (H2 w Hin).
  - intros t cs Hs U. rewrite <- (H3 t cs Hs U). unfold oseq. clear -HF. induction HF as [| w w' r r' X HF IH]; auto.
    simpl. rewrite (oq_SameW t w w' X). destruct (oq t w); auto. simpl. f_equal; auto. apply X.
Qed.

(** Entries of the delta that are in the destination = entries that were there *)
Lemma dseq_orig : forall s la lb L t, WInv s la lb L -> dseq t lb (wes L) = wes (filter (oq t) L).
Proof.
  intros s la lb L t [_ H _]. unfold dseq, wes. rewrite filter_map. f_equal. apply filter_ext_in. intros w Hw.
  specialize (H w Hw). unfold oq. simpl. rewrite andb_comm. f_equal.
  destruct (w_orig w); [apply (mem_In uid_eqb uid_eqb_ok); auto | apply (mem_not_In uid_eqb uid_eqb_ok); tauto].
Qed.

Lemma known_TxtU : forall B s a b la lb L w cs, texted s a = true \/ B -> texted s b = true \/ B ->
  Index s (xkids a) la -> Index s (xkids b) lb -> WInv s la lb L -> In w L ->
  schema_child s (fst (w_uid w)) = Ok cs -> is_user_seq cs = true -> TxtU cs (w_uid w) \/ B.
Proof.
  intros B s a b la lb L w cs Oa Ob Ha Hb HW Hw Hs U. assert (K := wi_known _ _ _ _ HW w Hw).
  destruct (w_orig w).
  - destruct Ob as [Ob | Ob]; auto. left. apply (texted_TxtU s b lb); auto.
  - destruct Oa as [Oa | Oa]; auto. left. apply (texted_TxtU s a la); auto. tauto.
Qed.
