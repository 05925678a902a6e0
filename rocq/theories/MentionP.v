(** Proofs for C94: what deltas mention. *)
From Coq Require Import String Ascii List Bool Arith ZArith Lia Permutation.
From Verif Require Import Base BaseP XmlM CalcM CalcP NetconfM ConfigM ListP DataSpec DataP DeltaSpec DeltaR NameP AddP AddStepP PlainP WorkP SubP RoundP ConfigSpec
  EditSpec EditP EditSemP EditValP CompareP ConfigP OpsP SumSpec SumP VocabSpec MentionSpec.
Import ListNotations.
Open Scope string_scope.
Open Scope list_scope.
Local Existing Instance any_late.

Definition Reason (cs : snode) (ca cb : xml) : Prop := ~ Same cs ca cb \/ s_is_key (si cs) = true \/ UserOrdered cs.
Inductive Thin : snode -> xml -> xml -> xml -> Prop :=
| thin : forall s a b d la lb ld, Index s (xkids a) la -> Index s (xkids b) lb -> Index s (xkids d) ld ->
    (forall u ca cb c cs, assoc uid_eqb u la = Some ca -> assoc uid_eqb u lb = Some cb -> assoc uid_eqb u ld = Some c -> schema_child s (fst u) = Ok cs ->
       Reason cs ca cb /\ (nodeish (sty cs) = true -> Thin cs ca cb c)) -> Thin s a b d.

Lemma Thin_kids : forall s a b d d', Thin s a b d -> xkids d' = xkids d -> Thin s a b d'.
Proof. intros s a b d d' T E. inversion T as [? ? ? ? la lb ld I1 I2 I3 H]; subst. apply (thin s a b d' la lb ld); auto. rewrite E. auto. Qed.

Lemma Thin_Alike : forall d d' s a b, Thin s a b d -> Forall2 Alike (xkids d) (xkids d') -> Thin s a b d'.
Proof.
  intro d. induction d as [t tx al ks IH] using xml_ind'. intros d' s a b T F. inversion T as [? ? ? ? la lb ld I1 I2 I3 H]; subst.
  destruct (Alike_Index s _ _ ld F I3) as (ld' & J1 & J2). apply (thin s a b d' la lb ld'); auto.
  intros u ca cb c' cs E1 E2 E3 Es. pose proof (Alike_assoc u ld ld' J2) as X. rewrite E3 in X.
  destruct (assoc uid_eqb u ld) as [c |] eqn:E4; [| contradiction]. destruct (H u ca cb c cs E1 E2 E4 Es) as (R & D). split; auto.
  intro N. rewrite Forall_forall in IH. apply (IH c); auto; [| apply Alike_kids; auto].
  destruct I3 as (K & _). cbn [xkids] in K. rewrite <- K. apply (assoc_In uid_eqb uid_eqb_ok) in E4. apply (in_map snd) in E4. auto.
Qed.

(** Attributes of the sequence *)
Lemma SameW_set : forall w n v, n = insert_tag \/ n = value_tag \/ n = key_tag -> forall w0, SameW w0 w -> SameW w0 (W (w_orig w) (w_uid w) (set_attr n v (w_xml w))).
Proof.
  intros w n v N w0 (S1 & S2 & S3 & S4 & S5 & S6). destruct (set_attr_parts n v (w_xml w)) as (P1 & P2 & P3). unfold SameW. cbn [w_orig w_uid w_xml].
  rewrite P1, P2, P3. repeat (split; [assumption |]). rewrite <- S6. unfold op_of. rewrite get_set.
  destruct N as [-> | [-> | ->]]; reflexivity.
Qed.
Lemma seq_same : forall t k l p l', seq_attrs t k p l = Ok l' -> Forall2 SameW l l'.
Proof.
  intros t k l. induction l as [| w r IH]; intros p l' H; cbn [seq_attrs] in H.
  - assert (X : l' = []) by congruence. subst. constructor.
  - destruct (w_orig w && w_tag t w) eqn:B.
    + apply andb_prop in B. destruct B as [B1 _]. apply bind_ok in H. destruct H as (x' & Hx & H). apply bind_ok in H. destruct H as (r' & Hr & H).
      assert (X : l' = W true (w_uid w) x' :: r') by congruence. subst l'. constructor; [| exact (IH _ _ Hr)].
      assert (S1 : forall v, SameW w (W true (w_uid w) (set_attr insert_tag v (w_xml w)))) by (intro v; rewrite <- B1; apply SameW_set; auto; apply SameW_refl).
      destruct p as [p |]; [| assert (X : x' = set_attr insert_tag "first" (w_xml w)) by congruence; subst x'; auto].
      destruct k as [ks |].
      * apply bind_ok in Hx. destruct Hx as (v & _ & Hx). assert (X : x' = set_attr key_tag v (set_attr insert_tag "after" (w_xml w))) by congruence. subst x'.
        apply (SameW_set (W true (w_uid w) (set_attr insert_tag "after" (w_xml w)))); auto.
      * destruct (xtext p) as [v |]; [| discriminate]. assert (X : x' = set_attr value_tag v (set_attr insert_tag "after" (w_xml w))) by congruence. subst x'.
        apply (SameW_set (W true (w_uid w) (set_attr insert_tag "after" (w_xml w)))); auto.
    + apply bind_ok in H. destruct H as (r' & Hr & H). assert (X : l' = w :: r') by congruence. subst l'. constructor; [apply SameW_refl | exact (IH _ _ Hr)].
Qed.
Lemma all_seq_same : forall m l l', all_seq_attrs m l = Ok l' -> Forall2 SameW l l'.
Proof.
  unfold all_seq_attrs. induction m as [| [t k] m IH]; intros l l' H; cbn [foldM] in H.
  - assert (X : l' = l) by congruence. subst. apply Forall2_refl. apply SameW_refl.
  - apply bind_ok in H. destruct H as (l1 & H1 & H). cbn [fst snd] in H1. apply seq_same in H1. apply IH in H. clear IH. revert l' H.
    induction H1 as [| x y r1 r2 S1 F IH]; intros l' H; inversion H; subst; constructor; eauto using SameW_trans.
Qed.

Lemma foldM_todo : forall {A St} (Inv : list uid -> St -> Prop) (key : A -> uid) (step : St -> A -> res St) l todo st st',
  (forall p rest st0 st1, In p l -> Inv (key p :: rest) st0 -> ~ In (key p) rest -> step st0 p = Ok st1 -> Inv rest st1) ->
  NoDup (map key l ++ todo) -> Inv (map key l ++ todo) st -> foldM step st l = Ok st' -> Inv todo st'.
Proof.
  intros A St Inv key step l. induction l as [| p r IH]; intros todo st st' Hs ND HI H; cbn [foldM map app] in *.
  - congruence.
  - apply bind_ok in H. destruct H as (s1 & H1 & H). inversion ND as [| ? ? Hn ND']; subst.
    apply (IH todo s1 st'); auto; [intros p0 rest st0 st1 I0; apply Hs; right; auto |]. apply (Hs p (map key r ++ todo) st s1); auto. left. auto.
Qed.

Lemma NoDup_tail : forall {A} (l r : list A), NoDup (l ++ r) -> NoDup r.
Proof. induction l as [| x l IH]; intros r H; auto. inversion H; subst. auto. Qed.

Section Level.
Variables (o : opts) (s : snode) (a b : xml) (la lb : list ent).
Hypothesis OR : o_replace o = PRMerge.
Hypothesis OT : o_type o <> DReplace.
Hypothesis Ws : wfs s = true.
Hypothesis Va : validk s a.
Hypothesis Vb : validk s b.
Hypothesis Ia : Index s (xkids a) la.
Hypothesis Ib : Index s (xkids b) lb.

Definition TP (u : uid) (x : option xml) : Prop := forall ca cb c cs, assoc uid_eqb u la = Some ca -> assoc uid_eqb u lb = Some cb -> x = Some c ->
  schema_child s (fst u) = Ok cs -> Reason cs ca cb /\ (nodeish (sty cs) = true -> Thin cs ca cb c).
Definition TI (todo : list uid) (st : sstate) : Prop := WellId s (wes (ss_self st)) /\ Part TP lb todo (ss_self st).

Lemma TI_init : TI (T1 la lb ++ T2 la lb ++ T3 la lb) (SState (w_init lb) (w_init la) [] []).
Proof.
  split; cbn [ss_self].
  - rewrite wes_init. eapply Index_WellId; eauto.
  - intro u. rewrite wes_init. split; auto. intros H. destruct (T_all la lb u H) as [H1 H2]. intros ca cb c cs E. congruence.
Qed.

Lemma t_only_self : forall p rest st0 st1, In p (only_in lb la) -> TI (fst p :: rest) st0 -> ~ In (fst p) rest -> sub_only_self o s st0 p = Ok st1 -> TI rest st1.
Proof.
  intros [u c] rest st0 st1 Hin [WI P] Hn H. cbn [fst] in *. destruct (only_b s b la lb Ws Vb Ib u c Hin) as (A1 & A2 & A3 & A4 & cs & B1 & B2 & B3 & B4 & B5).
  unfold sub_only_self in H. destruct (schema_entry_child s _ cs B1) as (ce & E1 & E2). rewrite E1 in H. cbn [bind] in H. rewrite E2 in H.
  destruct (mark_create_ok o s cs c u B1 Ws B2 B3) as (c' & X1 & X2 & _).
  assert (G : match o_type o with DReplace => Ok (set_attr operation_tag "replace" c) | _ => mark_create o cs c end = Ok c') by (destruct (o_type o); congruence).
  rewrite G in H. cbn [bind] in H. destruct (mk_del o cs c) as [d |]; [| discriminate]. cbn [bind] in H. injection H as <-. split; cbn [ss_self].
  - rewrite wes_upd. apply WellId_upd; auto.
  - apply Part_upd; auto. intros ca cb c0 cs0 E. congruence.
Qed.

Lemma t_only_other : forall p rest st0 st1, In p (only_in la lb) -> TI (fst p :: rest) st0 -> ~ In (fst p) rest -> sub_only_other o s st0 p = Ok st1 -> TI rest st1.
Proof.
  intros [u c] rest st0 st1 Hin [WI P] Hn H. cbn [fst] in *. destruct (only_a s a la lb Ws Va Ia u c Hin) as (A1 & A2 & A3 & A4 & cs & B1 & B2 & B3 & B4 & B5).
  unfold sub_only_other in H. destruct (schema_entry_child s _ cs B1) as (ce & E1 & E2). rewrite E1 in H. cbn [bind] in H. rewrite E2 in H.
  destruct (mark_create o cs c) as [c' |]; [| discriminate]. cbn [bind] in H. destruct (mk_del_ok o s cs c u B1 Ws B2 B3) as (d & D1 & D2 & _). rewrite D1 in H. cbn [bind] in H.
  injection H as <-. assert (N : forall x, TP u x) by (intros x ca cb c0 cs0 E F; congruence). unfold TI. cbn [ss_self].
  destruct (existsb (w_tag (xtag c)) (ss_self st0) || case_allows ce (ss_cho st0)).
  - assert (HI := ins_after_last_Ins (w_tag (xtag c)) (W false u d) (ss_self st0)). split.
    + apply (WellId_Ins s (we (W false u d)) (wes (ss_self st0))); auto; [apply wes_Ins; auto | apply (Part_new TP lb u rest); auto].
    + apply (Part_ins TP lb u rest (ss_self st0) _ d P Hn A4 HI). auto.
  - split; auto. apply (Part_keep TP lb u rest); auto.
Qed.

Definition RecT (rec : snode -> xml -> xml -> res (xml * xml)) : Prop :=
  forall u cs ca cb r, In (u, ca) la -> In (u, cb) lb -> schema_child s (xtag ca) = Ok cs -> xtag ca = xtag cb -> wfs cs = true -> nodeish (sty cs) = true ->
    valid cs ca = true -> valid cs cb = true -> uid_of s ca = Ok u -> uid_of s cb = Ok u -> In cb (xkids b) -> rec cs cb ca = Ok r -> uid_of s (fst r) = Ok u /\ Thin cs ca cb (fst r).

Lemma t_both : forall rec p rest st0 st1, RecT rec -> In p (both_in lb la) -> TI (fst (fst p) :: rest) st0 -> ~ In (fst (fst p)) rest -> sub_both o rec s st0 p = Ok st1 -> TI rest st1.
Proof.
  intros rec [[u cb] ca] rest st0 st1 HR Hin [WI P] Hn H. cbn [fst] in *.
  destruct (both_ab s a b la lb Ws Va Vb Ia Ib u cb ca Hin) as (A1 & A2 & A3 & A4 & A5 & A6 & T & Ua & Ub & cs & B1 & B2 & B3 & B4 & B5).
  assert (Hs' : schema_child s (xtag ca) = Ok cs) by congruence.
  unfold sub_both in H. cbv zeta in H. rewrite B1 in H. cbn [bind] in H.
  assert (DROP : forall m, Ok (SState (w_del u (ss_self st0)) (w_del u (ss_other st0)) m (ss_cho st0)) = Ok st1 -> TI rest st1).
  { intros m X. injection X as <-. split; cbn [ss_self]; [rewrite wes_del; apply WellId_del; auto |]. apply Part_del; auto. intros ? ? ? ? _ _ E. discriminate. }
  assert (FIT : forall x, Reason cs ca cb -> (nodeish (sty cs) = true -> Thin cs ca cb x) -> TP u (Some x)).
  { intros x R TH ca' cb' c cs' E1 E2 E3 E4. assert (ca' = ca) by congruence. assert (cb' = cb) by congruence. assert (c = x) by congruence.
    rewrite B5 in E4. assert (cs' = cs) by congruence. subst. auto. }
  assert (PUT : forall x y m, uid_of s x = Ok u -> Reason cs ca cb -> (nodeish (sty cs) = true -> Thin cs ca cb x) ->
            Ok (SState (w_upd u x (ss_self st0)) (w_upd u y (ss_other st0)) m (ss_cho st0)) = Ok st1 -> TI rest st1).
  { intros x y m U R TH X. injection X as <-. split; cbn [ss_self]; [rewrite wes_upd; apply WellId_upd; auto |]. apply Part_upd; auto. }
  assert (KEEP : Reason cs ca cb -> nodeish (sty cs) = false -> Ok st0 = Ok st1 -> TI rest st1).
  { intros R N X. injection X as <-. split; auto. apply (Part_keep TP lb u rest); auto. rewrite A2. apply FIT; auto. intro Y. congruence. }
  assert (UO : s_user (si cs) = true -> sty cs = TLeafList \/ sty cs = TList -> UserOrdered cs) by (intros U X; split; auto; destruct X; auto).
  assert (REC : forall m, nodeish (sty cs) = true -> Reason cs ca cb ->
     (let! ab := rec cs cb ca in Ok (SState (w_upd u (fst ab) (ss_self st0)) (w_upd u (snd ab) (ss_other st0)) m (ss_cho st0))) = Ok st1 -> TI rest st1).
  { intros m N R X. apply bind_ok in X. destruct X as (ab & X1 & X2).
    destruct (HR u cs ca cb ab (proj1 (Index_assoc s _ la u ca Ia) A1) (proj1 (Index_assoc s _ lb u cb Ib) A2) Hs' T B4 N B2 B3 Ua Ub A6 X1) as (Y1 & Y2).
    apply (PUT _ _ _ Y1 R (fun _ => Y2) X2). }
  destruct (sty cs) eqn:Ht; try discriminate.
  - destruct (valid_same_text cs cb ca B3 B2) as (sm & M1 & M2). rewrite M1 in H. cbn [bind] in H. unfold value_of in M2. rewrite Ht in M2. destruct sm.
    + destruct (s_is_key (si cs)) eqn:K; [| eauto]. apply KEEP; auto. right. left. auto.
    + rewrite OR in H. apply KEEP; auto. left. intros [S1 S2]. assert (X : xtext ca = xtext cb) by (apply (Same_text cs); auto; [split; auto | rewrite Ht; auto]).
      assert (false = true) by (apply M2; auto). discriminate.
  - destruct (s_user (si cs)) eqn:U; [| eauto]. apply (PUT cb ca (obu_add cs (ss_obu st0))); auto; [right; right; auto | discriminate].
  - destruct (node_eq_total cs cb ca B3 B2) as (e & Q1 & Q2). rewrite Q1 in H. cbn [bind] in H. destruct e; [eauto |].
    apply (REC (ss_obu st0)); auto. left. intro SM. apply Same_sym in SM. apply Q2 in SM. discriminate.
  - destruct (node_eq_total cs cb ca B3 B2) as (e & Q1 & Q2). rewrite Q1 in H. cbn [bind] in H. destruct e.
    + destruct (s_user (si cs)) eqn:U; [| eauto]. assert (SM : Same cs ca cb) by (apply Same_sym; apply Q2; auto).
      destruct (strip_ok s cs ca cb u B1 B4 Ht B2 B3 SM Ub) as (d & D1 & D2 & D3 & _). rewrite D1 in H. cbn [bind] in H. apply bind_ok in H. destruct H as (d' & _ & H).
      refine (PUT _ _ _ D2 _ _ H); [right; right; auto |]. intros _.
      destruct (valid_inv cs ca B2) as (_ & (lx & Hx) & _). destruct (valid_inv cs cb B3) as (_ & (ly & Hy) & Ky).
      rewrite strip_eq in D1 by (intros c Hc; destruct (Ky c Hc) as (k & K1 & _); eauto). assert (E : xkids d = filter (iskid cs) (xkids cb)) by (injection D1 as <-; destruct cb; auto).
      assert (Id := Index_filter cs _ ly (iskid cs) Hy). rewrite <- E in Id. apply (thin cs ca cb d lx ly _ Hx Hy Id).
      intros v ca' cb' c ks E1 E2 E3 E4. assert (IN : In c (xkids d)) by (destruct Id as (X & _); rewrite <- X; apply (assoc_In uid_eqb uid_eqb_ok) in E3; apply (in_map snd) in E3; auto).
      rewrite E in IN. apply filter_In in IN. destruct IN as [_ IN]. unfold iskid in IN. assert (TG : fst v = xtag c).
      { apply (Index_tag cs _ _ _ _ Id). apply (assoc_In uid_eqb uid_eqb_ok) in E3. auto. } rewrite <- TG, E4 in IN. split; [right; left; auto |].
      intro N. destruct (wfs_is_key cs _ ks B4 E4 IN) as (_ & X & _). rewrite X in N. discriminate.
    + apply (REC (obu_add cs (ss_obu st0))); auto. left. intro SM. apply Same_sym in SM. apply Q2 in SM. discriminate.
Qed.
End Level.

Lemma node_sub_thin : forall f o n s a b r, o_replace o = PRMerge -> o_type o <> DReplace -> height b <= f -> wfs s = true -> validk s a -> validk s b -> xattrs b = [] ->
  node_sub f o s (Z.of_nat n) b a = Ok r -> Thin s a b (fst r).
Proof.
  induction f as [| f IH]; intros o n s a b r OR OT Hf Ws Va Vb Ab H; [destruct b; cbn [height] in Hf; lia |].
  cbn [node_sub] in H. rewrite OR in H. cbn [bind] in H.
  destruct Va as [(la & Ia) Va']. destruct Vb as [(lb & Ib) Vb']. assert (Va : validk s a) by (split; eauto). assert (Vb : validk s b) by (split; eauto).
  rewrite (group_ok s _ _ lb la Ib Ia) in H. cbn [bind in_1_not_2 in_2_not_1 in_1_and_2] in H.
  rewrite (proj2 (index_ok s _ lb) Ib), (proj2 (index_ok s _ la) Ia) in H. cbn [bind] in H.
  apply bind_ok in H. destruct H as (st1 & H1 & H). apply bind_ok in H. destruct H as (st2 & H2 & H). apply bind_ok in H. destruct H as (st3 & H3 & H).
  apply bind_ok in H. destruct H as (ls & H4 & H). apply bind_ok in H. destruct H as (lo & _ & H). assert (X : r = (set_kids (map w_xml ls) b, set_kids (map w_xml lo) a)) by congruence. subst r. cbn [fst].
  assert (ND := T_NoDup s a b la lb Ia Ib).
  assert (I1 : TI s la lb (T2 la lb ++ T3 la lb) st1).
  { refine (foldM_todo (TI s la lb) fst (sub_only_self o s) (only_in lb la) _ _ _ _ ND (TI_init s b la lb Ib) H1).
    intros p rest st0 st' X1 X2 X3 X4. exact (t_only_self o s b la lb OT Ws Vb Ib p rest st0 st' X1 X2 X3 X4). }
  assert (ND2 : NoDup (T2 la lb ++ T3 la lb)) by (apply (NoDup_tail (T1 la lb)); auto).
  assert (I2 : TI s la lb (T3 la lb ++ []) st2).
  { rewrite app_nil_r. refine (foldM_todo (TI s la lb) fst (sub_only_other o s) (only_in la lb) _ _ _ _ ND2 I1 H2). intros p rest st0 st' X1 X2 X3 X4. exact (t_only_other o s a la lb Ws Va Ia p rest st0 st' X1 X2 X3 X4). }
  assert (I3 : TI s la lb [] st3).
  { assert (ND3 : NoDup (T3 la lb ++ [])) by (rewrite app_nil_r; apply (NoDup_tail (T2 la lb)); auto).
    refine (foldM_todo (TI s la lb) (fun p => fst (fst p)) _ (both_in lb la) _ _ _ _ ND3 I2 H3). intros p rest st0 st' X1 X2 X3 X4. refine (t_both o s a b la lb OR Ws Va Vb Ia Ib _ p rest st0 st' _ X1 X2 X3 X4). clear X1 X2 X3 X4 p rest st0 st'.
    intros u cs ca cb r Ica Icb Hs T Wc N V1 V2 Ua Ub Kb X.
    assert (X' : node_sub f o cs (Z.of_nat (S n)) cb ca = Ok r) by (replace (Z.of_nat (S n)) with (Z.of_nat n + 1)%Z by lia; destruct (o_type o); congruence).
    assert (Hf' : height cb <= f) by (assert (Y := height_kid cb b Kb); lia). assert (Acb : xattrs cb = []) by (apply (valid_inv cs cb V2)).
    split; [| apply (IH o (S n) cs ca cb r); auto using valid_validk].
    destruct (node_sub_rt True f o (S n) cs ca cb Hf' Wc (valid_validk _ _ V1) (valid_validk _ _ V2) Acb (or_intror I) (or_intror I)
      (Lvls_any ca o (S n) cs cb (valid_validk _ _ V1) (valid_validk _ _ V2))) as [(r' & R1 & R2 & _) | (R1 & _)].
    - intros [Y _]. contradiction.
    - intros m _ [Y _]. contradiction.
    - assert (r' = r) by congruence. subst r'. destruct r as [d a']. cbn [fst snd] in *.
      assert (Hcb : schema_child s (xtag cb) = Ok cs) by congruence.
      apply (rec_entry n s la lb cs ca cb d a' u Hcb N V2 T Ua Ub R2).
    - rewrite R1 in X'. discriminate. }
  destruct I3 as [WI P]. assert (F := all_seq_same _ _ _ H4). destruct (SameW_wes _ _ F) as [S1 S2].
  assert (WL : Index s (map w_xml ls) (wes ls)).
  { rewrite <- wes_kids. apply WellId_Index. split.
    - clear - WI F. destruct WI as [WI _]. induction F as [| x y r1 r2 SW F IHF]; cbn [wes map] in *; constructor; inversion WI; subst; auto.
      unfold we in *. cbn [fst snd] in *. apply (SameW_uid s x y SW); auto.
    - rewrite S1. apply WI. }
  apply (thin s a b _ la lb (wes ls)); auto; [destruct b; exact WL |].
  intros u ca cb c cs E1 E2 E3 E4. destruct (S2 u) as [[_ X] | (x & x' & X1 & X2 & _ & _ & X3 & _)]; [congruence |]. assert (x' = c) by congruence. subst x'.
  destruct (P u) as [_ P0]. destruct (P0 (fun F => F) ca cb x cs E1 E2 X1 E4) as (R & T). split; auto. intro N. apply (Thin_kids cs ca cb x c); auto.
Qed.

Lemma delta_thin : forall o s a b d, o_replace o = PRMerge -> o_type o <> DReplace -> wfs s = true -> IsConfig s a -> IsConfig s b -> delta_nc s (Delta a b o) = Ok d -> Thin s a b d.
Proof.
  intros o s a b d OR OT Ws (Va & _) (Vb & _) H. unfold delta_nc, nc_sub in H. cbn [d_src d_dst d_opts] in H. apply bind_ok in H. destruct H as (d1 & Hd & H).
  assert (T : Thin s a b d1).
  { assert (X : (let! p := node_sub (height b) o s 0 b a in Ok (fst p)) = Ok d1) by (destruct (o_type o); congruence).
    apply bind_ok in X. destruct X as (r & X1 & X2). assert (E : d1 = fst r) by congruence. subst d1.
    apply (node_sub_thin (height b) o 0 s a b r); auto using valid_validk. apply (valid_inv s b Vb). }
  destruct (o_type o); try (assert (d = d1) by congruence; subst; auto). assert (E : d = mark_depth (o_depth o + 1) d1) by congruence. subst d.
  apply (Thin_Alike d1); auto. rewrite mark_kids. apply mark_all.
Qed.

Lemma Thin_Worth : forall p s a b d s' n, Thin s a b d -> wfs s = true -> valid s a = true -> valid s b = true -> At s d p s' n -> p <> [] -> Present s a p \/ Present s b p -> Worth s a b p s'.
Proof.
  intros p. induction p as [| u p IH]; intros s a b d s' n T Ws Va Vb A NE PR; [contradiction |].
  inversion T as [? ? ? ? la lb ld Ia Ib Id H]; subst. inversion A as [| ? ? c cs ? ? ? ? C1 C2 C3 A']; subst.
  assert (CH : Child s d u cs c) by (split; [| split]; auto). apply (Child_assoc s d ld u cs c Id) in CH. destruct CH as (E3 & Ec).
  assert (Tc : fst u = xtag c) by (apply (Index_tag s _ ld u c Id); apply (Index_assoc s _ ld u c Id); auto).
  destruct (assoc uid_eqb u la) as [ca |] eqn:E1; [destruct (assoc uid_eqb u lb) as [cb |] eqn:E2 |].
  - assert (Ec' : schema_child s (fst u) = Ok cs) by congruence. destruct (H u ca cb c cs E1 E2 E3 Ec') as (R & TH).
    assert (Ta : fst u = xtag ca) by (apply (Index_tag s _ la u ca Ia); apply (Index_assoc s _ la u ca Ia); auto).
    assert (Tb : fst u = xtag cb) by (apply (Index_tag s _ lb u cb Ib); apply (Index_assoc s _ lb u cb Ib); auto).
    assert (Ea : schema_child s (xtag ca) = Ok cs) by congruence. assert (Eb : schema_child s (xtag cb) = Ok cs) by congruence.
    assert (Ha : Child s a u cs ca) by (apply (Child_assoc s a la); auto). assert (Hb : Child s b u cs cb) by (apply (Child_assoc s b lb); auto).
    destruct Ha as (A1 & A2 & A3). destruct Hb as (B1 & B2 & B3).
    destruct (valid_inv s a Va) as (_ & _ & Ka). destruct (Ka ca A1) as (k1 & K1 & V1). assert (k1 = cs) by congruence. subst k1.
    destruct (valid_inv s b Vb) as (_ & _ & Kb). destruct (Kb cb B1) as (k2 & K2 & V2). assert (k2 = cs) by congruence. subst k2.
    assert (Wc : wfs cs = true) by (apply (wfs_child s (xtag ca) cs); auto).
    destruct p as [| v p].
    + inversion A'; subst. right. exists ca, cb. split; [eapply at_down; eauto; constructor |]. split; [eapply at_down; eauto; constructor |].
      destruct R as [R | R]; [left | right; auto]. intro SD. apply R. destruct (cmp_eq_iff s' ca cb V1 V2 ltac:(congruence)) as (e & Q1 & Q2).
      destruct (node_eq_total s' ca cb V1 V2) as (e' & Q3 & Q4). apply Q4. unfold node_eq in Q3. unfold cmp_eq in Q1. assert (e' = e) by congruence. subst. apply Q2. auto.
    + assert (PR' : Present cs ca (v :: p) \/ Present cs cb (v :: p)).
      { destruct PR as [PR | PR]; [left; destruct (Present_up s a la u _ Ia PR) as (x & xs & X1 & X2 & X3) | right; destruct (Present_up s b lb u _ Ib PR) as (x & xs & X1 & X2 & X3)];
        [assert (x = ca) by congruence | assert (x = cb) by congruence]; subst x; assert (xs = cs) by congruence; subst xs; auto. }
      assert (N : nodeish (sty cs) = true).
      { assert (LF : forall y, valid cs y = true -> Present cs y (v :: p) -> nodeish (sty cs) = true).
        { intros y Vy (s1 & n1 & Y). inversion Y as [| ? ? z ? ? ? ? ? Z1 Z2 Z3 Z4]; subst. destruct y as [t tx al ks]. cbn [xkids] in Z1. cbn [valid] in Vy.
          assert (RT : sty cs <> TRoot) by (apply (wfs_not_root s (xtag ca) cs); auto).
          destruct (sty cs); auto; try contradiction; destruct al; cbn [andb] in Vy; try discriminate; destruct ks; try discriminate; destruct Z1. }
        destruct PR'; eauto. }
      assert (WO := IH cs ca cb c s' n (TH N) Wc V1 V2 A' ltac:(discriminate) PR').
      assert (UPa : Present cs ca (v :: p) <-> Present s a (u :: v :: p)).
      { split; [apply (Present_down s a la u ca cs); auto |]. intro X. destruct (Present_up s a la u _ Ia X) as (x & xs & X1 & X2 & X3). assert (x = ca) by congruence. subst x. assert (xs = cs) by congruence. subst xs. auto. }
      assert (UPb : Present cs cb (v :: p) <-> Present s b (u :: v :: p)).
      { split; [apply (Present_down s b lb u cb cs); auto |]. intro X. destruct (Present_up s b lb u _ Ib X) as (x & xs & X1 & X2 & X3). assert (x = cb) by congruence. subst x. assert (xs = cs) by congruence. subst xs. auto. }
      destruct WO as [WO | (na & nb & Y1 & Y2 & Y3)]; [left; unfold OneOnly in *; tauto |]. right. exists na, nb. split; [eapply at_down; eauto |]. split; [eapply at_down; eauto | auto].
  - left. left. assert (N := Absent_none s b lb u p Ib E2). split; auto. destruct PR; [auto | contradiction].
  - left. right. assert (N := Absent_none s a la u p Ia E1). split; auto. destruct PR; [contradiction | auto].
Qed.

Theorem delta_only : forall o s a b d, o_replace o = PRMerge -> o_type o <> DReplace -> wfs s = true -> IsConfig s a -> IsConfig s b -> delta_nc s (Delta a b o) = Ok d ->
  forall p s' n, At s d p s' n -> p <> [] -> Worth s a b p s'.
Proof.
  intros o s a b d OR OT Ws Ca Cb H p s' n A NE. apply (Thin_Worth p s a b d s' n); auto; try apply Ca; try apply Cb; [apply (delta_thin o); auto |].
  destruct (At_Walk s d p s' n A) as (w & W1 & W2). destruct (nodes_all o s a b d Ws Ca Cb H w s' n W1) as (q & Q1 & Q2 & _). rewrite <- (W2 q Q1). auto.
Qed.

(** ** What is new *)
Lemma leaf_below : forall s x u p v, valid s x = true -> leafish (sty s) = true -> ~ Holds s x (u :: p) v.
Proof.
  intros s [t tx al ks] u p v V L H. apply Holds_cons in H. destruct H as (cs & c & (H & _) & _). cbn [xkids] in H. cbn [valid] in V.
  destruct al; [| discriminate]. destruct (sty s); try discriminate; destruct ks; try discriminate; destruct H.
Qed.
Lemma node_none : forall s x, nodeish (sty s) = true -> value_of s x = None.
Proof. intros s x N. unfold value_of. destruct (sty s); try discriminate; auto. Qed.

Lemma Bare_Holds : forall p s x y v, Forall2 Bare (xkids x) (xkids y) -> validk s y -> p <> [] -> Holds s y p v -> Holds s x p v.
Proof.
  induction p as [| u p IH]; intros s x y v F V NE H; [contradiction |]. apply Holds_cons in H. destruct H as (cs & c & (C1 & C2 & C3) & H).
  destruct V as ((ly & Iy) & K). destruct (K c C1) as (cs' & S' & Vc). assert (cs = cs') by (apply (Defines_schema_child s (xtag c)); auto). subst cs'.
  assert (FI : exists z, In z (xkids x) /\ Bare z c).
  { clear - F C1. induction F as [| z c' l l' B F IHF]; [destruct C1 |]. destruct C1 as [-> | C1]; [exists z; split; auto; left; auto |]. destruct (IHF C1) as (w & W1 & W2). exists w. split; auto. right. auto. }
  destruct FI as (z & Iz & B). assert (T := Bare_tag z c B). assert (Sz : schema_child s (xtag z) = Ok cs) by congruence.
  assert (Uc : uid_of s c = Ok u).
  { destruct (Index_In s _ ly c Iy C1) as (w & Hw). assert (U := Index_uid s _ ly w c Iy Hw). rewrite <- (uid_Ident s c cs u w S' U C3). auto. } rewrite <- (Bare_uid s z c B) in Uc.
  apply (Holds_down s x u z cs p v); auto. inversion B as [? ? _ B2 _ B4]; subst. destruct p as [| w p].
  - apply Holds_nil. apply Holds_nil in H. rewrite <- H. unfold value_of. destruct (sty cs); auto.
  - apply (IH cs z c v); auto using valid_validk. discriminate.
Qed.

Lemma new_all : forall p n s a b d v, wfs s = true -> validk s a -> validk s b -> IsD n s (xkids a) (xkids b) (xkids d) -> p <> [] -> Holds s b p v -> Holds s a p v \/ Holds s d p v.
Proof.
  induction p as [| u p IH]; intros n s a b d v Ws Va Vb HD NE H; [contradiction |].
  inversion HD as [? ? ? ? ? la lb ld Ia Ib Id HE _]; subst. apply Holds_cons in H. destruct H as (cs & cb & CH & H).
  apply (Child_assoc s b lb u cs cb Ib) in CH. destruct CH as (Eb & Scb). specialize (HE u). rewrite Eb in HE.
  assert (Ub : uid_of s cb = Ok u) by (apply (Index_uid s _ lb u cb Ib); apply (Index_assoc s _ lb u cb Ib); auto).
  assert (Tb : fst u = xtag cb) by (apply (Index_tag s _ lb u cb Ib); apply (Index_assoc s _ lb u cb Ib); auto).
  assert (Kb : In cb (xkids b)) by (apply (Index_kid s _ lb u cb Ib); apply (Index_assoc s _ lb u cb Ib); auto).
  assert (Vcb : valid cs cb = true) by (destruct Vb as (_ & K); destruct (K cb Kb) as (k & K1 & K2); assert (k = cs) by congruence; subst; auto).
  assert (Wc : wfs cs = true) by (apply (wfs_child s (xtag cb) cs); auto).
  remember (assoc uid_eqb u la) as oa eqn:AA. symmetry in AA. remember (assoc uid_eqb u ld) as od eqn:AD. symmetry in AD.
  assert (UPD : forall cd, od = Some cd -> Holds cs cd p v -> Holds s d (u :: p) v).
  { intros cd -> HH. assert (I := proj1 (Index_assoc s _ ld u cd Id) AD). apply (Holds_down s d u cd cs p v); auto.
    - apply (Index_kid s _ ld u cd Id I).
    - rewrite <- (Index_tag s _ ld u cd Id I). congruence.
    - apply (Index_uid s _ ld u cd Id I). }
  assert (UPA : forall ca, oa = Some ca -> Holds cs ca p v -> Holds s a (u :: p) v).
  { intros ca -> HH. assert (I := proj1 (Index_assoc s _ la u ca Ia) AA). apply (Holds_down s a u ca cs p v); auto.
    - apply (Index_kid s _ la u ca Ia I).
    - rewrite <- (Index_tag s _ la u ca Ia I). congruence.
    - apply (Index_uid s _ la u ca Ia I). }
  assert (VCA : forall ca, oa = Some ca -> schema_child s (xtag ca) = Ok cs /\ valid cs ca = true).
  { intros ca ->. assert (I := proj1 (Index_assoc s _ la u ca Ia) AA). assert (T := Index_tag s _ la u ca Ia I). assert (Sa : schema_child s (xtag ca) = Ok cs) by congruence. split; auto.
    destruct Va as (_ & K). destruct (K ca (Index_kid s _ la u ca Ia I)) as (k & K1 & K2). assert (k = cs) by congruence. subst. auto. }
  assert (BODY : forall cd, od = Some cd -> Body cd cb -> Holds s d (u :: p) v).
  { intros cd E [B1 B2]. apply (UPD cd E). destruct p as [| w p].
    - apply Holds_nil. apply Holds_nil in H. rewrite <- H. unfold value_of. rewrite B1. reflexivity.
    - apply (Bare_Holds _ cs cd cb v); auto using valid_validk. discriminate. }
  assert (NONE : forall x, nodeish (sty cs) = true -> p = [] -> Holds cs x p v).
  { intros x N ->. apply Holds_nil. apply Holds_nil in H. rewrite <- H. rewrite !node_none; auto. }
  inversion HE as [| ? ? ? ? ca cb' cs0 S0 SM | | ? ? ? ? cb' cd cs0 S0 OP BD | ? ? ? ? cb' cd cs0 S0 T OP HD' | ? ? ? ? cb' cd cs0 ks S0 T OP KC HD' | |
     | ? ? ? ? ca cb' cd cs0 S0 L OP BD | ? ? ? ? ca cb' cd cs0 S0 L OP BD _ | ? ? ? ? ca cb' cd cs0 S0 L OP _ HD']; subst;
     try (assert (cs0 = cs) by congruence; subst cs0).
  - left. destruct (VCA ca ltac:(congruence)) as (S1 & V1). assert (cs0 = cs) by congruence. subst cs0. apply (UPA ca ltac:(congruence)). apply (Same_SameData cs ca cb V1 Vcb SM). auto.
  - right. apply (BODY cd); [congruence | auto].
  - right. apply (UPD cd ltac:(congruence)). destruct p as [| w p]; [apply NONE; auto; rewrite T; auto |].
    destruct (IH (S n) cs (Elem "" None [] []) cb cd v Wc (validk_nil _ _ _ _) (valid_validk _ _ Vcb) HD' ltac:(discriminate) H) as [X | X]; auto.
    apply Holds_cons in X. destruct X as (k & c & (X & _) & _). destruct X.
  - right. apply (UPD cd ltac:(congruence)). destruct p as [| w p]; [apply NONE; auto; rewrite T; auto |].
    assert (KI := key_copies_in (S n) s cs cb cd ks u Wc S0 T Vcb Ub KC HD').
    assert (VK : validk cs (Elem "" None [] ks)).
    { inversion HD' as [? ? ? ? ? lk' ? ? I1 _ _ _ _]; subst. split; [eauto |]. intros k Ik. cbn [xkids] in Ik. destruct (KI k Ik) as (K1 & _). destruct (valid_inv cs cb Vcb) as (_ & _ & K2). apply K2. auto. }
    destruct (IH (S n) cs (Elem "" None [] ks) cb cd v Wc VK (valid_validk _ _ Vcb) HD' ltac:(discriminate) H) as [X | X]; auto.
    apply Holds_cons in X. destruct X as (kc & y & (Y1 & Y2 & Y3) & X). cbn [xkids] in Y1. destruct (KI y Y1) as (Kb' & kc' & K1 & K2).
    assert (kc = kc') by (apply (Defines_schema_child cs (xtag y)); auto). subst kc'.
    destruct (key_copies_In cs cd ks y KC Y1) as (k & kn & F1 & F2 & F3). apply find_tagged in F2. destruct F2 as [F2 F4].
    destruct p as [| w' p].
    + apply Holds_cons. exists kc, kn. assert (T' : xtag y = xtag kn) by (subst y; destruct kn; auto). split; [split; [auto | split; [rewrite <- T'; auto |]] |].
      * inversion Y3; subst; try congruence. rewrite T'. apply id_other; auto.
      * apply Holds_nil. apply Holds_nil in X. rewrite <- X. unfold value_of. subst y. destruct kn. reflexivity.
    + exfalso. destruct (valid_inv cs cb Vcb) as (_ & _ & K3). destruct (K3 y Kb') as (k' & K4 & K5). assert (k' = kc) by congruence. subst k'.
      apply (leaf_below kc y w' p v K5); auto. rewrite K2. auto.
  - right. apply (BODY cd); [congruence | auto].
  - right. apply (BODY cd); [congruence | auto].
  - destruct (VCA ca ltac:(congruence)) as (S1 & V1). assert (cs0 = cs) by congruence. subst cs0. destruct p as [| w p]; [right; apply (UPD cd ltac:(congruence)); apply NONE; auto |].
    destruct (IH (S n) cs ca cb cd v Wc (valid_validk _ _ V1) (valid_validk _ _ Vcb) HD' ltac:(discriminate) H) as [X | X]; [left; apply (UPA ca ltac:(congruence)); auto | right; apply (UPD cd ltac:(congruence)); auto].
Qed.

Theorem delta_new : forall o s a b d, wfs s = true -> sty s = TRoot -> IsConfig s a -> IsConfig s b -> delta_nc s (Delta a b o) = Ok d ->
  forall p v, Holds s b p v -> Holds s a p v \/ Holds s d p v.
Proof.
  intros o s a b d Ws TR (Va & _) (Vb & _) H p v HB. unfold delta_nc in H. cbn [d_src d_dst d_opts] in H.
  destruct p as [| u p].
  { left. apply Holds_nil. apply Holds_nil in HB. rewrite <- HB. unfold value_of. rewrite TR. auto. }
  destruct (nc_sub_cases True o s a b Ws (valid_validk _ _ Va) (valid_validk _ _ Vb) (proj1 (valid_inv s b Vb)) (or_intror I) (or_intror I)) as [(d' & D1 & [D2 | D2]) | [D1 _]]; [| | congruence].
  - assert (d' = d) by congruence. subst d'. apply (new_all (u :: p) 0 s a b d v); auto using valid_validk. discriminate.
  - assert (d' = d) by congruence. subst d'. right. apply (Bare_Holds _ s d b v); auto using valid_validk. discriminate.
Qed.

(** ** What is gone *)
Lemma op_has : forall n, (op_of n = OpDelete -> HasOp n "delete") /\ (op_of n = OpRemove -> HasOp n "remove") /\ (op_of n = OpReplace -> HasOp n "replace") /\ (op_of n = OpMerge -> ~ HasOp n "replace").
Proof.
  intro n. unfold HasOp, op_of. change operation_tag with nc_operation. destruct (get_attr nc_operation n) as [v |]; [| split; [| split; [| split]]; discriminate].
  split; [| split; [| split]]; [intro E | intro E | intro E | intros E X; assert (v = "replace") by congruence; subst v; discriminate];
    repeat (match type of E with context [match ?x with _ => _ end] => destruct x; try discriminate E end); reflexivity.
Qed.

Lemma Handled_down : forall s a b d u cs ca cb cd p, Child s a u cs ca -> Child s b u cs cb -> Child s d u cs cd ->
  (forall q, Present s b (u :: q) -> Present cs cb q) -> Handled cs ca cb cd p -> Handled s a b d (u :: p).
Proof.
  intros s a b d u cs ca cb cd p (A1 & A2 & A3) (B1 & B2 & B3) (D1 & D2 & D3) PB H.
  inversion H as [q r s' n E NE A NP O | q r s' n E A P O | s' n A T P | q v r s' na nb ks ka kb E A B CH I OC].
  - apply (h_delete s a b d (u :: p) (u :: q) r s' n); auto; [rewrite E; auto | discriminate | eapply at_down; eauto].
  - apply (h_replace s a b d (u :: p) (u :: q) r s' n); auto; [rewrite E; auto | eapply at_down; eauto |]. destruct P as (s1 & n1 & P). exists s1, n1. eapply at_down; eauto.
  - apply (h_emptied s a b d (u :: p) s' n); auto. eapply at_down; eauto.
  - apply (h_case s a b d (u :: p) (u :: q) v r s' na nb ks ka kb); auto; [rewrite E; auto | eapply at_down; eauto | eapply at_down; eauto].
Qed.

Lemma Handled_gone : forall s a b d u cs ca cd p, Child s d u cs cd -> (forall q, ~ Present s b (u :: q)) -> op_of cd = OpMerge ->
  Handled cs ca (Elem "" None [] []) cd p -> Handled s a b d (u :: p).
Proof.
  intros s a b d u cs ca cd p (D1 & D2 & D3) PB OM H.
  assert (EM : forall q s' n, At cs (Elem "" None [] []) q s' n -> q = [] /\ n = Elem "" None [] []).
  { intros q s' n A. inversion A as [| ? ? c ? ? ? ? ? I _ _ _]; subst; auto. destruct I. }
  inversion H as [q r s' n E NE A NP O | q r s' n E A (s1 & n1 & P) O | s' n A T P | q v r s' na nb ks ka kb E A B CH I OC].
  - apply (h_delete s a b d (u :: p) (u :: q) r s' n); auto; [rewrite E; auto | discriminate | eapply at_down; eauto].
  - destruct (EM q s1 n1 P) as [-> _]. inversion A; subst. exfalso. apply (op_has n) in O; auto.
  - apply (h_emptied s a b d (u :: p) s' n); auto. eapply at_down; eauto.
  - destruct (EM q s' nb B) as [_ ->]. destruct I.
Qed.

Lemma gone_all : forall p n s a b d, wfs s = true -> validk s a -> validk s b -> IsD n s (xkids a) (xkids b) (xkids d) -> p <> [] -> Present s a p -> Present s b p \/ Handled s a b d p.
Proof.
  induction p as [| u p IH]; intros n s a b d Ws Va Vb HD NE H; [contradiction |].
  inversion HD as [? ? ? ? ? la lb ld Ia Ib Id HE _]; subst. destruct (Present_up s a la u p Ia H) as (ca & cs & Ea & Sca & Pa).
  specialize (HE u). rewrite Ea in HE. assert (IN := proj1 (Index_assoc s _ la u ca Ia) Ea).
  assert (Ta : fst u = xtag ca) by (apply (Index_tag s _ la u ca Ia); auto). assert (Ka : In ca (xkids a)) by (apply (Index_kid s _ la u ca Ia); auto).
  assert (Vca : valid cs ca = true) by (destruct Va as (_ & K); destruct (K ca Ka) as (k & K1 & K2); assert (k = cs) by congruence; subst; auto).
  assert (Wc : wfs cs = true) by (apply (wfs_child s (xtag ca) cs); auto).
  assert (CA : Child s a u cs ca) by (apply (Child_assoc s a la); auto).
  remember (assoc uid_eqb u lb) as ob eqn:AB. symmetry in AB. remember (assoc uid_eqb u ld) as od eqn:AD. symmetry in AD.
  assert (CD : forall cd, od = Some cd -> Child s d u cs cd).
  { intros cd ->. apply (Child_assoc s d ld u cs cd Id). split; auto. rewrite <- (Index_tag s _ ld u cd Id (proj1 (Index_assoc s _ ld u cd Id) AD)). congruence. }
  assert (CB : forall cb, ob = Some cb -> Child s b u cs cb /\ valid cs cb = true /\ (forall q, Present s b (u :: q) <-> Present cs cb q)).
  { intros cb ->. assert (I := proj1 (Index_assoc s _ lb u cb Ib) AB). assert (T := Index_tag s _ lb u cb Ib I). assert (Sb : schema_child s (xtag cb) = Ok cs) by congruence.
    split; [apply (Child_assoc s b lb u cs cb Ib); auto |]. split.
    - destruct Vb as (_ & K). destruct (K cb (Index_kid s _ lb u cb Ib I)) as (k & K1 & K2). assert (k = cs) by congruence. subst. auto.
    - intro q. split; [| apply (Present_down s b lb u cb cs); auto]. intro X. destruct (Present_up s b lb u q Ib X) as (x & xs & X1 & X2 & X3). assert (x = cb) by congruence. subst x. assert (xs = cs) by congruence. subst xs. auto. }
  assert (NB : ob = None -> forall q, ~ Present s b (u :: q)) by (intros E q; apply (Absent_none s b lb); auto; congruence).
  assert (AD1 : forall cd, od = Some cd -> At s d [u] cs cd) by (intros cd E; destruct (CD cd E) as (X1 & X2 & X3); eapply at_down; eauto; constructor).
  inversion HE as [| ? ? ? ? ca' cb cs0 S0 SM | ? ? ? ? ca' LKs SP | | | | ? ? ? ? ca' cd cs0 S0 OP _ KD KL | ? ? ? ? ca' cd cs0 S0 NP OP _ HD'
     | ? ? ? ? ca' cb cd cs0 S0 L OP BD | ? ? ? ? ca' cb cd cs0 S0 L OP BD _ | ? ? ? ? ca' cb cd cs0 S0 L OP _ HD']; subst;
     try (assert (cs0 = cs) by congruence; subst cs0).
  - left. destruct (CB cb ltac:(congruence)) as (C1 & C2 & C3). apply C3. destruct Pa as (s1 & n1 & P1).
    assert (X : Holds cs ca p (value_of s1 n1)) by (exists s1, n1; auto). apply (Same_SameData cs ca cb Vca C2 SM) in X. destruct X as (s2 & n2 & X & _). exists s2, n2. auto.
  - right. destruct SP as (w & cb & ea & eb & S1 & S2 & S3 & S4 & S5). apply (h_case s a b d (u :: p) [] u p s a b cs ca cb); auto; try constructor; try apply CA.
    + apply (Index_kid s _ lb w cb Ib S1).
    + apply (OtherCase_entries s ca cb ea eb S3 S4). auto.
  - right. apply (h_delete s a b d (u :: p) [u] p cs cd); [reflexivity | discriminate | apply AD1; congruence | apply NB; congruence |]. destruct (op_has cd) as (O1 & O2 & _). destruct OP; auto.
  - right. destruct p as [| w p].
    + apply (h_emptied s a b d [u] cs cd); [apply AD1; congruence | |]; unfold np_container in NP; destruct (sty cs); try discriminate; auto. apply negb_true_iff. auto.
    + destruct (IH (S n) cs ca (Elem "" None [] []) cd Wc (valid_validk _ _ Vca) (validk_nil _ _ _ _) HD' ltac:(discriminate) Pa) as [X | X].
      * destruct X as (s1 & n1 & X). inversion X as [| ? ? c ? ? ? ? ? I _ _ _]; subst. destruct I.
      * apply (Handled_gone s a b d u cs ca cd (w :: p)); auto.
  - left. destruct (CB cb ltac:(congruence)) as (C1 & C2 & C3). apply C3. destruct p as [| w p]; [exists cs, cb; constructor |]. exfalso. destruct Pa as (s1 & n1 & P1).
    apply (leaf_below cs ca w p (value_of s1 n1) Vca L). exists s1, n1. auto.
  - right. destruct (CB cb ltac:(congruence)) as (C1 & C2 & C3). apply (h_replace s a b d (u :: p) [u] p cs cd); [reflexivity | apply AD1; congruence | apply C3; exists cs, cb; constructor |]. apply op_has. auto.
  - destruct (CB cb ltac:(congruence)) as (C1 & C2 & C3). destruct p as [| w p]; [left; apply C3; exists cs, cb; constructor |].
    destruct (IH (S n) cs ca cb cd Wc (valid_validk _ _ Vca) (valid_validk _ _ C2) HD' ltac:(discriminate) Pa) as [X | X]; [left; apply C3; auto | right].
    apply (Handled_down s a b d u cs ca cb cd (w :: p)); auto. intros q Q. apply C3. auto.
Qed.

(** The root is replaced, or the delta is as in DeltaR.v. *)
Lemma nc_sub_root : forall o s a b d, wfs s = true -> validk s a -> validk s b -> xattrs b = [] -> nc_sub o s b a = Ok d ->
  IsD 0 s (xkids a) (xkids b) (xkids d) \/ HasOp d "replace".
Proof.
  intros o s a b d W Va Vb Ab H.
  assert (P : ~ RLevel o 0 -> forall d, (let! p := node_sub (height b) o s 0 b a in Ok (fst p)) = Ok d -> IsD 0 s (xkids a) (xkids b) (xkids d) \/ HasOp d "replace").
  { intros NR d0 H0.
    destruct (node_sub_rt True (height b) o 0 s a b (le_n _) W Va Vb Ab (or_intror I) (or_intror I) (Lvls_any a o 0 s b Va Vb) NR ltac:(intros; discriminate)) as [([d1 a'] & H1 & (T1 & T2 & D & _) & HM) | [H1 HB]];
      cbn [Z.of_nat] in H1; rewrite H1 in H0; cbn [bind fst Z.of_nat] in *; [| discriminate]. assert (d1 = d0) by congruence. subst d1.
    destruct D as [(_ & _ & D) | [_ D]]; [left; auto |]. right. subst d0. apply op_set. }
  unfold nc_sub in H. apply bind_ok in H. destruct H as (d1 & H1 & H). destruct (o_type o) eqn:Eo.
  - assert (d1 = d) by congruence. subst d1. apply P; auto. intros [X _]. congruence.
  - assert (E : d = mark_depth (o_depth o + 1) d1) by congruence. destruct (P ltac:(intros [X _]; congruence) d1 H1) as [D | D].
    + left. rewrite E, mark_kids. apply (proj1 Alike_IsD _ _ _ _ _ D). apply mark_all.
    + right. unfold HasOp in *. change nc_operation with operation_tag in *. assert (AL := mark_Alike d1 (o_depth o + 1)). rewrite <- E in AL. inversion AL as [? ? _ _ X _]; subst. unfold edit_attrs in X. congruence.
  - assert (d1 = d) by congruence. subst d1. destruct (Z.eqb (o_depth o) 0) eqn:Ez.
    + assert (HL := Lvls_any a o 0 s b Va Vb). inversion HL as [n0 s0 ka kb la lb Ia Ib L1 L2 L0 LD L3]; subst n0 s0 ka kb.
      assert (RL : RLevel o 0) by (split; [exact Eo | apply Z.eqb_eq; exact Ez]).
      destruct (replace_level 0 s a b la lb W Va Vb Ia Ib True (or_intror I) (or_intror I) o (L2 RL)) as [(d' & D1 & D2 & D3 & D4 & D5 & _) | [D1 D2]]; [| congruence].
      assert (d' = d) by congruence. subst d'. left. auto.
    + apply P; auto. intros [_ X]. apply Z.eqb_neq in Ez. exact (Ez X).
Qed.

Theorem delta_gone : forall o s a b d, wfs s = true -> IsConfig s a -> IsConfig s b -> delta_nc s (Delta a b o) = Ok d ->
  forall p, Present s a p -> Present s b p \/ Handled s a b d p.
Proof.
  intros o s a b d Ws (Va & _) (Vb & _) H p PA. unfold delta_nc in H. cbn [d_src d_dst d_opts] in H.
  destruct p as [| u p]; [left; exists s, b; constructor |].
  destruct (nc_sub_root o s a b d Ws (valid_validk _ _ Va) (valid_validk _ _ Vb) (proj1 (valid_inv s b Vb)) H) as [D | D].
  - apply (gone_all (u :: p) 0 s a b d); auto using valid_validk. discriminate.
  - right. apply (h_replace s a b d (u :: p) [] (u :: p) s d); auto; [constructor | exists s, b; constructor].
Qed.

(** For the examples *)
Lemma absent_below : forall s x u w q l c cs l', index_kids s (xkids x) = Ok l -> assoc uid_eqb u l = Some c -> schema_child s (xtag c) = Ok cs ->
  index_kids cs (xkids c) = Ok l' -> assoc uid_eqb w l' = None -> ~ Present s x (u :: w :: q).
Proof.
  intros s x u w q l c cs l' I A Sc I' N P. apply index_ok in I. apply index_ok in I'. destruct (Present_up s x l u (w :: q) I P) as (c' & cs' & E1 & E2 & E3).
  assert (c' = c) by congruence. subst c'. assert (cs' = cs) by congruence. subst cs'. apply (Absent_none cs c l' w q I' N E3).
Qed.
Lemma same_not_worth : forall s a b p s' na nb, valid s a = true -> valid s b = true -> At s a p s' na -> At s b p s' nb -> SameData s' na nb ->
  s_is_key (si s') = false -> s_user (si s') = false -> ~ Worth s a b p s'.
Proof.
  intros s a b p s' na nb Va Vb A B SD K U [[[_ N] | [_ N]] | (xa & xb & A' & B' & X)].
  - apply N. exists s', nb. auto.
  - apply N. exists s', na. auto.
  - destruct (At_fun p s a s' na s' xa Va A A') as (_ & <-). destruct (At_fun p s b s' nb s' xb Vb B B') as (_ & <-).
    destruct X as [X | [X | [X _]]]; [contradiction | congruence | congruence].
Qed.
Fixpoint look (s : snode) (x : xml) (p : list uid) : option (snode * xml) :=
  match p with
  | [] => Some (s, x)
  | u :: q => match index_kids s (xkids x) with
              | Ok l => match assoc uid_eqb u l with
                        | Some c => match schema_child s (xtag c) with Ok cs => look cs c q | Err _ => None end
                        | None => None
                        end
              | Err _ => None
              end
  end.
Lemma look_At : forall p s x s' n, look s x p = Some (s', n) -> At s x p s' n.
Proof.
  induction p as [| u p IH]; intros s x s' n H; cbn [look] in H; [assert (E : s = s' /\ x = n) by (split; congruence); destruct E; subst; constructor |].
  destruct (index_kids s (xkids x)) as [l |] eqn:EI; [| discriminate]. destruct (assoc uid_eqb u l) as [c |] eqn:EA; [| discriminate]. destruct (schema_child s (xtag c)) as [cs |] eqn:ES; [| discriminate].
  apply index_ok in EI. assert (C : Child s x u cs c) by (apply (Child_assoc s x l); auto). destruct C as (C1 & C2 & C3). eapply at_down; eauto.
Qed.
Lemma same_refl : forall s x, valid s x = true -> SameData s x x.
Proof. intros s x V. apply (Same_SameData s x x V V). apply Same_refl. auto. Qed.
