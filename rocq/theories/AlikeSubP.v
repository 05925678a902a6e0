(** The difference of alike configs is alike: one level. *)
From Coq Require Import String Ascii List Bool Arith ZArith Lia Permutation.
From Verif Require Import Base BaseP XmlM CalcM CalcP NetconfM DataSpec DataP ListP NameP PlainP CompareP DeltaSpec DeltaR AddP SumSpec SumP SubP AlikeSpec AlikeP AlikeAddP AlikeStepP AlikeSumP AlikeDataP AlikeCheckP AlikeMarkP AlikeOpsP AlikeSeqP.
Import ListNotations.
Open Scope string_scope.
Open Scope list_scope.
Local Existing Instance any_late.

(** ** Choices *)
Definition OneCase (s : snode) (k : list xml) : Prop := forall c c' e e', In c k -> In c' k -> schema_entry s (xtag c) = Ok e -> schema_entry s (xtag c') = Ok e' ->
  ce_case e = true -> ce_case e' = true -> choice_pos e = choice_pos e' -> case_pos e = case_pos e'.

Lemma POS : eqb_ok pos_eqb.
Proof. apply list_eqb_ok. exact Nat.eqb_eq. Qed.

Lemma NoSwitch_OneCase : forall s b, NoSwitch s b b -> OneCase s (xkids b).
Proof.
  intros s b H c c' e e' Hc Hc' E E' C C' P. destruct (pos_eqb (case_pos e) (case_pos e')) eqn:Q; [apply POS; auto |]. exfalso.
  apply (NoSwitch_here s b b c c' H Hc Hc'). apply (OtherCase_entries s c c' e e'); auto. repeat split; auto.
  intro X. assert (Y : pos_eqb (case_pos e) (case_pos e') = true) by (apply POS; auto). congruence.
Qed.

Lemma OneCase_AKids : forall s k k', AKids s k k' -> OneCase s k -> OneCase s k'.
Proof.
  intros s k k' K H c c' e e' Hc Hc' E E'. destruct (AKids_In_r s k k' c K Hc) as (d & Hd & R). destruct (AKids_In_r s k k' c' K Hc') as (d' & Hd' & R').
  apply AK_parts in R. apply AK_parts in R'. destruct R as (R & _), R' as (R' & _). rewrite <- R in E. rewrite <- R' in E'. apply (H d d'); auto.
Qed.

Lemma cht_In : forall s ts m p q, In (p, q) (fold_left (cht s) ts m) <-> In (p, q) m \/
  exists t ce, In t ts /\ schema_entry s t = Ok ce /\ ce_case ce = true /\ p = choice_pos ce /\ q = case_pos ce.
Proof.
  intros s ts. induction ts as [| t r IH]; intros m p q; simpl.
  - split; auto. intros [H | (t & ce & [] & _)]. auto.
  - rewrite IH. unfold cht. split.
    + intros [H | (t' & ce & H)]; [| right; exists t', ce; tauto].
      destruct (schema_entry s t) as [ce |] eqn:E; auto. destruct (ce_case ce) eqn:C; auto. destruct H as [H | H]; auto.
      injection H as H1 H2. right. exists t, ce. auto 10.
    + intros [H | (t' & ce & [H | H] & E & C & P & Q)].
      * left. destruct (schema_entry s t); auto. destruct (ce_case a); auto. right. auto.
      * subst t'. rewrite E, C. left. left. congruence.
      * right. exists t', ce. auto.
Qed.

Definition Funct (cho : list (list nat * list nat)) : Prop := forall p q q', In (p, q) cho -> In (p, q') cho -> q = q'.

Lemma allows_iff : forall ce cho, Funct cho ->
  (case_allows ce cho = true <-> (ce_case ce = true -> forall q, In (choice_pos ce, q) cho -> q = case_pos ce)).
Proof.
  intros ce cho F. unfold case_allows. destruct (ce_case ce); [| split; [intros _ X; discriminate | auto]].
  destruct (assoc pos_eqb (choice_pos ce) cho) as [q |] eqn:E.
  - apply (assoc_In pos_eqb POS) in E. split.
    + intros H _ q' H'. apply POS in H. subst q. symmetry. apply (F _ _ _ E H').
    + intro H. apply POS. apply H; auto.
  - split; auto. intros _ _ q H. apply (assoc_None pos_eqb POS) in E. exfalso. apply E. apply (in_map fst) in H. exact H.
Qed.

Definition cho_of (s : snode) (lb la : list ent) : list (list nat * list nat) := fold_left (cht s) (map ktag (only_in lb la)) [].

Lemma cho_In : forall s lb la p q, In (p, q) (cho_of s lb la) <-> exists u c ce, In (u, c) (only_in lb la) /\ schema_entry s (xtag c) = Ok ce /\
  ce_case ce = true /\ p = choice_pos ce /\ q = case_pos ce.
Proof.
  intros s lb la p q. unfold cho_of. rewrite cht_In. split.
  - intros [[] | (t & ce & H & R)]. apply in_map_iff in H. destruct H as ([u c] & E & H). unfold ktag in E. simpl in E. subst t. exists u, c, ce. tauto.
  - intros (u & c & ce & H & R). right. exists (xtag c), ce. split; auto. apply in_map_iff. exists (u, c). auto.
Qed.

Section Cho.
Variables (s : snode) (k : list xml) (lb la : list ent).
Hypothesis Ib : Index s k lb.
Hypothesis One : OneCase s k.

Lemma cho_funct : Funct (cho_of s lb la).
Proof.
  intros p q q' H H'. apply cho_In in H. apply cho_In in H'. destruct H as (u & c & ce & H & E & C & P & Q). destruct H' as (u' & c' & ce' & H' & E' & C' & P' & Q').
  apply only_in_In in H. apply only_in_In in H'. subst q q'. apply (One c c'); auto; [| | congruence].
  - apply (Index_kid s k lb u c Ib). tauto.
  - apply (Index_kid s k lb u' c' Ib). tauto.
Qed.

Lemma cho_self : forall c ce, In c k -> schema_entry s (xtag c) = Ok ce -> case_allows ce (cho_of s lb la) = true.
Proof.
  intros c ce Hc E. apply allows_iff; [apply cho_funct |]. intros C q H. apply cho_In in H. destruct H as (u' & c' & ce' & H' & E' & C' & P' & Q').
  apply only_in_In in H'. subst q. apply (One c' c); auto. apply (Index_kid s k lb u' c' Ib). tauto.
Qed.
End Cho.

Lemma Matched_only_iff : forall s lb la lb' la' u c, LR s la la' -> LR s lb lb' -> In (u, c) (only_in lb la) -> exists c', In (u, c') (only_in lb' la') /\ xtag c' = xtag c.
Proof.
  intros s lb la lb' la' u c La Lb H. destruct (Matched_In_l _ _ _ _ (u, c) (Matched_only s la la' (xtag c) lb lb' La Lb)) as ([u' c'] & H' & R).
  { apply filter_In. split; auto. unfold ptag. apply String.eqb_refl. }
  apply filter_In in H'. destruct H' as (H' & _), R as (R1 & R2). simpl in *. subst u'. exists c'. split; auto. apply AK_parts in R2. symmetry. tauto.
Qed.

Lemma AK_sym : forall s n c c', AK s n c c' -> AK s n c' c.
Proof. intros s n c c' [E | (cs & D & A)]; [left; auto | right; exists cs; split; auto; apply alike_sym; auto]. Qed.

Lemma LR_sym : forall s l l', LR s l l' -> LR s l' l.
Proof.
  intros s l l' L t. apply (Matched_impl _ _ _ _ _ _ (Matched_sym _ _ _ _ (L t))); auto. intros e' e _ _ (R1 & R2). split; auto.
  destruct (AK_parts _ _ _ _ R2) as (T & _). rewrite <- T. apply AK_sym. auto.
Qed.

Lemma cho_same : forall s lb la lb' la' p q, LR s la la' -> LR s lb lb' -> In (p, q) (cho_of s lb la) -> In (p, q) (cho_of s lb' la').
Proof.
  intros s lb la lb' la' p q La Lb H. apply cho_In in H. destruct H as (u & c & ce & H & E & R). destruct (Matched_only_iff s lb la lb' la' u c La Lb H) as (c' & H' & T).
  apply cho_In. exists u, c', ce. rewrite T. auto.
Qed.

Lemma allows_same : forall s k k' lb la lb' la' ce, Index s k lb -> Index s k' lb' -> OneCase s k -> OneCase s k' -> LR s la la' -> LR s lb lb' ->
  case_allows ce (cho_of s lb la) = case_allows ce (cho_of s lb' la').
Proof.
  intros s k k' lb la lb' la' ce I I' O O' La Lb. apply eq_true_iff_eq.
  rewrite (allows_iff ce _ (cho_funct s k lb la I O)), (allows_iff ce _ (cho_funct s k' lb' la' I' O')). split; intros H C q Q; apply H; auto.
  - apply (cho_same s lb' la' lb la); auto using LR_sym.
  - apply (cho_same s lb la lb' la'); auto.
Qed.

(** ** The level as edits *)
Lemma wrun_app : forall p q l, wrun (p ++ q) l = wrun q (wrun p l).
Proof. intros. unfold wrun. apply fold_left_app. Qed.

Lemma wrun_upd_uids : forall ps l, (forall p, In p ps -> exists x, snd p = WUpd x) -> uids (wrun ps l) = uids l.
Proof.
  induction ps as [| [u op] r IH]; intros l H; simpl; auto. rewrite IH; [| intros; apply H; right; auto].
  destruct (H (u, op) (or_introl eq_refl)) as (x & E). simpl in E. subst op. unfold wapp, upd_uid, uids. simpl. rewrite map_map. apply map_ext. intros [v y]. simpl.
  unfold has_uid. simpl. destruct (uid_eqb u v) eqn:E; auto. apply uid_eqb_ok in E. simpl. auto.
Qed.

Lemma wrun_Tg : forall s ps l, Tg l -> Forall (GoodW s) ps -> Tg (wrun ps l).
Proof.
  intros s. induction ps as [| p r IH]; intros l T G; simpl; auto. inversion G; subst. apply IH; auto. destruct (wapp_loc s l p T); auto.
Qed.

Definition sub_body (o : opts) (s : snode) (rec : snode -> xml -> xml -> res (xml * xml)) (b a : xml) : res (xml * xml) :=
  let! g := group_kids s (xkids b) (xkids a) in
  let! l1 := index_kids s (xkids b) in
  let! l2 := index_kids s (xkids a) in
  let! st1 := foldM (sub_only_self o s) (SState (w_init l1) (w_init l2) [] []) (in_1_not_2 g) in
  let! st2 := foldM (sub_only_other o s) st1 (in_2_not_1 g) in
  let! st3 := foldM (sub_both o rec s) st2 (in_1_and_2 g) in
  let! ls := all_seq_attrs (ss_obu st3) (ss_self st3) in
  let! lo := all_seq_attrs (ss_obu st3) (ss_other st3) in
  Ok (set_kids (map w_xml ls) b, set_kids (map w_xml lo) a).

Section Level.
Variables (o : opts) (s : snode) (rec : snode -> xml -> xml -> res (xml * xml)) (a b : xml) (la lb : list ent).
Hypothesis W : wfs s = true.
Hypothesis Va : valid s a = true.
Hypothesis Vb : valid s b = true.
Hypothesis Ia : Index s (xkids a) la.
Hypothesis Ib : Index s (xkids b) lb.

(** Entries *)
Lemma entry_of : forall x l u c, valid s x = true -> Index s (xkids x) l -> In (u, c) l ->
  exists cs, schema_child s (xtag c) = Ok cs /\ valid cs c = true /\ uid_of s c = Ok u /\ wfs cs = true /\ fst u = xtag c.
Proof.
  intros x l u c V I H. assert (Hc := Index_kid s _ l u c I H). destruct (valid_inv s x V) as (_ & _ & K). destruct (K c Hc) as (cs & Hs & Vc).
  exists cs. repeat split; auto; [apply (Index_uid s _ l u c I H) | apply (wfs_child s _ cs W Hs) | apply (Index_tag s _ l u c I H)].
Qed.

Definition GoodI (u : uid) (i : wedit * wedit) : Prop := fst (fst i) = u /\ fst (snd i) = u /\ GoodW s (fst i) /\ GoodW s (snd i).
Lemma good_upd : forall u x, uid_of s x = Ok u -> GoodW s (u, WUpd x).
Proof. intros u x U. unfold GoodW. simpl. split; [symmetry; apply (uid_tag s x u U) | exists u; auto]. Qed.
Lemma good_ins : forall u x, uid_of s x = Ok u -> GoodW s (u, WIns x).
Proof. intros u x U. unfold GoodW. simpl. split; [symmetry; apply (uid_tag s x u U) | exists u; auto]. Qed.

Lemma i1_good : forall p i, In p (only_in lb la) -> i1 o s p = Ok i -> GoodI (fst p) i /\ exists x, snd (fst i) = WUpd x.
Proof.
  intros [u c] i H E. apply only_in_In in H. destruct H as (H & _). destruct (entry_of b lb u c Vb Ib H) as (cs & Hs & Vc & U & _).
  simpl in E. apply bind_ok in E. destruct E as (ce & Es & E). assert (Hs' : schema_child s (xtag c) = Ok (ce_node ce)) by (apply schema_child_entry; eauto).
  assert (cs = ce_node ce) by congruence. subst cs.
  apply bind_ok in E. destruct E as (c' & C & E). apply bind_ok in E. destruct E as (d & D & E). injection E as E. subst i.
  destruct (mk_del_ok o s (ce_node ce) c u Hs W Vc U) as (d' & D1 & D2 & _). assert (d' = d) by congruence. subst d'.
  assert (UC : uid_of s c' = Ok u).
  { destruct (mark_create_ok o s (ce_node ce) c u Hs W Vc U) as (c1 & C1 & C2 & _).
    destruct (o_type o); try (assert (c1 = c') by congruence; subst; auto). injection C as C. subst c'. rewrite uid_set_attr. auto. }
  split; [| simpl; eauto]. split; [| split; [| split]]; simpl; auto using good_upd, good_ins.
Qed.

Lemma i2_good : forall cho p i, In p (only_in la lb) -> i2 o s cho p = Ok i -> GoodI (fst p) i.
Proof.
  intros cho [u c] i H E. apply only_in_In in H. destruct H as (H & _). destruct (entry_of a la u c Va Ia H) as (cs & Hs & Vc & U & _).
  simpl in E. apply bind_ok in E. destruct E as (ce & Es & E). assert (Hs' : schema_child s (xtag c) = Ok (ce_node ce)) by (apply schema_child_entry; eauto).
  assert (cs = ce_node ce) by congruence. subst cs.
  apply bind_ok in E. destruct E as (c' & C & E). apply bind_ok in E. destruct E as (d & D & E). injection E as E. subst i.
  destruct (mk_del_ok o s (ce_node ce) c u Hs W Vc U) as (d' & D1 & D2 & _). assert (d' = d) by congruence. subst d'.
  destruct (mark_create_ok o s (ce_node ce) c u Hs W Vc U) as (c1 & C1 & C2 & _). assert (c1 = c') by congruence. subst c1.
  split; [| split; [| split]]; simpl; auto using good_upd. destruct (case_allows ce cho); [apply good_ins; auto | exact I].
Qed.

Definition RecG : Prop := forall u cs ca cb r, In (u, ca) la -> In (u, cb) lb -> schema_child s (xtag cb) = Ok cs -> nodeish (sty cs) = true ->
  rec cs cb ca = Ok r -> uid_of s (fst r) = Ok u /\ uid_of s (snd r) = Ok u.

Lemma both_of : forall u cb ca, In (u, cb, ca) (both_in lb la) -> In (u, cb) lb /\ In (u, ca) la /\ xtag ca = xtag cb.
Proof.
  intros u cb ca H. apply both_in_In in H. destruct H as (H1 & H2). apply (Index_assoc s _ la u ca Ia) in H2. split; auto. split; auto.
  rewrite <- (Index_tag s _ la u ca Ia H2). apply (Index_tag s _ lb u cb Ib H1).
Qed.

Lemma i3_good : RecG -> forall p i, In p (both_in lb la) -> i3 o s rec p = Ok i -> GoodI (fst (fst p)) i.
Proof.
  intros RG [[u cb] ca] i H E. destruct (both_of u cb ca H) as (Hb & Ha & T).
  destruct (entry_of b lb u cb Vb Ib Hb) as (cs & Hs & Vcb & Ub & Wc & Tb). destruct (entry_of a la u ca Va Ia Ha) as (cs' & Hs' & Vca & Ua & _ & Ta).
  assert (cs' = cs) by congruence. subst cs'.
  assert (K : GoodI u ((u, WKeep), (u, WKeep))) by (repeat split). assert (D : GoodI u ((u, WDel), (u, WDel))) by (repeat split).
  assert (P : forall x y, uid_of s x = Ok u -> uid_of s y = Ok u -> GoodI u ((u, WUpd x), (u, WUpd y))).
  { intros x y X Y. split; [auto | split; [auto | split; apply good_upd; auto]]. }
  assert (R : nodeish (sty cs) = true -> forall ab, rec cs cb ca = Ok ab -> GoodI u ((u, WUpd (fst ab)), (u, WUpd (snd ab)))).
  { intros N ab X. destruct (RG u cs ca cb ab Ha Hb Hs N X). apply P; auto. }
  simpl in E. simpl. rewrite Hs in E. cbn [bind] in E. destruct (sty cs) eqn:Et; try discriminate.
  - apply bind_ok in E. destruct E as (sm & _ & E). destruct sm; [destruct (s_is_key (si cs)); injection E as E; subst; auto |].
    destruct (o_replace o); injection E as E; subst; auto. apply P; rewrite uid_set_attr; auto.
  - destruct (s_user (si cs)); injection E as E; subst; auto.
  - apply bind_ok in E. destruct E as (e & _ & E). destruct e; [injection E as E; subst; auto |]. apply bind_ok in E. destruct E as (ab & X & E). injection E as E. subst. auto.
  - apply bind_ok in E. destruct E as (e & Ee & E). destruct e.
    + destruct (s_user (si cs)); [| injection E as E; subst; auto]. apply bind_ok in E. destruct E as (b' & X & E). apply bind_ok in E. destruct E as (a' & Y & E). injection E as E. subst.
      destruct (node_eq_total cs cb ca Vcb Vca) as (e & E1 & E2). assert (e = true) by congruence. subst e. assert (SM := proj1 E2 eq_refl).
      assert (SM' : Same cs ca cb) by (destruct SM; split; auto).
      destruct (strip_ok s cs ca cb u Hs Wc Et Vca Vcb SM' Ub) as (b1 & B1 & B2 & _).
      destruct (strip_ok s cs cb ca u Hs' Wc Et Vcb Vca SM Ua) as (a1 & A1 & A2 & _). apply P; congruence.
    + apply bind_ok in E. destruct E as (ab & X & E). injection E as E. subst. auto.
Qed.

Definition sub_tags : list string := map ktag (only_in lb la) ++ map ktag (only_in la lb) ++ map btag (both_in lb la).
Definition sub_is : res (list (wedit * wedit)) :=
  let! x1 := mapM (i1 o s) (only_in lb la) in
  let! x2 := mapM (i2 o s (cho_of s lb la)) (only_in la lb) in
  let! x3 := mapM (i3 o s rec) (both_in lb la) in
  Ok (x1 ++ x2 ++ x3).

Lemma sub_body_eq : OneCase s (xkids b) -> sub_body o s rec b a =
  let! is := sub_is in
  let! ls := all_seq_attrs (fold_left (obt s) sub_tags []) (tow (uids lb) (wrun (map fst is) lb)) in
  let! lo := all_seq_attrs (fold_left (obt s) sub_tags []) (tow (uids la) (wrun (map snd is) la)) in
  Ok (set_kids (map w_xml ls) b, set_kids (map w_xml lo) a).
Proof.
  intro One. unfold sub_body. rewrite (group_ok s _ _ lb la Ib Ia). cbn [bind in_1_not_2 in_2_not_1 in_1_and_2].
  rewrite (proj2 (index_ok s _ lb) Ib), (proj2 (index_ok s _ la) Ia). cbn [bind].
  rewrite !tow_init. change (SState (tow (uids lb) lb) (tow (uids la) la) [] []) with (conc (uids lb) (uids la) lb la [] []).
  assert (NI : forall l1 l2 x (p : uid * xml), valid s x = true -> Index s (xkids x) l1 -> In p (only_in l1 l2) -> fst (fst p) = xtag (snd p) /\ mem uid_eqb (fst p) (uids l2) = false).
  { intros l1 l2 x [u c] V I H. apply only_in_In in H. destruct H as (H & N). split; [apply (Index_tag s _ l1 u c I H) |]. apply (mem_not_In uid_eqb uid_eqb_ok). auto. }
  rewrite sub_fold1; [| intros p H; apply (NI lb la b); auto]. unfold sub_is. destruct (mapM (i1 o s) (only_in lb la)) as [x1 |] eqn:X1; cbn [bind]; auto.
  assert (F1 := proj1 (mapM_ok _ _ _) X1).
  rewrite sub_fold2; [| intros p H; apply (NI la lb a); auto |].
  - fold (cho_of s lb la). destruct (mapM (i2 o s (cho_of s lb la)) (only_in la lb)) as [x2 |] eqn:X2; cbn [bind]; auto.
    rewrite sub_fold3. destruct (mapM (i3 o s rec) (both_in lb la)) as [x3 |] eqn:X3; cbn [bind]; auto.
    unfold conc. cbn [ss_obu ss_self ss_other]. unfold sub_tags. rewrite !map_app, !fold_left_app, !wrun_app. reflexivity.
  - fold (cho_of s lb la). intros e He ce Es.
    assert (G : forall p, In p (map fst x1) -> GoodW s p /\ exists x, snd p = WUpd x).
    { intros p Hp. apply in_map_iff in Hp. destruct Hp as (i & E & Hi). subst p. destruct (Forall2_In_r _ _ _ i F1 Hi) as (q & Hq & Q).
      destruct (i1_good q i Hq Q) as ((_ & _ & G & _) & X). auto. }
    assert (U := wrun_upd_uids (map fst x1) lb (fun p H => proj2 (G p H))).
    assert (T := wrun_Tg s (map fst x1) lb (Index_Tg s _ lb Ib) (proj2 (Forall_forall _ _) (fun p H => proj1 (G p H)))).
    assert (Hu : In (fst e) (uids lb)) by (rewrite <- U; apply in_map; auto). apply in_map_iff in Hu. destruct Hu as ([u c] & E & Hu). simpl in E.
    apply (cho_self s (xkids b) lb la Ib One c ce); [apply (Index_kid s _ lb u c Ib Hu) |].
    rewrite <- (Index_tag s _ lb u c Ib Hu), E, (T e He). auto.
Qed.

Lemma sub_is_good : RecG -> forall is, sub_is = Ok is -> Forall (GoodW s) (map fst is) /\ Forall (GoodW s) (map snd is) /\
  NoDup (map fst (map fst is)) /\ NoDup (map fst (map snd is)) /\ forall i, In i is -> fst (snd i) = fst (fst i).
Proof.
  intros RG is E. unfold sub_is in E. apply bind_ok in E. destruct E as (x1 & X1 & E). apply bind_ok in E. destruct E as (x2 & X2 & E). apply bind_ok in E. destruct E as (x3 & X3 & E).
  injection E as E. subst is. apply mapM_ok in X1. apply mapM_ok in X2. apply mapM_ok in X3.
  assert (G1 : Forall2 (fun p i => GoodI (fst p) i) (only_in lb la) x1).
  { apply (Forall2_In_impl _ _ _ _ X1). intros p i H _ E. apply (i1_good p i H E). }
  assert (G2 : Forall2 (fun p i => GoodI (fst p) i) (only_in la lb) x2).
  { apply (Forall2_In_impl _ _ _ _ X2). intros p i H _ E. apply (i2_good _ p i H E). }
  assert (G3 : Forall2 (fun p i => GoodI (fst (fst p)) i) (both_in lb la) x3).
  { apply (Forall2_In_impl _ _ _ _ X3). intros p i H _ E. apply (i3_good RG p i H E). }
  assert (U : forall (A : Type) (f : A -> uid) l x, Forall2 (fun p i => GoodI (f p) i) l x ->
    map fst (map fst x) = map f l /\ map fst (map snd x) = map f l /\ Forall (GoodW s) (map fst x) /\ Forall (GoodW s) (map snd x)).
  { intros A f l x F. induction F as [| p i l x (H1 & H2 & H3 & H4) F (I1 & I2 & I3 & I4)]; simpl; auto. repeat split; try congruence; constructor; auto. }
  destruct (U _ _ _ _ G1) as (A1 & A2 & A3 & A4). destruct (U _ _ _ _ G2) as (B1 & B2 & B3 & B4). destruct (U _ _ _ _ G3) as (C1 & C2 & C3 & C4).
  assert (N := T_NoDup s a b la lb Ia Ib). unfold T1, T2, T3, uids in N.
  split; [rewrite !map_app; repeat (apply Forall_app; split); auto |]. split; [rewrite !map_app; repeat (apply Forall_app; split); auto |].
  assert (E1 : map fst (map fst (x1 ++ x2 ++ x3)) = map fst (only_in lb la) ++ map fst (only_in la lb) ++ map (fun p : uid * xml * xml => fst (fst p)) (both_in lb la)).
  { rewrite !map_app. f_equal; [exact A1 | f_equal; [exact B1 | exact C1]]. }
  assert (E2 : map fst (map snd (x1 ++ x2 ++ x3)) = map fst (only_in lb la) ++ map fst (only_in la lb) ++ map (fun p : uid * xml * xml => fst (fst p)) (both_in lb la)).
  { rewrite !map_app. f_equal; [exact A2 | f_equal; [exact B2 | exact C2]]. }
  split; [rewrite E1; exact N |]. split; [rewrite E2; exact N |].
  intros i Hi. apply in_app_or in Hi. destruct Hi as [Hi | Hi]; [| apply in_app_or in Hi; destruct Hi as [Hi | Hi]].
  - destruct (Forall2_In_r _ _ _ i G1 Hi) as (p & _ & X1' & X2' & _). congruence.
  - destruct (Forall2_In_r _ _ _ i G2 Hi) as (p & _ & X1' & X2' & _). congruence.
  - destruct (Forall2_In_r _ _ _ i G3 Hi) as (p & _ & X1' & X2' & _). congruence.
Qed.
End Level.

(** ** Two runs *)
Lemma Matched_eq : forall {A B} o (R : A -> B -> Prop) l1 l1' l2 l2', l1 = l1' -> l2 = l2' -> Matched o R l1' l2' -> Matched o R l1 l2.
Proof. intros. subst. auto. Qed.

Definition IR (s : snode) (i i' : wedit * wedit) : Prop := OR s (fst i) (fst i') /\ OR s (snd i) (snd i').

Section Two.
Variables (o : opts) (s : snode) (rec : snode -> xml -> xml -> res (xml * xml)) (a b a' b' : xml) (la lb la' lb' : list ent).
Hypothesis W : wfs s = true.
Hypothesis Va : valid s a = true.
Hypothesis Vb : valid s b = true.
Hypothesis Va' : valid s a' = true.
Hypothesis Vb' : valid s b' = true.
Hypothesis Ia : Index s (xkids a) la.
Hypothesis Ib : Index s (xkids b) lb.
Hypothesis Ia' : Index s (xkids a') la'.
Hypothesis Ib' : Index s (xkids b') lb'.
Hypothesis La : LR s la la'.
Hypothesis Lb : LR s lb lb'.
Hypothesis One : OneCase s (xkids b).
Hypothesis One' : OneCase s (xkids b').
Hypothesis Hrec : forall u cs ca cb ca' cb', In (u, ca) la -> In (u, cb) lb -> In (u, ca') la' -> In (u, cb') lb' -> schema_child s (xtag cb) = Ok cs -> nodeish (sty cs) = true ->
  Alike cs ca ca' -> Alike cs cb cb' ->
  Alikewise (fun r r' => Alike cs (fst r) (fst r') /\ Alike cs (snd r) (snd r')) (rec cs cb ca) (rec cs cb' ca').

Lemma alike_tag : forall cs x y, Alike cs x y -> xtag x = xtag y.
Proof. intros cs x y H. apply alike_inv in H. tauto. Qed.

Lemma OR_upd : forall u cs x y, schema_child s (fst u) = Ok cs -> xtag x = fst u -> Alike cs x y -> OR s (u, WUpd x) (u, WUpd y).
Proof. intros u cs x y Hs T A. split; simpl; auto. apply (AK_make s _ x y cs); auto. congruence. Qed.
Lemma OR_ins : forall u cs x y, schema_child s (fst u) = Ok cs -> xtag x = fst u -> Alike cs x y -> OR s (u, WIns x) (u, WIns y).
Proof. intros u cs x y Hs T A. split; simpl; auto. apply (AK_make s _ x y cs); auto. congruence. Qed.

Lemma i1_alike : forall p p', In p (only_in lb la) -> In p' (only_in lb' la') -> ER s p p' -> Alikewise (IR s) (i1 o s p) (i1 o s p').
Proof.
  intros [u c] [u' c'] H H' (E & R). simpl in E, R. subst u'. apply only_in_In in H. destruct H as (H & _).
  destruct (entry_of s W b lb u c Vb Ib H) as (cs & Hs & Vc & U & Wc & T). assert (A := AK_child s _ c c' cs R Hs). assert (TT := alike_tag cs c c' A).
  simpl. rewrite <- TT. destruct (schema_entry s (xtag c)) as [ce |] eqn:Es; cbn [bind]; [| exact I].
  assert (cs = ce_node ce) by (assert (X : schema_child s (xtag c) = Ok (ce_node ce)) by (apply schema_child_entry; eauto); congruence). subst cs.
  apply (aw_bindE (Alike (ce_node ce))).
  { destruct (o_type o); try (apply mark_create_alike; auto). exact (alike_set _ _ _ operation_tag "replace" A). }
  intros x y X Y XY. apply (aw_bindE (Alike (ce_node ce))).
  { apply mk_del_alike; auto. intro TL. apply (kid_keys s b c (ce_node ce)); auto. apply (Index_kid s _ lb u c Ib H). }
  intros d d' D D' DD. simpl. split; simpl.
  - apply (OR_upd u (ce_node ce)); auto; [congruence |]. rewrite T. destruct (o_type o); try (unfold mark_create in X; destruct (o_create o);
      [injection X as X; subst; auto | apply set_create_tag in X; auto | injection X as X; subst; rewrite xtag_set; auto]). injection X as X. subst. apply xtag_set.
  - apply (OR_ins u (ce_node ce)); auto; [congruence |]. rewrite T. apply (mk_del_tag o (ce_node ce) c d D).
Qed.

Lemma i2_alike : forall p p', In p (only_in la lb) -> In p' (only_in la' lb') -> ER s p p' -> Alikewise (IR s) (i2 o s (cho_of s lb la) p) (i2 o s (cho_of s lb' la') p').
Proof.
  intros [u c] [u' c'] H H' (E & R). simpl in E, R. subst u'. apply only_in_In in H. destruct H as (H & _).
  destruct (entry_of s W a la u c Va Ia H) as (cs & Hs & Vc & U & Wc & T). assert (A := AK_child s _ c c' cs R Hs). assert (TT := alike_tag cs c c' A).
  simpl. rewrite <- TT. destruct (schema_entry s (xtag c)) as [ce |] eqn:Es; cbn [bind]; [| exact I].
  assert (cs = ce_node ce) by (assert (X : schema_child s (xtag c) = Ok (ce_node ce)) by (apply schema_child_entry; eauto); congruence). subst cs.
  apply (aw_bindE (Alike (ce_node ce))); [apply mark_create_alike; auto |].
  intros x y X Y XY. apply (aw_bindE (Alike (ce_node ce))).
  { apply mk_del_alike; auto. intro TL. apply (kid_keys s a c (ce_node ce)); auto. apply (Index_kid s _ la u c Ia H). }
  intros d d' D D' DD. simpl. split; simpl.
  - rewrite <- (allows_same s (xkids b) (xkids b') lb la lb' la' ce Ib Ib' One One' La Lb). destruct (case_allows ce (cho_of s lb la)).
    + apply (OR_ins u (ce_node ce)); auto; [congruence |]. rewrite T. apply (mk_del_tag o (ce_node ce) c d D).
    + split; simpl; auto.
  - apply (OR_upd u (ce_node ce)); auto; [congruence |]. rewrite T. unfold mark_create in X; destruct (o_create o);
      [injection X as X; subst; auto | apply set_create_tag in X; auto | injection X as X; subst; rewrite xtag_set; auto].
Qed.

Hypothesis Rg : RecG s rec la lb.

Lemma i3_alike : forall p p', In p (both_in lb la) -> In p' (both_in lb' la') -> PR s p p' -> Alikewise (IR s) (i3 o s rec p) (i3 o s rec p').
Proof.
  intros [[u cb] ca] [[u' cb'] ca'] H H' (E & R1 & R2). simpl in E, R1, R2. subst u'.
  destruct (both_of s a b la lb Ia Ib u cb ca H) as (Hb & Ha & T). destruct (both_of s a' b' la' lb' Ia' Ib' u cb' ca' H') as (Hb' & Ha' & T').
  destruct (entry_of s W b lb u cb Vb Ib Hb) as (cs & Hs & Vcb & Ub & Wc & Tb). destruct (entry_of s W a la u ca Va Ia Ha) as (cs' & Hs' & Vca & Ua & _ & Ta).
  assert (cs' = cs) by congruence. subst cs'.
  assert (B := AK_child s _ cb cb' cs R1 Hs). assert (A := AK_child s _ ca ca' cs R2 Hs').
  assert (K : IR s ((u, WKeep), (u, WKeep)) ((u, WKeep), (u, WKeep))) by (repeat split). assert (D : IR s ((u, WDel), (u, WDel)) ((u, WDel), (u, WDel))) by (repeat split).
  assert (Hu : schema_child s (fst u) = Ok cs) by congruence.
  assert (P : forall x y x' y', xtag x = fst u -> xtag y = fst u -> Alike cs x x' -> Alike cs y y' -> IR s ((u, WUpd x), (u, WUpd y)) ((u, WUpd x'), (u, WUpd y'))).
  { intros. split; apply (OR_upd u cs); auto. }
  assert (R : nodeish (sty cs) = true -> Alikewise (IR s) (let! ab := rec cs cb ca in Ok ((u, WUpd (fst ab)), (u, WUpd (snd ab)))) (let! ab := rec cs cb' ca' in Ok ((u, WUpd (fst ab)), (u, WUpd (snd ab))))).
  { intro N. eapply aw_bindE; [apply (Hrec u cs ca cb ca' cb'); auto |]. intros x y X Y (XY1 & XY2). simpl. destruct (Rg u cs ca cb x Ha Hb Hs N X) as (G1 & G2).
    apply P; auto; symmetry; eapply uid_tag; eauto. }
  simpl. rewrite <- (alike_tag cs cb cb' B). rewrite Hs. cbn [bind].
  rewrite <- (same_text_alike cs cb cb' ca ca' B A), <- (node_eq_alike cs cb cb' ca ca' Vcb Vca B A).
  destruct (sty cs) eqn:Et; try exact I.
  - destruct (same_text cs cb ca) as [[|] |]; simpl; auto; [destruct (s_is_key (si cs)); simpl; auto |]. destruct (o_replace o); simpl; auto.
    apply P; rewrite ?xtag_set; auto; try congruence; [exact (alike_set _ _ _ operation_tag "replace" B) | exact (alike_set _ _ _ operation_tag "replace" A)].
  - destruct (s_user (si cs)); simpl; auto.
  - destruct (node_eq cs cb ca) as [[|] |]; simpl; auto.
  - destruct (node_eq cs cb ca) as [[|] |]; simpl; auto. destruct (s_user (si cs)); simpl; auto.
    apply (aw_bindE (Alike cs)); [apply strip_alike; auto |]. intros x y X Y XY. apply (aw_bindE (Alike cs)); [apply strip_alike; auto |]. intros z w Z Zw ZW. simpl.
    apply P; auto; [rewrite (strip_tag _ _ _ X) | rewrite (strip_tag _ _ _ Z)]; auto; congruence.
Qed.

Hypothesis Rg' : RecG s rec la' lb'.

Lemma ut_only : forall x l1 l2 t, Index s (xkids x) l1 -> filter (ptag (uid * xml) (fun p => fst (fst p)) t) (only_in l1 l2) = filter (ptag (uid * xml) (fun p => xtag (snd p)) t) (only_in l1 l2).
Proof.
  intros x l1 l2 t I. apply filter_ext_in. intros [u c] H. apply only_in_In in H. destruct H as (H & _). unfold ptag. simpl. rewrite (Index_tag s _ l1 u c I H). auto.
Qed.
Lemma ut_both : forall x l1 l2 t, Index s (xkids x) l1 ->
  filter (ptag (uid * xml * xml) (fun p => fst (fst (fst p))) t) (both_in l1 l2) = filter (ptag (uid * xml * xml) (fun p => xtag (snd (fst p))) t) (both_in l1 l2).
Proof.
  intros x l1 l2 t I. apply filter_ext_in. intros [[u c] d] H. apply both_in_In in H. destruct H as (H & _). unfold ptag. simpl. rewrite (Index_tag s _ l1 u c I H). auto.
Qed.

Definition itag (i : wedit * wedit) : string := wtag (fst i).
Lemma i1_tag : forall p i, i1 o s p = Ok i -> itag i = fst (fst p).
Proof.
  intros [u c] i E. simpl in E. apply bind_ok in E. destruct E as (ce & _ & E). apply bind_ok in E. destruct E as (c' & _ & E). apply bind_ok in E. destruct E as (d & _ & E).
  injection E as E. subst. reflexivity.
Qed.
Lemma i2_tag : forall cho p i, i2 o s cho p = Ok i -> itag i = fst (fst p).
Proof.
  intros cho [u c] i E. simpl in E. apply bind_ok in E. destruct E as (ce & _ & E). apply bind_ok in E. destruct E as (c' & _ & E). apply bind_ok in E. destruct E as (d & _ & E).
  injection E as E. subst. reflexivity.
Qed.
Lemma i3_tag : forall p i, i3 o s rec p = Ok i -> itag i = fst (fst (fst p)).
Proof.
  intros [[u c] d] i E. simpl in E. apply bind_ok in E. destruct E as (cs & _ & E). destruct (sty cs); try discriminate.
  - apply bind_ok in E. destruct E as (sm & _ & E). destruct sm; [destruct (s_is_key (si cs)) | destruct (o_replace o)]; injection E as E; subst; reflexivity.
  - destruct (s_user (si cs)); injection E as E; subst; reflexivity.
  - apply bind_ok in E. destruct E as (e & _ & E). destruct e; [| apply bind_ok in E; destruct E as (ab & _ & E)]; injection E as E; subst; reflexivity.
  - apply bind_ok in E. destruct E as (e & _ & E). destruct e; [destruct (s_user (si cs)); [apply bind_ok in E; destruct E as (x & _ & E); apply bind_ok in E; destruct E as (y & _ & E) |] |
      apply bind_ok in E; destruct E as (ab & _ & E)]; injection E as E; subst; reflexivity.
Qed.

Lemma is_alike : Alikewise (fun is is' => forall t, Matched (UserTag s t) (IR s) (filter (ptag (wedit * wedit) itag t) is) (filter (ptag (wedit * wedit) itag t) is'))
  (sub_is o s rec la lb) (sub_is o s rec la' lb').
Proof.
  unfold sub_is. eapply aw_bind.
  { apply (mapM_matched (UserTag s) (ER s) (IR s) (i1 o s) (i1 o s) (fun p => fst (fst p)) (fun p => fst (fst p)) itag itag).
    - intro t. eapply Matched_eq; [exact (ut_only b lb la t Ib) | exact (ut_only b' lb' la' t Ib') | apply Matched_only; auto].
    - apply i1_tag.
    - apply i1_tag.
    - apply i1_alike. }
  intros x1 y1 M1. eapply aw_bind.
  { apply (mapM_matched (UserTag s) (ER s) (IR s) (i2 o s (cho_of s lb la)) (i2 o s (cho_of s lb' la')) (fun p => fst (fst p)) (fun p => fst (fst p)) itag itag).
    - intro t. eapply Matched_eq; [exact (ut_only a la lb t Ia) | exact (ut_only a' la' lb' t Ia') | apply Matched_only; auto].
    - apply i2_tag.
    - apply i2_tag.
    - apply i2_alike. }
  intros x2 y2 M2. eapply aw_bind.
  { apply (mapM_matched (UserTag s) (PR s) (IR s) (i3 o s rec) (i3 o s rec) (fun p => fst (fst (fst p))) (fun p => fst (fst (fst p))) itag itag).
    - intro t. eapply Matched_eq; [exact (ut_both b lb la t Ib) | exact (ut_both b' lb' la' t Ib') | apply Matched_both; auto; eapply Index_NoDup; eauto].
    - apply i3_tag.
    - apply i3_tag.
    - apply i3_alike. }
  intros x3 y3 M3. simpl. intro t. rewrite !filter_app'. apply Matched_app; auto. apply Matched_app; auto.
Qed.

Lemma sub_tags_same : forall t, In t (sub_tags la lb) <-> In t (sub_tags la' lb').
Proof.
  assert (G : forall ka kb ka' kb', LR s ka ka' -> LR s kb kb' -> NoDup (uids ka) -> NoDup (uids ka') -> forall t, In t (sub_tags ka kb) -> In t (sub_tags ka' kb')).
  { intros ka kb ka' kb' L1 L2 N1 N2 t H. unfold sub_tags in *. apply in_app_or in H. apply in_or_app. destruct H as [H | H].
    - left. apply in_map_iff in H. destruct H as ([u c] & E & H). destruct (Matched_only_iff s kb ka kb' ka' u c L1 L2 H) as (c' & H' & T).
      apply in_map_iff. exists (u, c'). unfold ktag in *. simpl in *. split; congruence.
    - right. apply in_app_or in H. apply in_or_app. destruct H as [H | H].
      + left. apply in_map_iff in H. destruct H as ([u c] & E & H). destruct (Matched_only_iff s ka kb ka' kb' u c L2 L1 H) as (c' & H' & T).
        apply in_map_iff. exists (u, c'). unfold ktag in *. simpl in *. split; congruence.
      + right. apply in_map_iff in H. destruct H as ([[u c] d] & E & H). unfold btag in E. simpl in E.
        destruct (Matched_In_l _ _ _ _ (u, c, d) (Matched_both s ka ka' (xtag c) kb kb' L1 N1 N2 L2)) as ([[u' c'] d'] & H' & R1 & R2 & R3).
        { apply filter_In. split; auto. unfold ptag. simpl. apply String.eqb_refl. }
        apply filter_In in H'. destruct H' as (H' & _). apply in_map_iff. exists (u', c', d'). split; auto. unfold btag. simpl in *. apply AK_parts in R2. destruct R2. congruence. }
  intro t. assert (Na := Index_NoDup s _ la Ia). assert (Na' := Index_NoDup s _ la' Ia').
  split; apply G; auto using LR_sym.
Qed.

Lemma fst_M : forall is is', (forall t, Matched (UserTag s t) (IR s) (filter (ptag (wedit * wedit) itag t) is) (filter (ptag (wedit * wedit) itag t) is')) ->
  forall t, Matched (UserTag s t) (OR s) (filter (ptag wedit wtag t) (map fst is)) (filter (ptag wedit wtag t) (map fst is')).
Proof.
  intros is is' M t. rewrite !filter_map. apply Matched_map. apply (Matched_impl _ _ _ _ _ _ (M t)); auto. intros i i' _ _ (H & _). auto.
Qed.
Lemma snd_M : forall is is', (forall i, In i is -> fst (snd i) = fst (fst i)) -> (forall i, In i is' -> fst (snd i) = fst (fst i)) ->
  (forall t, Matched (UserTag s t) (IR s) (filter (ptag (wedit * wedit) itag t) is) (filter (ptag (wedit * wedit) itag t) is')) ->
  forall t, Matched (UserTag s t) (OR s) (filter (ptag wedit wtag t) (map snd is)) (filter (ptag wedit wtag t) (map snd is')).
Proof.
  intros is is' E E' M t.
  assert (X : forall k : list (wedit * wedit), (forall i, In i k -> fst (snd i) = fst (fst i)) -> filter (ptag wedit wtag t) (map snd k) = map snd (filter (ptag (wedit * wedit) itag t) k)).
  { intros k H. rewrite filter_map. f_equal. apply filter_ext_in. intros i Hi. unfold ptag, itag, wtag. rewrite (H i Hi). auto. }
  eapply Matched_eq; [exact (X is E) | exact (X is' E') |]. apply Matched_map. apply (Matched_impl _ _ _ _ _ _ (M t)); auto. intros i i' _ _ (_ & H). auto.
Qed.

Theorem sub_body_alike : Alike s a a' -> Alike s b b' ->
  Alikewise (fun r r' => Alike s (fst r) (fst r') /\ Alike s (snd r) (snd r')) (sub_body o s rec b a) (sub_body o s rec b' a').
Proof.
  intros A B. rewrite (sub_body_eq o s rec a b la lb W Va Vb Ia Ib One), (sub_body_eq o s rec a' b' la' lb' W Va' Vb' Ia' Ib' One').
  eapply aw_bindE; [apply is_alike |]. intros is is' E E' M.
  destruct (sub_is_good o s rec a b la lb W Va Vb Ia Ib Rg is E) as (G1 & G2 & G3 & G4 & G5).
  destruct (sub_is_good o s rec a' b' la' lb' W Va' Vb' Ia' Ib' Rg' is' E') as (G1' & G2' & G3' & G4' & G5').
  destruct (ops_alike s (map fst is) (map fst is') lb lb' (Index_Tg s _ lb Ib) (Index_Tg s _ lb' Ib') Lb G1 G1' (fst_M is is' M) G3) as (_ & _ & L1).
  destruct (ops_alike s (map snd is) (map snd is') la la' (Index_Tg s _ la Ia) (Index_Tg s _ la' Ia') La G2 G2' (snd_M is is' G5 G5' M) G4) as (_ & _ & L2).
  assert (NM : forall x l ps, Index s (xkids x) l -> Forall (GoodW s) ps -> forall U w, In w (tow U (wrun ps l)) -> Named s (w_xml w)).
  { intros x l ps I G U w Hw. unfold tow in Hw. apply in_map_iff in Hw. destruct Hw as (e & X & He). subst w. simpl.
    apply (wrun_named s ps l); auto. intros [u c] Hc. exists u. apply (Index_uid s _ l u c I Hc). }
  eapply aw_bind.
  { apply (all_seq_alike s); [apply sub_tags_same | | ].
    - apply tow_WL; [| exact L1]. intro u. apply (LR_mem s); auto.
    - apply (NM b lb (map fst is)); auto. }
  intros ls ls' LS. eapply aw_bind.
  { apply (all_seq_alike s); [apply sub_tags_same | | ].
    - apply tow_WL; [| exact L2]. intro u. apply (LR_mem s); auto.
    - apply (NM a la (map snd is)); auto. }
  intros lo lo' LO. simpl. split; apply alike_set_kids; auto; apply WL_AKids; auto.
Qed.
End Two.
