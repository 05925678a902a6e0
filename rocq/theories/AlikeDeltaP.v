(** The difference of alike configs is alike, for all levels and options. *)
From Coq Require Import String Ascii List Bool Arith ZArith Lia Permutation.
From Verif Require Import Base BaseP XmlM CalcM CalcP NetconfM DataSpec DataP ListP NameP PlainP CompareP DeltaSpec DeltaR AddP WorkP SumSpec SumP SubP AlikeSpec AlikeP AlikeAddP AlikeStepP AlikeSumP AlikeDataP AlikeCheckP AlikeMarkP AlikeOpsP AlikeSeqP AlikeSubP.
From Verif Require RoundP.
Import ListNotations.
Open Scope string_scope.
Open Scope list_scope.
Local Existing Instance any_late.

(** ** get_config_replace *)
Section ReplLevel.
Variables (o : opts) (s : snode) (a b : xml) (la lb : list ent).
Hypothesis W : wfs s = true.
Hypothesis Va : valid s a = true.
Hypothesis Vb : valid s b = true.
Hypothesis Ia : Index s (xkids a) la.
Hypothesis Ib : Index s (xkids b) lb.

Definition GoodR (u : uid) (i : wedit) : Prop := fst i = u /\ GoodW s i.

Lemma r1_good : forall p i, In p (only_in lb la) -> r1 s p = Ok i -> GoodR (fst p) i.
Proof.
  intros [u c] i H E. apply only_in_In in H. destruct H as (H & _). destruct (entry_of s W b lb u c Vb Ib H) as (cs & Hs & Vc & U & _).
  simpl in E. rewrite Hs in E. injection E as E. subst i. split; auto. apply good_upd. rewrite uid_set_attr. auto.
Qed.

Lemma r2_good : forall p i, In p (only_in la lb) -> r2 o s p = Ok i -> GoodR (fst p) i.
Proof.
  intros [u c] i H E. apply only_in_In in H. destruct H as (H & _). destruct (entry_of s W a la u c Va Ia H) as (cs & Hs & Vc & U & _).
  simpl in E. rewrite Hs in E. cbn [bind] in E. apply bind_ok in E. destruct E as (d & D & E). injection E as E. subst i.
  destruct (mk_del_ok o s cs c u Hs W Vc U) as (d' & D1 & D2 & _). assert (d' = d) by congruence. subst d'. split; auto. apply good_ins. auto.
Qed.

Lemma r3_good : forall p i, In p (both_in lb la) -> r3 s p = Ok i -> GoodR (fst (fst p)) i.
Proof.
  intros [[u cb] ca] i H E. destruct (both_of s a b la lb Ia Ib u cb ca H) as (Hb & Ha & T).
  destruct (entry_of s W b lb u cb Vb Ib Hb) as (cs & Hs & Vcb & Ub & Wc & Tb).
  assert (D : GoodR u (u, WDel)) by (repeat split). assert (P : GoodR u (u, WUpd (set_attr operation_tag "replace" cb))).
  { split; auto. apply good_upd. rewrite uid_set_attr. auto. }
  assert (Q : GoodR u (u, WUpd (pop_attr operation_tag (set_attr operation_tag "replace" cb)))).
  { rewrite pop_set; [| apply (valid_inv cs cb Vcb)]. split; auto. apply good_upd. auto. }
  unfold r3 in E. simpl fst. rewrite Hs in E. cbn [bind] in E. destruct (sty cs) eqn:Et; try discriminate.
  - apply bind_ok in E. destruct E as (sm & _ & E). destruct sm; [destruct (s_is_key (si cs)) |]; injection E as E; subst i; auto.
  - destruct (s_user (si cs)); injection E as E; subst i; auto.
  - apply bind_ok in E. destruct E as (e & _ & E). destruct e; injection E as E; subst i; auto.
  - apply bind_ok in E. destruct E as (e & _ & E). destruct (e && negb (s_user (si cs))); injection E as E; subst i; auto.
Qed.

Definition repl_tags : list string := map ktag (only_in lb la) ++ map btag (both_in lb la).
Definition repl_is : res (list wedit) :=
  let! x1 := mapM (r1 s) (only_in lb la) in
  let! x2 := mapM (r2 o s) (only_in la lb) in
  let! x3 := mapM (r3 s) (both_in lb la) in
  Ok (x1 ++ x2 ++ x3).

Lemma repl_eq : config_replace o s b a =
  let! is := repl_is in
  let! ls := all_seq_attrs (fold_left (obt s) repl_tags []) (tow (uids lb) (wrun is lb)) in
  Ok (set_kids (map w_xml ls) b).
Proof.
  unfold config_replace. rewrite (group_ok s _ _ lb la Ib Ia). cbn [bind in_1_not_2 in_2_not_1 in_1_and_2].
  rewrite (proj2 (index_ok s _ lb) Ib). cbn [bind]. rewrite !tow_init.
  change (RState (tow (uids lb) lb) []) with (rconc (uids lb) lb []).
  rewrite repl_fold1. unfold repl_is. destruct (mapM (r1 s) (only_in lb la)) as [x1 |] eqn:X1; cbn [bind]; auto.
  rewrite repl_fold2.
  - destruct (mapM (r2 o s) (only_in la lb)) as [x2 |] eqn:X2; cbn [bind]; auto.
    rewrite repl_fold3. destruct (mapM (r3 s) (both_in lb la)) as [x3 |] eqn:X3; cbn [bind]; auto.
    unfold rconc. cbn [r_obu r_self]. unfold repl_tags. rewrite !fold_left_app, !wrun_app. reflexivity.
  - intros [u c] H. apply only_in_In in H. destruct H as (H & N). split; [apply (Index_tag s _ la u c Ia H) |]. apply (mem_not_In uid_eqb uid_eqb_ok). auto.
Qed.

Lemma repl_is_good : forall is, repl_is = Ok is -> Forall (GoodW s) is /\ NoDup (map fst is).
Proof.
  intros is E. unfold repl_is in E. apply bind_ok in E. destruct E as (x1 & X1 & E). apply bind_ok in E. destruct E as (x2 & X2 & E). apply bind_ok in E. destruct E as (x3 & X3 & E).
  injection E as E. subst is. apply mapM_ok in X1. apply mapM_ok in X2. apply mapM_ok in X3.
  assert (G1 : Forall2 (fun p i => GoodR (fst p) i) (only_in lb la) x1).
  { apply (Forall2_In_impl _ _ _ _ X1). intros p i H _ E. apply (r1_good p i H E). }
  assert (G2 : Forall2 (fun p i => GoodR (fst p) i) (only_in la lb) x2).
  { apply (Forall2_In_impl _ _ _ _ X2). intros p i H _ E. apply (r2_good p i H E). }
  assert (G3 : Forall2 (fun p i => GoodR (fst (fst p)) i) (both_in lb la) x3).
  { apply (Forall2_In_impl _ _ _ _ X3). intros p i H _ E. apply (r3_good p i H E). }
  assert (U : forall (A : Type) (f : A -> uid) l x, Forall2 (fun p i => GoodR (f p) i) l x -> map fst x = map f l /\ Forall (GoodW s) x).
  { intros A f l x F. induction F as [| p i l x (H1 & H2) F (I1 & I2)]; simpl; auto. split; [congruence | constructor; auto]. }
  destruct (U _ _ _ _ G1) as (A1 & A2). destruct (U _ _ _ _ G2) as (B1 & B2). destruct (U _ _ _ _ G3) as (C1 & C2).
  assert (N := T_NoDup s a b la lb Ia Ib). unfold T1, T2, T3, uids in N.
  split; [repeat (apply Forall_app; split); auto |].
  assert (E1 : map fst (x1 ++ x2 ++ x3) = map fst (only_in lb la) ++ map fst (only_in la lb) ++ map (fun p : uid * xml * xml => fst (fst p)) (both_in lb la)).
  { rewrite !map_app. f_equal; [exact A1 | f_equal; [exact B1 | exact C1]]. }
  rewrite E1. exact N.
Qed.
End ReplLevel.

Section ReplTwo.
Variables (o : opts) (s : snode) (a b a' b' : xml) (la lb la' lb' : list ent).
Hypothesis W : wfs s = true.
Hypothesis Va : valid s a = true.
Hypothesis Vb : valid s b = true.
Hypothesis Va' : valid s a' = true.
Hypothesis Vb' : valid s b' = true.
Hypothesis Ia : Index s (xkids a) la.
Hypothesis Ib : Index s (xkids b) lb.
Hypothesis Ia' : Index s (xkids a') la'.
Hypothesis Ib' : Index s (xkids b') lb'.
Hypothesis La : LR s la la'.
Hypothesis Lb : LR s lb lb'.

Lemma r1_alike : forall p p', In p (only_in lb la) -> In p' (only_in lb' la') -> ER s p p' -> Alikewise (OR s) (r1 s p) (r1 s p').
Proof.
  intros [u c] [u' c'] H H' (E & R). simpl in E, R. subst u'. apply only_in_In in H. destruct H as (H & _).
  destruct (entry_of s W b lb u c Vb Ib H) as (cs & Hs & Vc & U & Wc & T). assert (A := AK_child s _ c c' cs R Hs). assert (TT := alike_tag cs c c' A).
  unfold r1. rewrite <- TT, Hs. cbn [bind Alikewise].
  apply (OR_upd s u cs); [congruence | rewrite xtag_set; auto | exact (alike_set _ _ _ operation_tag "replace" A)].
Qed.

Lemma r2_alike : forall p p', In p (only_in la lb) -> In p' (only_in la' lb') -> ER s p p' -> Alikewise (OR s) (r2 o s p) (r2 o s p').
Proof.
  intros [u c] [u' c'] H H' (E & R). simpl in E, R. subst u'. apply only_in_In in H. destruct H as (H & _).
  destruct (entry_of s W a la u c Va Ia H) as (cs & Hs & Vc & U & Wc & T). assert (A := AK_child s _ c c' cs R Hs). assert (TT := alike_tag cs c c' A).
  unfold r2. rewrite <- TT, Hs. cbn [bind]. apply (aw_bindE (Alike cs)).
  { apply mk_del_alike; auto. intro TL. apply (kid_keys s a c cs); auto. apply (Index_kid s _ la u c Ia H). }
  intros d d' D D' DD. simpl. apply (OR_ins s u cs); auto; [congruence |]. rewrite T. apply (mk_del_tag o cs c d D).
Qed.

Lemma r3_alike : forall p p', In p (both_in lb la) -> In p' (both_in lb' la') -> PR s p p' -> Alikewise (OR s) (r3 s p) (r3 s p').
Proof.
  intros [[u cb] ca] [[u' cb'] ca'] H H' (E & R1 & R2). simpl in E, R1, R2. subst u'.
  destruct (both_of s a b la lb Ia Ib u cb ca H) as (Hb & Ha & T). destruct (both_of s a' b' la' lb' Ia' Ib' u cb' ca' H') as (Hb' & Ha' & T').
  destruct (entry_of s W b lb u cb Vb Ib Hb) as (cs & Hs & Vcb & Ub & Wc & Tb). destruct (entry_of s W a la u ca Va Ia Ha) as (cs' & Hs' & Vca & Ua & _ & Ta).
  assert (cs' = cs) by congruence. subst cs'.
  assert (B := AK_child s _ cb cb' cs R1 Hs). assert (A := AK_child s _ ca ca' cs R2 Hs').
  destruct (alike_valid cb cs cb' Vcb B) as (Vcb' & _). destruct (alike_valid ca cs ca' Vca A) as (Vca' & _).
  assert (Hu : schema_child s (fst u) = Ok cs) by congruence.
  assert (D : OR s (u, WDel) (u, WDel)) by (repeat split).
  assert (P : OR s (u, WUpd (set_attr operation_tag "replace" cb)) (u, WUpd (set_attr operation_tag "replace" cb'))).
  { apply (OR_upd s u cs); auto; [rewrite xtag_set; auto | exact (alike_set _ _ _ operation_tag "replace" B)]. }
  assert (Q : OR s (u, WUpd (pop_attr operation_tag (set_attr operation_tag "replace" cb))) (u, WUpd (pop_attr operation_tag (set_attr operation_tag "replace" cb')))).
  { rewrite !pop_set; [| apply (valid_inv cs cb' Vcb') | apply (valid_inv cs cb Vcb)]. apply (OR_upd s u cs); auto. }
  assert (NE : node_eq cs (set_attr operation_tag "replace" cb) (set_attr operation_tag "replace" ca) = node_eq cs (set_attr operation_tag "replace" cb') (set_attr operation_tag "replace" ca')).
  { rewrite !node_eq_marked; try (apply (valid_inv cs); auto; fail). apply node_eq_alike; auto. }
  unfold r3. rewrite <- (alike_tag cs cb cb' B). rewrite Hs. cbn [bind].
  rewrite <- (same_text_alike cs cb cb' ca ca' B A), NE.
  destruct (sty cs) eqn:Et; try exact I.
  - destruct (same_text cs cb ca) as [[|] |]; cbn [bind Alikewise]; auto. destruct (s_is_key (si cs)); cbn [Alikewise]; auto.
  - destruct (s_user (si cs)); cbn [Alikewise]; auto.
  - match goal with |- Alikewise _ (bind ?x _) _ => destruct x as [[|] |] end; cbn [bind Alikewise]; auto.
  - match goal with |- Alikewise _ (bind ?x _) _ => destruct x as [e |] end; cbn [bind Alikewise]; auto. destruct (e && negb (s_user (si cs))); cbn [Alikewise]; auto.
Qed.

Lemma r1_tag : forall p i, r1 s p = Ok i -> wtag i = fst (fst p).
Proof. intros [u c] i E. unfold r1 in E. apply bind_ok in E. destruct E as (ce & _ & E). injection E as E. subst. reflexivity. Qed.
Lemma r2_tag : forall p i, r2 o s p = Ok i -> wtag i = fst (fst p).
Proof.
  intros [u c] i E. unfold r2 in E. apply bind_ok in E. destruct E as (ce & _ & E). apply bind_ok in E. destruct E as (d & _ & E). injection E as E. subst. reflexivity.
Qed.
Lemma r3_tag : forall p i, r3 s p = Ok i -> wtag i = fst (fst (fst p)).
Proof.
  intros [[u c] d] i E. unfold r3 in E. apply bind_ok in E. destruct E as (cs & _ & E). destruct (sty cs); try discriminate.
  - apply bind_ok in E. destruct E as (sm & _ & E). destruct sm; [destruct (s_is_key (si cs)) |]; injection E as E; subst i; reflexivity.
  - destruct (s_user (si cs)); injection E as E; subst i; reflexivity.
  - apply bind_ok in E. destruct E as (e & _ & E). destruct e; injection E as E; subst i; reflexivity.
  - apply bind_ok in E. destruct E as (e & _ & E). destruct (e && negb (s_user (si cs))); injection E as E; subst i; reflexivity.
Qed.

Lemma ris_alike : Alikewise (fun is is' => forall t, Matched (UserTag s t) (OR s) (filter (ptag wedit wtag t) is) (filter (ptag wedit wtag t) is'))
  (repl_is o s la lb) (repl_is o s la' lb').
Proof.
  unfold repl_is. eapply aw_bind.
  { apply (mapM_matched (UserTag s) (ER s) (OR s) (r1 s) (r1 s) (fun p => fst (fst p)) (fun p => fst (fst p)) wtag wtag).
    - intro t. eapply Matched_eq; [exact (ut_only s b lb la t Ib) | exact (ut_only s b' lb' la' t Ib') | apply Matched_only; auto].
    - apply r1_tag.
    - apply r1_tag.
    - apply r1_alike. }
  intros x1 y1 M1. eapply aw_bind.
  { apply (mapM_matched (UserTag s) (ER s) (OR s) (r2 o s) (r2 o s) (fun p => fst (fst p)) (fun p => fst (fst p)) wtag wtag).
    - intro t. eapply Matched_eq; [exact (ut_only s a la lb t Ia) | exact (ut_only s a' la' lb' t Ia') | apply Matched_only; auto].
    - apply r2_tag.
    - apply r2_tag.
    - apply r2_alike. }
  intros x2 y2 M2. eapply aw_bind.
  { apply (mapM_matched (UserTag s) (PR s) (OR s) (r3 s) (r3 s) (fun p => fst (fst (fst p))) (fun p => fst (fst (fst p))) wtag wtag).
    - intro t. eapply Matched_eq; [exact (ut_both s b lb la t Ib) | exact (ut_both s b' lb' la' t Ib') | apply Matched_both; auto; eapply Index_NoDup; eauto].
    - apply r3_tag.
    - apply r3_tag.
    - apply r3_alike. }
  intros x3 y3 M3. simpl. intro t. rewrite !filter_app'. apply Matched_app; auto. apply Matched_app; auto.
Qed.

Lemma repl_tags_same : forall t, In t (repl_tags la lb) <-> In t (repl_tags la' lb').
Proof.
  assert (G : forall ka kb ka' kb', LR s ka ka' -> LR s kb kb' -> NoDup (uids ka) -> NoDup (uids ka') -> forall t, In t (repl_tags ka kb) -> In t (repl_tags ka' kb')).
  { intros ka kb ka' kb' L1 L2 N1 N2 t H. unfold repl_tags in *. apply in_app_or in H. apply in_or_app. destruct H as [H | H].
    - left. apply in_map_iff in H. destruct H as ([u c] & E & H). destruct (Matched_only_iff s kb ka kb' ka' u c L1 L2 H) as (c' & H' & T).
      apply in_map_iff. exists (u, c'). unfold ktag in *. simpl in *. split; congruence.
    - right. apply in_map_iff in H. destruct H as ([[u c] d] & E & H). unfold btag in E. simpl in E.
      destruct (Matched_In_l _ _ _ _ (u, c, d) (Matched_both s ka ka' (xtag c) kb kb' L1 N1 N2 L2)) as ([[u' c'] d'] & H' & R1 & R2 & R3).
      { apply filter_In. split; auto. unfold ptag. simpl. apply String.eqb_refl. }
      apply filter_In in H'. destruct H' as (H' & _). apply in_map_iff. exists (u', c', d'). split; auto. unfold btag. simpl in *. apply AK_parts in R2. destruct R2. congruence. }
  intro t. assert (Na := Index_NoDup s _ la Ia). assert (Na' := Index_NoDup s _ la' Ia').
  split; apply G; auto using LR_sym.
Qed.

Theorem repl_alike : Alike s b b' -> Alikewise (Alike s) (config_replace o s b a) (config_replace o s b' a').
Proof.
  intros B. rewrite (repl_eq o s a b la lb Ia Ib), (repl_eq o s a' b' la' lb' Ia' Ib').
  eapply aw_bindE; [apply ris_alike |]. intros is is' E E' M.
  destruct (repl_is_good o s a b la lb W Va Vb Ia Ib is E) as (G1 & G3).
  destruct (repl_is_good o s a' b' la' lb' W Va' Vb' Ia' Ib' is' E') as (G1' & G3').
  destruct (ops_alike s is is' lb lb' (Index_Tg s _ lb Ib) (Index_Tg s _ lb' Ib') Lb G1 G1' M G3) as (_ & _ & L1).
  eapply aw_bind.
  { apply (all_seq_alike s); [apply repl_tags_same | | ].
    - apply tow_WL; [| exact L1]. intro u. apply (LR_mem s); auto.
    - intros w Hw. unfold tow in Hw. apply in_map_iff in Hw. destruct Hw as (e & X & He). subst w. simpl.
      apply (wrun_named s is lb); auto. intros [u c] Hc. exists u. apply (Index_uid s _ lb u c Ib Hc). }
  intros ls ls' LS. simpl. apply alike_set_kids; auto; apply WL_AKids; auto.
Qed.
End ReplTwo.

Theorem config_replace_alike : forall o s a a' b b', wfs s = true -> valid s a = true -> valid s b = true -> Alike s a a' -> Alike s b b' ->
  Alikewise (Alike s) (config_replace o s b a) (config_replace o s b' a').
Proof.
  intros o s a a' b b' W Va Vb A B. destruct (alike_valid a s a' Va A) as (Va' & _). destruct (alike_valid b s b' Vb B) as (Vb' & _).
  destruct (valid_inv s a Va) as (_ & (la & Ia) & _). destruct (valid_inv s b Vb) as (_ & (lb & Ib) & _).
  assert (KA := A). apply alike_inv in KA. destruct KA as (_ & _ & _ & KA). assert (KB := B). apply alike_inv in KB. destruct KB as (_ & _ & _ & KB).
  destruct (AKids_index s _ _ la KA Ia) as (la' & Ia' & La). destruct (AKids_index s _ _ lb KB Ib) as (lb' & Ib' & Lb).
  apply (repl_alike o s a b a' b' la lb la' lb'); auto.
Qed.

(** ** node_sub *)
Definition sub_rec (f : nat) (o : opts) (depth : Z) (cs : snode) (a b : xml) : res (xml * xml) :=
  match o_type o with
  | DReplace => if Z.eqb (o_depth o) (depth + 1) then let! a' := config_replace o cs a b in Ok (a', b) else node_sub f o cs (depth + 1) a b
  | _ => node_sub f o cs (depth + 1) a b
  end.

Lemma node_sub_S : forall f o s depth b a, node_sub (S f) o s depth b a =
  let! differ := match o_replace o with PRMerge => Ok false | PRReplace => leaf_lists_differ s (xkids b) (xkids a) end in
  if differ then Ok (set_attr operation_tag "replace" b, set_attr operation_tag "replace" a) else sub_body o s (sub_rec f o depth) b a.
Proof. reflexivity. Qed.

Lemma sub_rec_good : forall f o n s a b la lb, ~ RLevel o n -> wfs s = true -> valid s a = true -> valid s b = true -> Index s (xkids a) la -> Index s (xkids b) lb ->
  height b <= S f -> RecG s (sub_rec f o (Z.of_nat n)) la lb.
Proof.
  intros f o n s a b la lb NR W Va Vb Ia Ib Hf u cs ca cb r Ha Hb Hs N R.
  destruct (entry_of s W b lb u cb Vb Ib Hb) as (cs0 & Hs0 & Vcb & Ub & Wc & Tb). destruct (entry_of s W a la u ca Va Ia Ha) as (cs1 & Hs1 & Vca & Ua & _ & Ta).
  assert (T : xtag ca = xtag cb) by congruence. assert (cs0 = cs) by congruence. assert (cs1 = cs) by congruence. subst cs0 cs1.
  assert (SR : SubRes (S n) cs ca cb (fst r) (snd r)).
  { assert (HL : Lvls o (S n) cs (xkids ca) (xkids cb)) by (apply RoundP.Lvls_any; apply valid_validk; auto).
    assert (NS : ~ RLevel o (S n) -> node_sub f o cs (Z.of_nat n + 1) cb ca = Ok r -> SubRes (S n) cs ca cb (fst r) (snd r)).
    { intros NR' X. replace (Z.of_nat n + 1)%Z with (Z.of_nat (S n)) in X by lia. destruct (node_sub_rt True f o (S n) cs ca cb) as [(r' & R1 & R2 & _) | (R1 & _)]; auto using valid_validk.
      - assert (Y := height_kid cb b (Index_kid s _ lb u cb Ib Hb)). lia.
      - apply (valid_inv cs cb Vcb).
      - intros m E. injection E as E. subst m. exact NR.
      - assert (r' = r) by congruence. subst. auto.
      - congruence. }
    unfold sub_rec in R. destruct (o_type o) eqn:Eo; try (apply NS; auto; intros [X _]; congruence).
    destruct (Z.eqb (o_depth o) (Z.of_nat n + 1)) eqn:Ez.
    2: { apply NS; auto. intros [_ X]. apply Z.eqb_neq in Ez. lia. }
    assert (RL : RLevel o (S n)) by (split; [exact Eo | apply Z.eqb_eq in Ez; lia]).
    apply bind_ok in R. destruct R as (d & R & E). injection E as E. subst r. cbn [fst snd].
    inversion HL as [n0 s0 ka kb lca lcb Ilca Ilcb M1 M2 M0 MD M3]; subst n0 s0 ka kb.
    destruct (replace_level (S n) cs ca cb lca lcb Wc (valid_validk cs ca Vca) (valid_validk cs cb Vcb) Ilca Ilcb True (or_intror I) (or_intror I) o (M2 RL)) as [(d' & E1 & E2 & E3 & E4 & E5 & E6) | [E1 E2]]; [| congruence].
    assert (d' = d) by congruence. subst d'. split; auto. split; auto. split; [left; split; [rewrite E4; apply (valid_inv cs cb Vcb) | split; [exact I | exact E5]] |]. split; auto. }
  destruct (rec_entry n s la lb cs ca cb (fst r) (snd r) u Hs N Vcb T Ua Ub SR) as (X & Y & _). auto.
Qed.

Theorem node_sub_alike : forall f o n s a a' b b', ~ RLevel o n -> (forall m, n = S m -> ~ RLevel o m) -> height b <= f -> wfs s = true -> valid s a = true -> valid s b = true ->
  Alike s a a' -> Alike s b b' -> NoSwitch s b b ->
  Alikewise (fun r r' => Alike s (fst r) (fst r') /\ Alike s (snd r) (snd r')) (node_sub f o s (Z.of_nat n) b a) (node_sub f o s (Z.of_nat n) b' a').
Proof.
  induction f as [| f IH]; intros o n s a a' b b' NR NP Hf W Va Vb A B NS; [exact I |]. rewrite !node_sub_S.
  rewrite <- (leaf_lists_differ_alike s b b' a a' Vb Va B A).
  destruct (match o_replace o with PRMerge => Ok false | PRReplace => leaf_lists_differ s (xkids b) (xkids a) end) as [[|] |]; cbn [bind]; [| | exact I].
  - split; [exact (alike_set _ _ _ operation_tag "replace" B) | exact (alike_set _ _ _ operation_tag "replace" A)].
  - destruct (alike_valid a s a' Va A) as (Va' & _). destruct (alike_valid b s b' Vb B) as (Vb' & _).
    destruct (valid_inv s a Va) as (_ & (la & Ia) & _). destruct (valid_inv s b Vb) as (_ & (lb & Ib) & _).
    assert (KA := A). apply alike_inv in KA. destruct KA as (_ & _ & _ & KA). assert (KB := B). apply alike_inv in KB. destruct KB as (_ & _ & _ & KB).
    destruct (AKids_index s _ _ la KA Ia) as (la' & Ia' & La). destruct (AKids_index s _ _ lb KB Ib) as (lb' & Ib' & Lb).
    assert (One := NoSwitch_OneCase s b NS). assert (One' := OneCase_AKids s _ _ KB One).
    apply (sub_body_alike o s (sub_rec f o (Z.of_nat n)) a b a' b' la lb la' lb'); auto.
    + intros u cs ca cb ca' cb' Ha Hb Ha' Hb' Hs N AA BB.
      destruct (entry_of s W b lb u cb Vb Ib Hb) as (cs0 & Hs0 & Vcb & Ub & Wc & Tb). destruct (entry_of s W a la u ca Va Ia Ha) as (cs1 & Hs1 & Vca & Ua & _ & Ta).
      assert (T : xtag ca = xtag cb) by congruence. assert (cs0 = cs) by congruence. assert (cs1 = cs) by congruence. subst cs0 cs1.
      assert (R : ~ RLevel o (S n) -> Alikewise (fun r r' => Alike cs (fst r) (fst r') /\ Alike cs (snd r) (snd r'))
                (node_sub f o cs (Z.of_nat n + 1) cb ca) (node_sub f o cs (Z.of_nat n + 1) cb' ca')).
      { intro NR'. replace (Z.of_nat n + 1)%Z with (Z.of_nat (S n)) by lia. apply IH; auto.
        - intros m E. injection E as E. subst m. exact NR.
        - assert (Y := height_kid cb b (Index_kid s _ lb u cb Ib Hb)). lia.
        - apply (RoundP.Everywhere_down _ s b b u cb cb cs NS); auto; apply (Index_kid s _ lb u cb Ib Hb). }
      unfold sub_rec. destruct (o_type o) eqn:Eo; try (apply R; intros [X _]; congruence).
      destruct (Z.eqb (o_depth o) (Z.of_nat n + 1)) eqn:Ez; [| apply R; intros [_ X]; apply Z.eqb_neq in Ez; lia].
      eapply aw_bind; [apply (config_replace_alike o cs ca ca' cb cb'); auto |]. intros x y XY. simpl. auto.
    + apply (sub_rec_good f o n s a b la lb); auto.
    + apply (sub_rec_good f o n s a' b' la' lb'); auto. rewrite <- (alike_height s b b' B). auto.
Qed.

Theorem nc_sub_alike : forall o s a a' b b', wfs s = true -> valid s a = true -> valid s b = true -> Alike s a a' -> Alike s b b' -> NoSwitch s b b ->
  Alikewise (Alike s) (nc_sub o s b a) (nc_sub o s b' a').
Proof.
  intros o s a a' b b' W Va Vb A B NS. unfold nc_sub. apply (aw_bind (Alike s)).
  - rewrite <- (alike_height s b b' B).
    assert (R : ~ RLevel o 0 -> Alikewise (Alike s) (let! p := node_sub (height b) o s 0 b a in Ok (fst p)) (let! p := node_sub (height b) o s 0 b' a' in Ok (fst p))).
    { intro NR. eapply aw_bind; [apply (node_sub_alike (height b) o 0 s a a' b b'); auto; intros m E; discriminate |]. intros x y (X & _). exact X. }
    destruct (o_type o) eqn:Eo; try (apply R; intros [X _]; congruence). destruct (Z.eqb (o_depth o) 0) eqn:Ez; [apply config_replace_alike; auto |].
    apply R. intros [_ X]. apply Z.eqb_neq in Ez. apply Ez. exact X.
  - intros x y X. destruct (o_type o); simpl; auto. apply alike_mark_depth. auto.
Qed.
