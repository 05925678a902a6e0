(** What the sum of a config and a delta is, for all pairs of configs: a node that the
    destination does not have is deleted unless the destination has another case of the same
    choice; defaults do not make up for a wrong sum. *)
From Coq Require Import String Ascii List Bool Arith ZArith Lia Permutation.
From Verif Require Import Base BaseP XmlM CalcM CalcP NetconfM ConfigM ListP DataSpec DataP CompareP DeltaSpec MoveSpec MoveP ConfigSpec
  DeltaR NameP AddP AddStepP SubP RoundP TrimSpec TrimP ConfigP DeltaPropsP SumSpec.
Import ListNotations.
Open Scope string_scope.
Open Scope list_scope.

(** ** Places in choices *)
Lemma Locus_fun : forall s p c c', Locus s p c -> Locus s p c' -> c = c'.
Proof.
  intros s p c c' H. revert c'. induction H as [i c H | p k i c H IH T N]; intros c' H'.
  - inversion H' as [? ? N | ? ? ? ? X]; subst; [congruence | inversion X].
  - inversion H' as [? ? ? X | ? k' ? ? L' T' N' X]; subst; [inversion H |]. rewrite (IH k' L') in N. congruence.
Qed.

Lemma Locus_flat : forall s p k, Locus s p k -> exists inc, (forall e, In e (flat_node p inc k) -> In e (flat s)) /\
  (forall i m q kk, p = i :: m :: q -> Locus s (m :: q) kk -> sty kk = TCase -> inc = true).
Proof.
  intros s p k H. induction H as [i c H | p k i c H (inc & IH & _) T N].
  - exists false. split; [| discriminate]. intros e He. unfold flat. rewrite flat_list_go. apply flat_go_In. exists i, c. auto.
  - exists (stype_eqb (sty k) TCase). split.
    + intros e He. apply IH. rewrite flat_node_eq. assert (E : is_choice_or_case (sty k) = true) by (destruct T as [T | T]; rewrite T; reflexivity).
      rewrite E. apply flat_go_In. exists i, c. auto.
    + intros i' m q kk E L T'. inversion E; subst. rewrite (Locus_fun s _ k kk H L), T'. reflexivity.
Qed.

Lemma entry_at : forall s t e d i m q kk, schema_entry s t = Ok e -> Defines s t d -> Locus s (i :: m :: q) d ->
  Locus s (m :: q) kk -> sty kk = TCase -> ce_pos e = i :: m :: q /\ ce_case e = true.
Proof.
  intros s t e d i m q kk He D L L' T. destruct (Locus_flat s _ d L) as (inc & H1 & H2).
  assert (inc = true) by (eapply H2; eauto). subst inc. destruct D as [Dt (k & _ & Th)].
  assert (E : is_choice_or_case (sty d) = false).
  { assert (X : sty d <> TChoice /\ sty d <> TCase) by (clear - Th; induction Th; auto). destruct X. destruct (sty d); auto; contradiction. }
  assert (In' := H1). specialize (H1 (CEntry (i :: m :: q) true d)). rewrite flat_node_eq, E in H1. specialize (H1 (or_introl eq_refl)).
  unfold schema_entry in He.
  assert (G : In (CEntry (i :: m :: q) true d) (filter (fun c => String.eqb (stag (ce_node c)) t) (flat s))).
  { apply filter_In. split; auto. simpl. apply String.eqb_eq. auto. }
  destruct (filter (fun c => String.eqb (stag (ce_node c)) t) (flat s)) as [| x [| y r]]; try discriminate.
  inversion He; subst. destruct G as [G | []]. subst e. auto.
Qed.

Lemma OtherCase_entries : forall s ca cb ea eb, schema_entry s (xtag ca) = Ok ea -> schema_entry s (xtag cb) = Ok eb ->
  (OtherCase s ca cb <-> ce_case ea = true /\ ce_case eb = true /\ choice_pos ea = choice_pos eb /\ case_pos ea <> case_pos eb).
Proof.
  intros s ca cb ea eb Ha Hb. split.
  - intros (da & db & i & j & m & n & q & ka & kb & D1 & D2 & L1 & L2 & L3 & T3 & L4 & T4 & N).
    destruct (entry_at s _ ea da i m q ka Ha D1 L1 L3 T3) as [P1 C1]. destruct (entry_at s _ eb db j n q kb Hb D2 L2 L4 T4) as [P2 C2].
    unfold choice_pos, case_pos. rewrite P1, P2. simpl. repeat split; auto. congruence.
  - intros (S5 & S6 & S7 & S8). destruct (entry_Locus s _ ea Ha) as [La Ca]. destruct (entry_Locus s _ eb Hb) as [Lb Cb].
    destruct (Ca S5) as (i & m & q & ka & Pa & L1 & T1). destruct (Cb S6) as (j & n & q' & kb & Pb & L2 & T2).
    unfold choice_pos, case_pos in *. rewrite Pa, Pb in *. simpl in S7, S8. subst q'.
    assert (D1 : Defines s (xtag ca) (ce_node ea)) by (apply schema_child_Defines; apply schema_child_entry; eauto).
    assert (D2 : Defines s (xtag cb) (ce_node eb)) by (apply schema_child_Defines; apply schema_child_entry; eauto).
    exists (ce_node ea), (ce_node eb), i, j, m, n, q, ka, kb. assert (m <> n) by congruence. tauto.
Qed.

Lemma NoSwitch_at : forall s a b p s' na nb ca cb, NoSwitch s a b -> At s a p s' na -> At s b p s' nb ->
  In ca (xkids na) -> In cb (xkids nb) -> ~ OtherCase s' ca cb.
Proof.
  intros s a b p s' na nb ca cb H Pa Pb Ha Hb (da & db & i & j & m & n & q & ka & kb & D1 & D2 & L1 & L2 & L3 & T3 & L4 & T4 & N).
  apply N. apply (H p s' na nb Pa Pb ca cb da db i j m n q ka kb); auto.
Qed.

Lemma NoSwitch_here : forall s a b ca cb, NoSwitch s a b -> In ca (xkids a) -> In cb (xkids b) -> ~ OtherCase s ca cb.
Proof. intros s a b ca cb H. apply (NoSwitch_at s a b [] s a b); auto; constructor. Qed.

Lemma OtherCase_tag : forall s ca ca' cb, OtherCase s ca cb -> xtag ca' = xtag ca -> OtherCase s ca' cb.
Proof.
  intros s ca ca' cb (da & db & i & j & m & n & q & ka & kb & D1 & R) E.
  exists da, db, i, j, m, n, q, ka, kb. rewrite E. auto.
Qed.

Lemma valid_entry : forall s x c, valid s x = true -> In c (xkids x) -> exists e, schema_entry s (xtag c) = Ok e.
Proof.
  intros s x c V Hc. destruct (valid_inv s x V) as (_ & _ & K). destruct (K c Hc) as (cs & H & _).
  apply schema_child_entry in H. destruct H as (e & H & _). eauto.
Qed.

Lemma Suppressed_other : forall s a b la lb ca, valid s b = true -> Index s (xkids b) lb -> In ca (xkids a) -> valid s a = true ->
  Index s (xkids a) la -> (forall x y, In x (xkids a) -> In y (xkids a) -> ~ OtherCase s x y) ->
  (Suppressed s la lb ca <-> exists cb, In cb (xkids b) /\ OtherCase s ca cb).
Proof.
  intros s a b la lb ca Vb IB Hca Va IA Na. split.
  - intros (v & cb & ea & eb & S1 & S2 & S3 & S4 & S5). exists cb. split; [eapply Index_kid; eauto |].
    apply (OtherCase_entries s ca cb ea eb); auto.
  - intros (cb & Hcb & HO). destruct (valid_entry s a ca Va Hca) as (ea & Ea). destruct (valid_entry s b cb Vb Hcb) as (eb & Eb).
    destruct (Index_In s _ lb cb IB Hcb) as (v & Hv). exists v, cb, ea, eb. split; auto.
    split; [| split; auto; split; auto; apply (OtherCase_entries s ca cb); auto].
    intro X. apply assoc_Some_uids in X. destruct X as (x & X). apply (Index_assoc s _ la v x IA) in X.
    apply (Na ca x Hca (Index_kid s _ la v x IA X)).
    assert (T : xtag x = xtag cb).
    { rewrite <- (Index_tag s _ la v x IA X). apply (Index_tag s _ lb v cb IB Hv). }
    destruct HO as (da & db & i & j & m & n & q & ka & kb & D1 & D2 & R). exists da, db, i, j, m, n, q, ka, kb. rewrite T. auto.
Qed.

(** ** Leaf-lists that differ *)
Lemma differ_iff : forall s a b, valid s a = true -> valid s b = true ->
  (leaf_lists_differ s (xkids b) (xkids a) = Ok true <-> ~ TopLeafListsAgree s a b) /\
  (leaf_lists_differ s (xkids b) (xkids a) = Ok false <-> TopLeafListsAgree s a b).
Proof.
  intros s a b Va Vb.
  assert (Q : leaf_lists_differ s (xkids b) (xkids a) = Ok false -> TopLeafListsAgree s a b).
  { intros E t cs D Ht N1 N2. assert (G := leaf_lists_differ_iff s (xkids b) (xkids a) false E).
    assert (X : forall x, values_below t x <> [] -> exists c, In c (xkids x) /\ xtag c = t).
    { intros x N. unfold values_below in N. destruct (filter _ (xkids x)) as [| c r] eqn:F; [exfalso; apply N; auto |].
      assert (I : In c (filter (fun c => String.eqb (xtag c) t) (xkids x))) by (rewrite F; left; auto).
      apply filter_In in I. destruct I as [I1 I2]. apply String.eqb_eq in I2. eauto. }
    destruct (X a N1) as (c2 & C1 & C2). destruct (X b N2) as (c1 & C3 & C4).
    assert (Hs : schema_child s t = Ok cs).
    { destruct (valid_inv s a Va) as (_ & _ & K). destruct (K c2 C1) as (cs' & S1 & _). rewrite C2 in S1.
      rewrite (Defines_schema_child s t cs' cs S1 D). exact S1. }
    assert (L : same_leaf_list s t (xkids b) (xkids a) = Ok true).
    { destruct (same_leaf_list s t (xkids b) (xkids a)) as [[|] | e] eqn:F; auto.
      - assert (false = true) by (apply G; exists t, cs, c1, c2; auto 10). discriminate.
      - unfold same_leaf_list in F. rewrite Hs in F. cbn [bind] in F. destruct (s_user (si cs)); discriminate. }
    unfold same_leaf_list in L. rewrite Hs in L. cbn [bind] in L.
    assert (P : forall l, map (parse_text cs) (kids_tagged t l) = map xtext (kids_tagged t l)).
    { intro l. apply map_ext. intro c. apply parse_text_id. congruence. }
    rewrite !P in L. change (map xtext (kids_tagged t (xkids a))) with (values_below t a) in L.
    change (map xtext (kids_tagged t (xkids b))) with (values_below t b) in L.
    destruct (s_user (si cs)).
    - injection L as L. symmetry. apply (list_eqb_ok ostr_eqb ostr_eqb_ok). exact L.
    - injection L as L. apply andb_true_iff in L. destruct L as [L1 L2]. rewrite forallb_forall in L1, L2.
      intro v. split; intro H; [specialize (L2 v H) | specialize (L1 v H)]; apply (mem_In ostr_eqb ostr_eqb_ok); auto. }
  assert (R := differ_none s b a (valid_validk _ _ Vb) (valid_validk _ _ Va)).
  destruct (leaf_lists_total s (xkids b) (xkids a)) as (e & E).
  { intros c Hc. destruct (valid_inv s b Vb) as (_ & _ & V). destruct (V c Hc) as (cs & X & _). eauto. }
  { intros c Hc. destruct (valid_inv s a Va) as (_ & _ & V). destruct (V c Hc) as (cs & X & _). eauto. }
  destruct e; rewrite E in *.
  - split; split; [intros _ A; specialize (R A); discriminate | auto | discriminate | exact R].
  - split; split; [discriminate | intro A; exfalso; auto | exact Q | auto].
Qed.

(** ** The deletions of a delta *)
Section Options.
Variable o : opts.

(** [WholeAt] in terms of the code *)
Definition Here (n : nat) (s : snode) (ka kb : list xml) : Prop :=
  (exists m, n = S m /\ RLevel o m) \/ (~ RLevel o n /\ o_replace o = PRReplace /\ leaf_lists_differ s kb ka = Ok true).

Lemma Here_iff : forall n s a b, valid s a = true -> valid s b = true -> (Here n s (xkids a) (xkids b) <-> WholeAt o n s a b).
Proof.
  intros n s a b Va Vb. destruct (differ_iff s a b Va Vb) as [D _]. unfold Here, WholeAt. rewrite D. reflexivity.
Qed.

Definition sum_lk (n : nat) (s : snode) (la lb : list ent) (ca : xml) (_ : operation) : Prop := RLevel o n \/ ~ Suppressed s la lb ca.
Lemma sum_nil : forall n s la ca op, sum_lk n s la [] ca op.
Proof. intros n s la ca op. right. intros (v & cb & ea & eb & X & _). destruct X. Qed.
Definition sum_late : late := Late sum_lk True (fun _ _ _ _ _ _ => I) (fun n s la ca op _ _ => sum_nil n s la ca op) (fun n => ~ RLevel o n) Here (fun n s ka kb => ~ Here n s ka kb).
Local Existing Instance sum_late.

Theorem Lvls_sum : forall a n s b, valid s a = true -> valid s b = true -> NoSwitch s b b -> Lvls o n s (xkids a) (xkids b).
Proof.
  intro a. induction a as [t tx at_ ks IH] using xml_ind'. intros n s b Va Vb Nb.
  set (a := Elem t tx at_ ks) in *. change ks with (xkids a) in IH. rewrite Forall_forall in IH.
  destruct (valid_inv s a Va) as (_ & (la & Ia) & Ka). destruct (valid_inv s b Vb) as (_ & (lb & Ib) & Kb).
  assert (One : forall c c' e e', In c (xkids b) -> In c' (xkids b) -> schema_entry s (xtag c) = Ok e -> schema_entry s (xtag c') = Ok e' ->
            ce_case e = true -> ce_case e' = true -> choice_pos e = choice_pos e' -> case_pos e = case_pos e').
  { intros c c' e e' Hc Hc' He He' C1 C2 E. destruct (list_eq_dec Nat.eq_dec (case_pos e) (case_pos e')) as [X | X]; auto. exfalso.
    apply (NoSwitch_here s b b c c' Nb Hc Hc'). apply (OtherCase_entries s c c' e e'); auto. }
  apply (lvls o n s _ _ la lb); auto.
  - intro NR. split; [| exact NR].
    intros u ca cs d Hin Hn Hs [X | HA] _; [discriminate |]. right.
    intros (v & cb & ea & eb & S1 & S2 & S3 & S4 & S5 & S6 & S7 & S8).
    assert (Hcb := Index_kid s _ lb v cb Ib S1).
    destruct HA as [(v' & cb' & H1 & H2) | HA].
    + apply S8. apply (One cb' cb ea eb); auto; [eapply Index_kid; eauto | congruence].
    + destruct (HA ea S3 S5) as [H | (eb' & (v' & cb' & G1 & G2 & G3 & G4) & H1 & H2)].
      * apply (H eb); auto. exists v, cb. auto.
      * apply S8. rewrite <- H2. apply (One cb' cb eb' eb); auto; [eapply Index_kid; eauto | congruence].
  - intro RL. split; [intros u ca cs d Hin Hn Hs HA _; left; exact RL |].
    intros u ca cb cs H1 H2 Hs. left. exists n. auto.
  - intros NR HR HD. right. auto.
  - intros NP HX [(m & E & X) | (X1 & X2 & X3)]; [exact (NP m E X) |].
    destruct HX as [HX | [HX | HX]]; [contradiction | congruence | congruence].
  - intros u ca cb cs H1 H2 Hs.
    assert (Ca := Index_kid s _ la u ca Ia H1). assert (Cb := Index_kid s _ lb u cb Ib H2).
    assert (Ub := Index_uid s _ lb u cb Ib H2).
    destruct (Ka ca Ca) as (cs1 & E1 & V1). destruct (Kb cb Cb) as (cs2 & E2 & V2).
    assert (T : xtag cb = xtag ca).
    { rewrite <- (Index_tag s _ la u ca Ia H1). symmetry. apply (Index_tag s _ lb u cb Ib H2). }
    assert (cs1 = cs) by congruence. assert (cs2 = cs) by congruence. subst.
    apply IH; auto. apply (Everywhere_down _ s b b u cb cb cs Nb); auto.
Qed.

Theorem sum_lands : forall s a b, wfs s = true -> sty s = TRoot -> valid s a = true -> valid s b = true ->
  orderable s a = true -> orderable s b = true -> NoSwitch s b b -> RootKept o s a b ->
  exists d r la lb lr, nc_sub o s b a = Ok d /\ xtag d = xtag b /\ nc_add s a d = Ok r /\ xtag r = xtag a /\ valid s r = true /\
    Index s (xkids a) la /\ Index s (xkids b) lb /\ Index s (xkids r) lr /\ KL 0 s la lb lr.
Proof.
  intros s a b W Rt Va Vb Oa Ob Nb RK.
  destruct (valid_inv s a Va) as (Aa & _ & Ka). destruct (valid_inv s b Vb) as (Ab & _ & Kb).
  assert (Ta : xtext a = None) by (apply (valid_text s a Va); rewrite Rt; discriminate).
  destruct (nc_sub_late o s a b) as (d & D1 & D2 & D3); auto using valid_validk; [apply Lvls_sum; auto |].
  destruct (add_ok (height d) 0 s a b d) as (la & lb & lr & R1 & R0 & R2 & R3 & R5); auto using valid_validk.
  exists d, (set_kids (map snd lr) a), la, lb, lr. split; auto. split; auto. split; [exact R1 |].
  set (r := set_kids (map snd lr) a).
  assert (Ir : Index s (xkids r) lr).
  { destruct R3 as [X1 X2]. unfold r. destruct a. simpl. split; auto. }
  assert (Q : xtag r = xtag a /\ xtext r = None /\ xattrs r = []) by (unfold r; destruct a; simpl in *; auto).
  destruct Q as (Q1 & Q2 & Q3). split; auto. split; auto.
  apply (valid_root s r lr); auto.
  intros c Hc. destruct (Index_In s _ lr c Ir Hc) as (u & Hin). apply (Index_assoc s _ lr u c Ir) in Hin.
  destruct R5 as [HK _]. specialize (HK u). rewrite Hin in HK.
  inversion HK as [| | n0 s0 l1 l2 ca HS0 HS XN X0 X1 X2 X3 X4 X5 | n0 s0 l1 l2 oa e cb0 ds H1 H2 H3 H4]; subst; eauto.
  apply Ka. symmetry in X3. apply (Index_assoc s _ la u c R0) in X3. eapply Index_kid; eauto.
Qed.

(** ** Defaults in a sum *)

(** A leaf-list that is dropped is dropped as a whole. *)
Lemma trim_dropped : forall s x y t cs, trim s x = Ok y -> schema_child s t = Ok cs -> sty cs = TLeafList ->
  ll_is_default cs (map xtext (kids_tagged t (xkids x))) = true -> forall c, In c (xkids y) -> xtag c <> t.
Proof.
  intros s x y t cs T Hs Ht D c Hc E. destruct (trim_back s x y c T Hc) as (c0 & H0 & cs' & H1 & H2 & H3).
  destruct (trim_parts _ _ _ H2) as (P1 & _). assert (cs' = cs) by congruence. subst cs'.
  unfold trim_drops in H3. rewrite Ht, E in H3. congruence.
Qed.

(** The identity of what is left is the identity before. *)
Lemma trim_uid_back : forall s cs c c' u w, schema_child s (xtag c) = Ok cs -> valid cs c = true -> wfs cs = true ->
  trim cs c = Ok c' -> uid_of s c = Ok w -> uid_of s c' = Ok u -> u = w.
Proof.
  intros s cs c c' u w Hs V W T Hw Hu. destruct (trim_parts _ _ _ T) as (P1 & P2 & _).
  assert (Hs' : schema_child s (xtag c') = Ok cs) by congruence.
  assert (D : sty cs = TLeafList \/ sty cs = TList \/ (sty cs <> TLeafList /\ sty cs <> TList)).
  { destruct (sty cs); auto; right; right; split; discriminate. }
  destruct D as [D | [D | [D1 D2]]].
  - unfold uid_of in Hu, Hw. rewrite Hs' in Hu. rewrite Hs in Hw. simpl in Hu, Hw. rewrite D in Hu, Hw. inversion Hu. inversion Hw.
    rewrite !parse_text_id by congruence. congruence.
  - apply (uid_list s c cs Hs D) in Hw. apply (uid_list s c' cs Hs' D) in Hu.
    destruct Hw as (ts & K1 & E1). destruct Hu as (ts' & K2 & E2). subst u w. rewrite P1. f_equal. f_equal.
    apply key_tuple_Forall2 in K1. apply key_tuple_Forall2 in K2.
    revert ts ts' K1 K2. induction (s_keys (si cs)) as [| k ks IH]; intros ts ts' K1 K2; inversion K1; inversion K2; subst; auto.
    destruct H1 as (k1 & G1 & G2). destruct H6 as (k2 & G3 & G4).
    assert (X : In k2 (kids_tagged k (xkids c'))) by (rewrite G3; left; auto).
    apply filter_In in X. destruct X as [X1 X2]. destruct (trim_back cs c c' k2 T X1) as (k0 & Y1 & cs0 & Y2 & Y3 & _).
    destruct (trim_parts _ _ _ Y3) as (Z1 & Z2 & _).
    assert (X : In k0 (kids_tagged k (xkids c))) by (apply filter_In; rewrite <- Z1; auto).
    rewrite G1 in X. destruct X as [X | []]. subst k0.
    f_equal; [| apply IH; auto]. rewrite <- G2, <- G4. unfold parse_text. rewrite Z2. reflexivity.
  - rewrite (uid_other s c cs) in Hw by auto. rewrite (uid_other s c' cs) in Hu by auto. congruence.
Qed.

Lemma kept_filter_all : forall {A} (p : A -> bool) l, (forall x, In x l -> In x (filter p l)) -> filter p l = l.
Proof. intros A p l H. apply filter_all. intros x Hx. specialize (H x Hx). apply filter_In in H. tauto. Qed.

Theorem untrimmed : forall r n s a b la lb lr r', wfs s = true -> valid s a = true -> valid s b = true -> valid s r = true -> valid s r' = true ->
  Index s (xkids a) la -> Index s (xkids b) lb -> Index s (xkids r) lr -> KL n s la lb lr ->
  trim s a = Ok a -> trim s b = Ok b -> NoSwitch s b b -> trim s r = Ok r' -> Same s r' b -> trim s r = Ok r.
Proof.
  intro r. induction r as [t tx at_ ks IH] using xml_ind'. intros n s a b la lb lr r' W Va Vb Vr Vr' IA IB IR HK Ta Tb Nb T SM.
  set (r := Elem t tx at_ ks) in *. change ks with (xkids r) in IH. rewrite Forall_forall in IH.
  destruct (valid_inv s a Va) as (_ & _ & Ka). destruct (valid_inv s b Vb) as (_ & _ & Kb). destruct (valid_inv s r Vr) as (_ & _ & Kr).
  destruct (valid_inv s r' Vr') as (_ & (lr' & IR') & Kr').
  assert (FA := fix_trimmed s a Ta). assert (FB := fix_trimmed s b Tb).
  apply trimmed_fix. intros c Hc. destruct (Kr c Hc) as (cs & Hs & Vc). assert (Wc := wfs_child s _ cs W Hs).
  destruct (Index_In s _ lr c IR Hc) as (u & Hin). assert (Uc := Index_uid s _ lr u c IR Hin). assert (Tc := Index_tag s _ lr u c IR Hin).
  assert (Hr := Hin). apply (Index_assoc s _ lr u c IR) in Hr.
  exists cs. split; auto.
  assert (HE := proj1 HK u). rewrite Hr in HE.
  inversion HE as [| | n0 s0 l1 l2 ca HY HS XN X0 X1 X2 X3 X4 X5 | n0 s0 l1 l2 oa e cb cs0 H1 H2 H3 HL XN X0 X1 X2 X3 X4 X5]; subst.
  - (* a node of the source *)
    clear HE. symmetry in X3. assert (Ia := X3). apply (Index_assoc s _ la u c IA) in Ia. assert (Hca := Index_kid s _ la u c IA Ia).
    destruct (FA c Hca) as (cs1 & E1 & E2 & E3). assert (cs1 = cs) by congruence. subst cs1. split; auto.
    unfold trim_drops in *. destruct (sty cs) eqn:Et; auto. rewrite <- E3.
    rewrite (leaf_list_values s (xkids r) lr (xtag c) cs), (leaf_list_values s (xkids a) la (xtag c) cs) by auto.
    assert (NB : forall w, In w (uids lb) -> fst w <> xtag c).
    { intros w Hw E. apply assoc_Some_uids in Hw. destruct Hw as (cb & Hw). apply (Index_assoc s _ lb w cb IB) in Hw.
      destruct HS as (v & cv & ea & eb & S1 & S2 & S3 & S4 & S5).
      apply (NoSwitch_here s b b cb cv Nb (Index_kid s _ lb w cb IB Hw) (Index_kid s _ lb v cv IB S1)).
      assert (T' : xtag cb = xtag c) by (rewrite <- (Index_tag s _ lb w cb IB Hw); auto).
      apply (OtherCase_entries s cb cv ea eb); auto. congruence. }
    destruct HK as (HK1 & _ & HK3). destruct (HK3 (xtag c) NB) as (p & Ep). do 2 f_equal. rewrite Ep. apply kept_filter_all. intros w Hw.
    rewrite <- Ep. apply seqt_In in Hw. destruct Hw as [Hw1 Hw2]. apply seqt_In. split; auto.
    assert (Bw : assoc uid_eqb w lb = None) by (apply assoc_not_In; intro Y; exact (NB w Y Hw2)).
    assert (Aw := Hw1). apply assoc_Some_uids in Aw. destruct Aw as (cw & Aw). specialize (HK1 w). rewrite Aw, Bw in HK1.
    destruct (assoc uid_eqb w lr) as [x |] eqn:Rw; [eapply assoc_Some_In_uids; eauto |]. exfalso.
    inversion HK1 as [| n0 s0 l1 l2 ca op HG | |]; subst. destruct HG as [HG | HG]; [exact (HY HG) |]. apply HG.
    apply (Index_assoc s _ la w cw IA) in Aw. assert (Tw : xtag cw = xtag c) by (rewrite <- (Index_tag s _ la w cw IA Aw); auto).
    destruct HS as (v & cv & ea & eb & S1 & S2 & S3 & S4). exists v, cv, ea, eb. rewrite Tw. auto.
  - (* a node of the destination *)
    clear HE. assert (cs0 = cs) by congruence. subst cs0. symmetry in X4. assert (Bb := X4). apply (Index_assoc s _ lb u cb IB) in Bb.
    assert (Hcb := Index_kid s _ lb u cb IB Bb). assert (Tcb := Index_tag s _ lb u cb IB Bb).
    destruct (FB cb Hcb) as (cs1 & E1 & E2 & E3). assert (cs1 = cs) by congruence. subst cs1.
    (* its remainder in the trimmed tree *)
    assert (Sr := Same_assoc s b r' lb lr' u cb (Same_sym _ _ _ SM) IB IR' X4). destruct Sr as (cr & cs1 & R1 & R2 & R3).
    assert (cs1 = cs) by congruence. subst cs1. apply Same_sym in R3.
    apply (Index_assoc s _ lr' u cr IR') in R1. assert (Hcr := Index_kid s _ lr' u cr IR' R1).
    destruct (trim_back s r r' cr T Hcr) as (c0 & Hc0 & cs1 & Q1 & Q2 & Q3).
    assert (Tcr := Index_tag s _ lr' u cr IR' R1). destruct (trim_parts _ _ _ Q2) as (P1 & _).
    assert (cs1 = cs) by congruence. subst cs1.
    assert (c0 = c).
    { destruct (Index_In s _ lr c0 IR Hc0) as (w & Hw). destruct (Kr c0 Hc0) as (cs1 & Y1 & Y2). assert (cs1 = cs) by congruence. subst cs1.
      assert (u = w) by (exact (trim_uid_back s cs c0 cr u w Y1 Y2 Wc Q2 (Index_uid s _ lr w c0 IR Hw) (Index_uid s _ lr' u cr IR' R1))). subst w.
      apply (Index_assoc s _ lr u c0 IR) in Hw. congruence. }
    subst c0.
    assert (TR : trim cs c = Ok c).
    { inversion HL as [? ? ? ? HS | ? ? ? ? HS | ? ? ? ? ? _ HS | ? ? ? ? ? _ HS | n0 cs0 ca e0 cb0 lca lcb lce N TT LD I1 I2 I3 G1 G2 G3 YN Y0 YA]; subst;
        try (apply (trimmed_same c cs cb); auto; fail).
      symmetry in YA. assert (Ia := YA). apply (Index_assoc s _ la u ca IA) in Ia. assert (Hca := Index_kid s _ la u ca IA Ia).
      destruct (FA ca Hca) as (cs1 & F1 & F2 & _). assert (Tca := Index_tag s _ la u ca IA Ia).
      assert (cs1 = cs) by congruence. subst cs1. destruct (Ka ca Hca) as (cs1 & F3 & F4). assert (cs1 = cs) by congruence. subst cs1.
      destruct (Kr' cr Hcr) as (cs1 & F5 & F6). assert (cs1 = cs) by congruence. subst cs1.
      apply (IH c Hc (S n) cs ca cb lca lcb lce cr); auto; [split; auto |].
      apply (Everywhere_down _ s b b u cb cb cs Nb); auto; apply (Index_uid s _ lb u cb IB Bb). }
    split; auto. assert (cr = c) by congruence. subst cr.
    exact Q3.
Qed.

(** ** Along a path *)

(** A node at depth [n] of the source, the destination and the sum; [w] says that it is set
    as a whole or below such a node. *)
Definition Tri (n : nat) (w : Prop) (s : snode) (na nb nr : xml) : Prop :=
  (Same s nr nb /\ (Same s na nb \/ leafish (sty s) = true \/ w)) \/
  (leafish (sty s) = false /\ ~ Here n s (xkids na) (xkids nb) /\
   exists la lb lr, Index s (xkids na) la /\ Index s (xkids nb) lb /\ Index s (xkids nr) lr /\ KL n s la lb lr).

Lemma Tri_weaken : forall n (w w' : Prop) s na nb nr, (w -> w') -> Tri n w s na nb nr -> Tri n w' s na nb nr.
Proof. intros n w w' s na nb nr H [[H1 H2] | H1]; [left; split; auto; tauto | right; exact H1]. Qed.

Lemma Land_Tri : forall n cs ca e cb, valid cs ca = true -> valid cs cb = true -> valid cs e = true -> xtag e = xtag cb ->
  Land n cs (Some ca) e cb -> Tri n (Here n cs (xkids ca) (xkids cb)) cs ca cb e.
Proof.
  intros n cs ca e cb Va Vb Ve Et H.
  inversion H as [| ? ? ? ? HS | ? ? ? ? ? L HS | ? ? ? ? ? LR HS | n0 cs0 ca0 e0 cb0 lca lcb lce N TT LD I1 I2 I3 G1 G2 G3]; subst.
  - left. auto.
  - left. auto.
  - left. auto.
  - destruct LD as [LD | SM].
    + right. split; [destruct (sty cs); auto; discriminate |]. split; [exact LD |]. exists lca, lcb, lce. repeat (split; auto).
    + left. split; auto. apply (KS_good cs cb e lce lcb); auto.
      * apply (valid_text cs e Ve); intro X; rewrite X in N; discriminate.
      * apply (valid_inv cs e Ve).
      * apply (KL_same cs (xkids ca) (xkids cb) (Ok2_same ca cs cb Va Vb SM) n lca lcb lce); auto; [eapply Index_WellId; eauto | split; auto].
Qed.

Lemma kid_At : forall s x u p s' n, valid s x = true -> At s x (u :: p) s' n -> forall lx, Index s (xkids x) lx ->
  exists c cs, assoc uid_eqb u lx = Some c /\ In c (xkids x) /\ schema_child s (xtag c) = Ok cs /\ valid cs c = true /\ uid_of s c = Ok u /\ At cs c p s' n.
Proof.
  intros s x u p s' n V H lx IX. inversion H as [| ? ? c cs ? ? ? ? Hc HD Hid HA]; subst.
  destruct (valid_Ident s x lx c cs u V IX Hc HD Hid) as (Hs & Hv & Hin). exists c, cs.
  split; [apply (Index_assoc s _ lx u c IX); auto |]. split; auto. split; auto. split; auto. split; auto. eapply Index_uid; eauto.
Qed.

Lemma entry_of : forall s l es u c, Index s l es -> assoc uid_eqb u es = Some c -> In c l /\ uid_of s c = Ok u.
Proof. intros s l es u c H E. apply (Index_assoc s _ es u c H) in E. split; [exact (Index_kid s _ es u c H E) | exact (Index_uid s _ es u c H E)]. Qed.

Lemma Tri_kid : forall n w s a b r la lb lr u cb, valid s a = true -> valid s b = true -> valid s r = true ->
  Index s (xkids a) la -> Index s (xkids b) lb -> Index s (xkids r) lr -> Tri n w s a b r -> assoc uid_eqb u lb = Some cb ->
  exists e cs, assoc uid_eqb u lr = Some e /\ schema_child s (xtag e) = Ok cs /\ valid cs e = true /\ valid cs cb = true /\ schema_child s (xtag cb) = Ok cs /\
    match assoc uid_eqb u la with Some ca => schema_child s (xtag ca) = Ok cs /\ valid cs ca = true /\ Tri (S n) (w \/ Here (S n) cs (xkids ca) (xkids cb)) cs ca cb e | None => Same cs e cb end.
Proof.
  intros n w s a b r la lb lr u cb Va Vb Vr IA IB IR HT B.
  assert (KV : forall x lx c, valid s x = true -> Index s (xkids x) lx -> assoc uid_eqb u lx = Some c -> exists cs, schema_child s (fst u) = Ok cs /\ valid cs c = true /\ fst u = xtag c).
  { intros x lx c V IX Hx. apply (Index_assoc s _ lx u c IX) in Hx. destruct (valid_inv s x V) as (_ & _ & K).
    destruct (K c (Index_kid s _ lx u c IX Hx)) as (cs & H1 & H2). assert (T := Index_tag s _ lx u c IX Hx). exists cs. rewrite T. auto. }
  destruct (KV b lb cb Vb IB B) as (cs & B1 & B2 & B3).
  assert (KV' : forall x lx c, valid s x = true -> Index s (xkids x) lx -> assoc uid_eqb u lx = Some c -> schema_child s (xtag c) = Ok cs /\ valid cs c = true).
  { intros x lx c V IX Hx. destruct (KV x lx c V IX Hx) as (cs' & X1 & X2 & X3). assert (cs' = cs) by congruence. subst cs'. split; auto. congruence. }
  destruct HT as [[SR HW] | (L & NH & la0 & lb0 & lr0 & I1 & I2 & I3 & HK)].
  - destruct (Same_assoc s b r lb lr u cb (Same_sym _ _ _ SR) IB IR B) as (e & cs' & H1 & H2 & H3).
    assert (cs' = cs) by congruence. subst cs'. destruct (KV' r lr e Vr IR H1) as [X1 X2].
    apply Same_sym in H3.
    exists e, cs. split; auto. split; auto. split; auto. split; auto. split; [congruence |].
    destruct (assoc uid_eqb u la) as [ca |] eqn:A; [| exact H3].
    destruct (KV' a la ca Va IA A) as [Y1 Y2]. split; auto. split; auto. left. split; auto.
    destruct HW as [SA | [L | HW]]; [| | auto].
    + destruct (Same_assoc s a b la lb u ca SA IA IB A) as (cb' & cs' & Z1 & Z2 & Z3).
      assert (cb' = cb) by congruence. assert (cs' = cs) by congruence. subst. auto.
    + exfalso. apply (Index_assoc s _ lb u cb IB) in B. assert (X := Index_kid s _ lb u cb IB B). rewrite (leafish_kids s b Vb L) in X. destruct X.
  - assert (la0 = la) by (eapply Index_fun; eauto). assert (lb0 = lb) by (eapply Index_fun; eauto). assert (lr0 = lr) by (eapply Index_fun; eauto). subst.
    destruct (KL_in n s la lb lr u cb HK B) as (e & cs' & H1 & H2 & H3 & H4 & H5). destruct (KV' r lr e Vr IR H1) as [X1 X2].
    assert (cs' = cs) by congruence. subst cs'. exists e, cs. split; auto. split; auto. split; auto. split; auto. split; [congruence |].
    destruct (assoc uid_eqb u la) as [ca |] eqn:A; [| inversion H5; subst; auto].
    destruct (KV' a la ca Va IA A). split; auto. split; auto. apply (Tri_weaken (S n) (Here (S n) cs (xkids ca) (xkids cb))); [auto |].
    destruct (KV r lr e Vr IR H1) as (cs1 & _ & _ & T1). apply Land_Tri; auto. congruence.
Qed.

Lemma Tri_value : forall n w s a b r, valid s a = true -> valid s b = true -> valid s r = true -> Tri n w s a b r -> value_of s r = value_of s b.
Proof.
  intros n w s a b r Va Vb Vr HT. unfold value_of.
  destruct HT as [[SR _] | (L & _)].
  - destruct (sty s) eqn:T; auto; apply (Same_text s r b); auto; rewrite T; reflexivity.
  - destruct (sty s); auto; discriminate.
Qed.

(** [Whole] where [a] and [b] have depth [n] *)
Definition WholeN (n : nat) (s : snode) (a b : xml) (p : list uid) : Prop :=
  exists u q r s' na nb, p = (u :: q) ++ r /\ At s a (u :: q) s' na /\ At s b (u :: q) s' nb /\ WholeAt o (n + S (length q)) s' na nb.

Lemma WholeN_here : forall n s a b u ca cb cs p, In ca (xkids a) -> schema_child s (xtag ca) = Ok cs -> uid_of s ca = Ok u ->
  In cb (xkids b) -> schema_child s (xtag cb) = Ok cs -> uid_of s cb = Ok u -> WholeAt o (S n) cs ca cb -> WholeN n s a b (u :: p).
Proof.
  intros n s a b u ca cb cs p A1 A2 A3 B1 B2 B3 H. exists u, [], p, cs, ca, cb. split; auto.
  split; [apply (At_snoc s a u ca cs); auto; constructor |]. split; [apply (At_snoc s b u cb cs); auto; constructor |].
  cbn [length]. rewrite Nat.add_1_r. exact H.
Qed.

Lemma WholeN_down : forall n s a b u ca cb cs p, In ca (xkids a) -> schema_child s (xtag ca) = Ok cs -> uid_of s ca = Ok u ->
  In cb (xkids b) -> schema_child s (xtag cb) = Ok cs -> uid_of s cb = Ok u -> WholeN (S n) cs ca cb p -> WholeN n s a b (u :: p).
Proof.
  intros n s a b u ca cb cs p A1 A2 A3 B1 B2 B3 (v & q & r & s' & na & nb & E & Pa & Pb & H). exists u, (v :: q), r, s', na, nb.
  split; [subst p; reflexivity |]. split; [apply (At_snoc s a u ca cs); auto |]. split; [apply (At_snoc s b u cb cs); auto |].
  cbn [length]. replace (n + S (S (length q))) with (S n + S (length q)) by lia. exact H.
Qed.

Lemma WholeN_up : forall n s a b u p ca cb cs, valid s a = true -> valid s b = true -> In ca (xkids a) -> schema_child s (xtag ca) = Ok cs -> uid_of s ca = Ok u ->
  In cb (xkids b) -> schema_child s (xtag cb) = Ok cs -> uid_of s cb = Ok u -> WholeN n s a b (u :: p) ->
  WholeAt o (S n) cs ca cb \/ WholeN (S n) cs ca cb p.
Proof.
  intros n s a b u p ca cb cs Va Vb A1 A2 A3 B1 B2 B3 (v & q & r & s' & na & nb & E & Pa & Pb & H). injection E as E1 E. subst v.
  destruct (valid_inv s a Va) as (_ & (la & IA) & _). destruct (valid_inv s b Vb) as (_ & (lb & IB) & _).
  assert (KA : forall x lx c, valid s x = true -> Index s (xkids x) lx -> In c (xkids x) -> schema_child s (xtag c) = Ok cs -> uid_of s c = Ok u ->
            forall s1 n1, At s x (u :: q) s1 n1 -> At cs c q s1 n1).
  { intros x lx c Vx IX X1 X2 X3 s1 n1 P. destruct (kid_At s x u q s1 n1 Vx P lx IX) as (c' & cs' & Y1 & Y2 & Y3 & Y4 & Y5 & Y6).
    destruct (Index_In s _ lx c IX X1) as (u' & Hin). assert (U := Index_uid s _ lx u' c IX Hin). assert (u' = u) by congruence. subst u'.
    apply (Index_assoc s _ lx u c IX) in Hin. assert (c' = c) by congruence. subst c'. assert (cs' = cs) by congruence. subst cs'. exact Y6. }
  assert (Qa := KA a la ca Va IA A1 A2 A3 s' na Pa). assert (Qb := KA b lb cb Vb IB B1 B2 B3 s' nb Pb).
  destruct q as [| v q].
  - left. inversion Qa; inversion Qb; subst. cbn [length] in H. rewrite Nat.add_1_r in H. exact H.
  - right. exists v, q, r, s', na, nb. split; [exact E |]. split; auto. split; auto. cbn [length] in H.
    replace (S n + S (length q)) with (n + S (S (length q))) by lia. exact H.
Qed.

Lemma Tri_At : forall p n w s a b r s1 na s2 nb, valid s a = true -> valid s b = true -> valid s r = true -> Tri n w s a b r ->
  At s a p s1 na -> At s b p s2 nb -> exists nr, At s r p s2 nr /\ s1 = s2 /\ Tri (n + length p) (w \/ WholeN n s a b p) s2 na nb nr.
Proof.
  induction p as [| u p IH]; intros n w s a b r s1 na s2 nb Va Vb Vr HT Ha Hb.
  - inversion Ha; inversion Hb; subst. exists r. split; [constructor |]. split; auto. cbn [length]. rewrite Nat.add_0_r.
    apply (Tri_weaken n w); auto.
  - destruct (valid_inv s a Va) as (_ & (la & IA) & _). destruct (valid_inv s b Vb) as (_ & (lb & IB) & _). destruct (valid_inv s r Vr) as (_ & (lr & IR) & _).
    destruct (kid_At s a u p s1 na Va Ha la IA) as (ca & cs1 & A1 & A2 & A3 & A4 & A5 & A6).
    destruct (kid_At s b u p s2 nb Vb Hb lb IB) as (cb & cs2 & B1 & B2 & B3 & B4 & B5 & B6).
    destruct (Tri_kid n w s a b r la lb lr u cb Va Vb Vr IA IB IR HT B1) as (e & cs & E1 & E2 & E3 & E4 & E5 & E6).
    rewrite A1 in E6. destruct E6 as (E6 & E7 & E8). assert (cs1 = cs) by congruence. assert (cs2 = cs) by congruence. subst.
    destruct (IH (S n) _ cs ca cb e s1 na s2 nb E7 E4 E3 E8 A6 B6) as (nr & N1 & N2 & N3). exists nr.
    destruct (entry_of s _ lr u e IR E1) as [Y1 Y2]. split; [apply (At_snoc s r u e cs); auto |]. split; auto.
    cbn [length]. replace (n + S (length p)) with (S n + length p) by lia. revert N3. apply Tri_weaken.
    intros [[X | X] | X]; [left; exact X | right | right].
    + apply (WholeN_here n s a b u ca cb cs p); auto. apply Here_iff; auto.
    + apply (WholeN_down n s a b u ca cb cs p); auto.
Qed.

Lemma Holds_down : forall s x u c cs p v, In c (xkids x) -> schema_child s (xtag c) = Ok cs -> uid_of s c = Ok u -> Holds cs c p v -> Holds s x (u :: p) v.
Proof. intros s x u c cs p v H1 H2 H3 (s' & n & HA & HV). exists s', n. split; auto. apply (At_snoc s x u c cs); auto. Qed.

Lemma Tri_data : forall p n w s a b r v, valid s a = true -> valid s b = true -> valid s r = true -> Tri n w s a b r -> Holds s b p v -> Holds s r p v.
Proof.
  induction p as [| u p IH]; intros k w s a b r v Va Vb Vr HT (s' & n & HA & HV).
  - inversion HA; subst. exists s', r. split; [constructor |]. apply (Tri_value k w s' a n r); auto.
  - destruct (valid_inv s a Va) as (_ & (la & IA) & _). destruct (valid_inv s b Vb) as (_ & (lb & IB) & _). destruct (valid_inv s r Vr) as (_ & (lr & IR) & _).
    destruct (kid_At s b u p s' n Vb HA lb IB) as (cb & cs2 & B1 & B2 & B3 & B4 & B5 & B6).
    destruct (Tri_kid k w s a b r la lb lr u cb Va Vb Vr IA IB IR HT B1) as (e & cs & E1 & E2 & E3 & E4 & E5 & E6).
    assert (cs2 = cs) by congruence. subst cs2.
    destruct (entry_of s _ lr u e IR E1) as [Y1 Y2]. apply (Holds_down s r u e cs p v); auto.
    assert (HB : Holds cs cb p v) by (exists s', n; auto).
    destruct (assoc uid_eqb u la) as [ca |].
    + destruct E6 as (E6 & E7 & E8). apply (IH _ _ cs ca cb e v E7 E4 E3 E8); auto.
    + apply (Same_SameData cs e cb); auto.
Qed.

Lemma Tri_only : forall p n w s a b r v, valid s a = true -> valid s b = true -> valid s r = true -> Tri n w s a b r -> Holds s r p v -> Holds s b p v \/ Holds s a p v.
Proof.
  induction p as [| u p IH]; intros k w s a b r v Va Vb Vr HT (s' & n & HA & HV).
  - inversion HA; subst. left. exists s', b. split; [constructor |]. symmetry. apply (Tri_value k w s' a b n); auto.
  - destruct (valid_inv s a Va) as (_ & (la & IA) & _). destruct (valid_inv s b Vb) as (_ & (lb & IB) & _). destruct (valid_inv s r Vr) as (_ & (lr & IR) & _).
    destruct (kid_At s r u p s' n Vr HA lr IR) as (e & cs2 & B1 & B2 & B3 & B4 & B5 & B6).
    assert (HB : Holds cs2 e p v) by (exists s', n; auto).
    destruct (assoc uid_eqb u lb) as [cb |] eqn:B.
    + destruct (Tri_kid k w s a b r la lb lr u cb Va Vb Vr IA IB IR HT B) as (e' & cs & E1 & E2 & E3 & E4 & E5 & E6).
      assert (e' = e) by congruence. subst e'. assert (cs2 = cs) by congruence. subst cs2.
      assert (DB : Holds cs cb p v -> Holds s b (u :: p) v).
      { intro X. destruct (entry_of s _ lb u cb IB B) as [Y1 Y2]. apply (Holds_down s b u cb cs p v); auto. }
      destruct (assoc uid_eqb u la) as [ca |] eqn:A.
      * destruct E6 as (E6 & E7 & E8). destruct (IH _ _ cs ca cb e v E7 E4 E3 E8) as [X | X]; auto. right.
        destruct (entry_of s _ la u ca IA A) as [Y1 Y2]. apply (Holds_down s a u ca cs p v); auto.
      * left. apply DB. apply (Same_SameData cs e cb); auto.
    + right. destruct HT as [[SR _] | (L & NH & la0 & lb0 & lr0 & I1 & I2 & I3 & HK)].
      * exfalso. destruct (Same_assoc s r b lr lb u e SR IR IB B1) as (cb & _ & X & _). congruence.
      * assert (la0 = la) by (eapply Index_fun; eauto). assert (lb0 = lb) by (eapply Index_fun; eauto). assert (lr0 = lr) by (eapply Index_fun; eauto). subst.
        destruct HK as [HK _]. specialize (HK u). rewrite B, B1 in HK. inversion HK as [| | n0 s0 l1 l2 ca HY HS XN X0 X1 X2 X3 X4 X5 |]; subst.
        symmetry in X3. apply (Index_assoc s _ la u e IA) in X3. apply (Holds_down s a u e cs2 p (value_of s' n)); auto. eapply Index_kid; eauto.
Qed.

Lemma UserOrder_down : forall s x u c cs p t us, In c (xkids x) -> schema_child s (xtag c) = Ok cs -> uid_of s c = Ok u -> UserOrder cs c p t us -> UserOrder s x (u :: p) t us.
Proof. intros s x u c cs p t us H1 H2 H3 (s' & n & ts & HA & R). exists s', n, ts. split; auto. apply (At_snoc s x u c cs); auto. Qed.

Lemma Same_UserOrder : forall s x y p t us, valid s x = true -> valid s y = true -> Same s x y -> UserOrder s y p t us -> UserOrder s x p t us.
Proof.
  intros s x y p t us Vx Vy S U. assert (D := Same_SameData s x y Vx Vy S). destruct D as [D1 D2]. assert (U' := U). destruct U as (s' & n & ts & HA & D & Ut & Ty & O).
  destruct (proj2 (D1 p (value_of s' n))) as (s2 & n2 & HA2 & _); [exists s', n; auto |].
  assert (s2 = s') by (exact (At_schema p s x y s2 n2 s' n Vx Vy HA2 HA)). subst s2.
  assert (V2 := At_valid p s x s' n2 Vx HA2). destruct (valid_inv s' n2 V2) as (_ & (l2 & I2) & _).
  assert (UX : UserOrder s x p t (seqt t l2)).
  { exists s', n2, ts. split; auto. split; auto. split; auto. split; auto. apply (seqt_Order s' n2 l2 t); auto. }
  rewrite <- (D2 p t _ _ UX U'). exact UX.
Qed.

Lemma Tri_new : forall p n w s a b r t us, valid s a = true -> valid s b = true -> valid s r = true -> Tri n w s a b r ->
  ~ Present s a p -> UserOrder s b p t us -> UserOrder s r p t us.
Proof.
  induction p as [| u p IH]; intros k w s a b r t us Va Vb Vr HT NP U.
  - exfalso. apply NP. exists s, a. constructor.
  - assert (U0 := U). destruct U as (s' & n & ts & HA & D & Ut & Ty & O).
    destruct (valid_inv s a Va) as (_ & (la & IA) & _). destruct (valid_inv s b Vb) as (_ & (lb & IB) & _). destruct (valid_inv s r Vr) as (_ & (lr & IR) & _).
    destruct (kid_At s b u p s' n Vb HA lb IB) as (cb & cs2 & B1 & B2 & B3 & B4 & B5 & B6).
    destruct (Tri_kid k w s a b r la lb lr u cb Va Vb Vr IA IB IR HT B1) as (e & cs & E1 & E2 & E3 & E4 & E5 & E6).
    assert (cs2 = cs) by congruence. subst cs2.
    assert (UB : UserOrder cs cb p t us) by (exists s', n, ts; auto).
    destruct (entry_of s _ lr u e IR E1) as [Y1 Y2]. apply (UserOrder_down s r u e cs p t us); auto.
    destruct (assoc uid_eqb u la) as [ca |] eqn:A.
    + destruct E6 as (E6 & E7 & E8). destruct (entry_of s _ la u ca IA A) as [Z1 Z2]. apply (IH _ _ cs ca cb e t us E7 E4 E3 E8); auto.
      intros (s1 & n1 & X). apply NP. exists s1, n1. apply (At_snoc s a u ca cs); auto.
    + apply (Same_UserOrder cs e cb); auto.
Qed.

Lemma among_all : forall us vs, (forall u, In u us -> In u vs) -> filter (among vs) us = us.
Proof. intros us vs H. apply filter_all. intros u Hu. apply among_iff. auto. Qed.

Lemma Tri_order : forall n (w : Prop) s a b r t cs us vs ws, valid s a = true -> valid s b = true -> valid s r = true -> Tri n w s a b r -> ~ w ->
  Defines s t cs -> s_user (si cs) = true -> Order s t (xkids a) us -> Order s t (xkids b) vs -> Order s t (xkids r) ws ->
  filter (among vs) ws = replay us vs.
Proof.
  intros k W s a b r t cs us vs ws Va Vb Vr HT NW D U Oa Ob Or.
  destruct (valid_inv s a Va) as (_ & (la & IA) & _). destruct (valid_inv s b Vb) as (_ & (lb & IB) & _). destruct (valid_inv s r Vr) as (_ & (lr & IR) & _).
  apply (Order_seqt s a la t us cs Va IA D) in Oa. apply (Order_seqt s b lb t vs cs Vb IB D) in Ob. apply (Order_seqt s r lr t ws cs Vr IR D) in Or. subst us vs ws.
  assert (Nb : NoDup (seqt t lb)) by (apply seqt_NoDup; apply IB). assert (Na : NoDup (seqt t la)) by (apply seqt_NoDup; apply IA).
  (* without an entry there is nothing to order *)
  destruct (list_eq_dec uid_dec (seqt t lb) []) as [E | NE].
  { rewrite E. unfold replay. simpl. assert (F : forall l : list uid, filter (among []) l = []) by (intro l; apply filter_none; auto).
    rewrite !F. reflexivity. }
  assert (Hs : schema_child s t = Ok cs).
  { destruct (seqt t lb) as [| w q] eqn:Q; [contradiction |]. assert (X : In w (seqt t lb)) by (rewrite Q; left; auto).
    apply seqt_In in X. destruct X as [X1 X2]. apply assoc_Some_uids in X1. destruct X1 as (c & X1). apply (Index_assoc s _ lb w c IB) in X1.
    destruct (valid_inv s b Vb) as (_ & _ & K). destruct (K c (Index_kid s _ lb w c IB X1)) as (cs' & S1 & _).
    assert (T := Index_tag s _ lb w c IB X1). rewrite <- T, X2 in S1. rewrite (Defines_schema_child s t cs' cs S1 D). exact S1. }
  destruct (is_user_seq cs) eqn:Us.
  - destruct HT as [[SR [SA | [L | HW]]] | (L & NH & la0 & lb0 & lr0 & I1 & I2 & I3 & HK)]; [| | contradiction |].
    + rewrite (Same_seqt s a b la lb t cs SA IA IB Hs Us), (Same_seqt s r b lr lb t cs SR IR IB Hs Us). rewrite (kept_replay (seqt t lb) (seqt t lb)) by (auto; intros u v X _ _; exact X). apply among_all. auto.
    + exfalso. apply NE. rewrite (leafish_kids s b Vb L) in IB. apply Index_nil_inv in IB. subst lb. reflexivity.
    + assert (la0 = la) by (eapply Index_fun; eauto). assert (lb0 = lb) by (eapply Index_fun; eauto). assert (lr0 = lr) by (eapply Index_fun; eauto). subst.
      destruct HK as (HK1 & HK2 & _). rewrite <- (HK2 t cs Hs Us). apply filter_ext_in. intros w Hw. apply seqt_In in Hw. destruct Hw as [_ Hw].
      destruct (mem uid_eqb w (uids lb)) eqn:M.
      * apply among_iff. apply seqt_In. split; auto. apply (mem_In uid_eqb uid_eqb_ok). auto.
      * apply among_not. intro X. apply seqt_In in X. destruct X as [X _]. apply (mem_In uid_eqb uid_eqb_ok) in X. congruence.
  - (* one node at most *)
    assert (G : forall x lx, Index s (xkids x) lx -> forall w, In w (seqt t lx) -> w = (t, KNone)).
    { intros x lx IX w Hw. apply seqt_In in Hw. destruct Hw as [X1 X2]. apply assoc_Some_uids in X1. destruct X1 as (c & X1).
      destruct (entry_of s _ lx w c IX X1) as [_ Y]. assert (T := uid_tag s c w Y). rewrite (uid_other s c cs) in Y.
      - inversion Y. congruence.
      - congruence.
      - intro X. assert (is_user_seq cs = true) by (apply is_user_seq_iff; auto). congruence.
      - intro X. assert (is_user_seq cs = true) by (apply is_user_seq_iff; auto). congruence. }
    assert (SG : forall l, NoDup l -> (forall w, In w l -> w = (t, KNone)) -> In (t, KNone) l -> l = [(t, KNone)]).
    { clear. intros l ND H I. destruct l as [| x [| y q]]; [destruct I | rewrite (H x (or_introl eq_refl)); auto |]. exfalso.
      inversion ND; subst. apply H2. left. rewrite (H x (or_introl eq_refl)), (H y (or_intror (or_introl eq_refl))). auto. }
    assert (I0 : In (t, KNone) (seqt t lb)).
    { destruct (seqt t lb) as [| w q] eqn:Q; [contradiction |]. rewrite <- (G b lb IB w); [left; auto | rewrite Q; left; auto]. }
    assert (I1 : In (t, KNone) (seqt t lr)).
    { apply seqt_In in I0. destruct I0 as [X1 X2]. apply assoc_Some_uids in X1. destruct X1 as (cb & X1). apply seqt_In. split; auto.
      destruct (Tri_kid k W s a b r la lb lr _ cb Va Vb Vr IA IB IR HT X1) as (e & _ & E & _). eapply assoc_Some_In_uids; eauto. }
    rewrite (SG (seqt t lb)), (SG (seqt t lr)); auto; try (eapply G; eauto; fail); [| apply seqt_NoDup; apply IR].
    rewrite kept_replay; auto; [simpl; rewrite uid_eqb_refl; reflexivity | repeat constructor; intros [] |].
    intros u v P [Hu | []] [Hv | []]. subst u v. exfalso. exact (before_neq _ _ _ Na P eq_refl).
Qed.

Lemma HasKid_assoc : forall s x lx u, valid s x = true -> Index s (xkids x) lx -> (HasKid s x u <-> In u (uids lx)).
Proof.
  intros s x lx u V IX. split.
  - intros (c & cs & H1 & H2 & H3). destruct (valid_Ident s x lx c cs u V IX H1 H2 H3) as (_ & _ & Hin). apply (in_map fst) in Hin. exact Hin.
  - intro H. apply assoc_Some_uids in H. destruct H as (c & H). destruct (entry_of s _ lx u c IX H) as [H1 H2].
    destruct (valid_inv s x V) as (_ & _ & K). destruct (K c H1) as (cs & H3 & _). exists c, cs. split; auto.
    split; [apply schema_child_Defines; auto | apply (Ident_uid s); auto].
Qed.

Lemma Tri_left : forall n (w : Prop) s a b r c cs u, valid s a = true -> valid s b = true -> valid s r = true -> Tri n w s a b r -> ~ w ->
  (forall x y, In x (xkids a) -> In y (xkids a) -> ~ OtherCase s x y) ->
  Defines s (xtag c) cs -> Ident cs c u -> ~ HasKid s b u ->
  (In c (xkids r) <-> In c (xkids a) /\ ~ ReplLevel o n /\ exists cb, In cb (xkids b) /\ OtherCase s c cb).
Proof.
  intros k W s a b r c cs u Va Vb Vr HT NW Na D Id NB.
  destruct (valid_inv s a Va) as (_ & (la & IA) & _). destruct (valid_inv s b Vb) as (_ & (lb & IB) & _). destruct (valid_inv s r Vr) as (_ & (lr & IR) & _).
  assert (B : assoc uid_eqb u lb = None) by (apply assoc_not_In; intro X; apply NB; apply (HasKid_assoc s b lb); auto).
  assert (F : forall x lx, valid s x = true -> Index s (xkids x) lx -> (In c (xkids x) -> assoc uid_eqb u lx = Some c)).
  { intros x lx V IX H. destruct (valid_Ident s x lx c cs u V IX H D Id) as (_ & _ & Hin). apply (Index_assoc s _ lx u c IX). auto. }
  assert (FS : forall x lx, valid s x = true -> Index s (xkids x) lx -> Same s x b -> ~ In c (xkids x)).
  { intros x lx V IX SX H. apply (F x lx V IX) in H. destruct (Same_assoc s x b lx lb u c SX IX IB H) as (cb & _ & H1 & _). congruence. }
  destruct HT as [[SR [SA | [L | HW]]] | (L & NH & la0 & lb0 & lr0 & I1 & I2 & I3 & HK)]; [| | contradiction |].
  - assert (X1 := FS a la Va IA SA). assert (X2 := FS r lr Vr IR SR). tauto.
  - rewrite (leafish_kids s a Va L), (leafish_kids s r Vr L). simpl. tauto.
  - assert (la0 = la) by (eapply Index_fun; eauto). assert (lb0 = lb) by (eapply Index_fun; eauto). assert (lr0 = lr) by (eapply Index_fun; eauto). subst.
    destruct HK as [HK _]. specialize (HK u). rewrite B in HK. split.
    + intro H. apply (F r lr Vr IR) in H. rewrite H in HK. inversion HK as [| | n0 s0 l1 l2 ca HY HS XN X0 X1 X2 X3 X4 X5 |]; subst.
      symmetry in X3. destruct (entry_of s _ la u c IA X3) as [Hc _]. split; auto. split; [exact HY |]. apply (Suppressed_other s a b la lb c); auto.
    + intros (H & NR & HO). assert (A := F a la Va IA H). rewrite A in HK. apply (Suppressed_other s a b la lb c Vb IB H Va IA Na) in HO.
      destruct (assoc uid_eqb u lr) as [e |] eqn:R.
      * inversion HK as [| | n0 s0 l1 l2 ca HY HS XN X0 X1 X2 X3 X4 X5 |]; subst. destruct (entry_of s _ lr u e IR R). auto.
      * inversion HK as [| n0 s0 l1 l2 ca op HG | |]; subst. destruct HG; contradiction.
Qed.

Lemma At_app : forall p q s x s1 n1 s2 n2, At s x p s1 n1 -> At s1 n1 q s2 n2 -> At s x (p ++ q) s2 n2.
Proof. intros p q s x s1 n1 s2 n2 H. induction H; intros; simpl; auto. econstructor; eauto. Qed.

Lemma At_split : forall p q s x s2 n2, At s x (p ++ q) s2 n2 -> exists s1 n1, At s x p s1 n1 /\ At s1 n1 q s2 n2.
Proof.
  induction p as [| u p IH]; intros q s x s2 n2 H; simpl in H.
  - exists s, x. split; auto. constructor.
  - inversion H as [| ? ? c cs ? ? ? ? Hc HD Hid HA]; subst. destruct (IH q cs c s2 n2 HA) as (s1 & n1 & H1 & H2).
    exists s1, n1. split; auto. econstructor; eauto.
Qed.

Lemma single_replay : forall s a b t cs us vs, valid s a = true -> Defines s t cs -> is_user_seq cs = false -> s_user (si cs) = true ->
  Order s t (xkids a) us -> Order s t (xkids b) vs -> valid s b = true -> replay us vs = vs.
Proof.
  intros s a b t cs us vs Va D Us U Oa Ob Vb.
  assert (Na := Order_NoDup s a t cs us Va D Oa). assert (Nb := Order_NoDup s b t cs vs Vb D Ob).
  assert (G : forall w, In w vs -> w = (t, KNone)).
  { destruct (valid_inv s b Vb) as (_ & _ & K). revert K. clear - D Us U Ob. induction Ob as [| c cs' u l us E D' Id O IH | c l us E O IH]; intros K w Hw; [destruct Hw | |].
    - destruct (K c (or_introl eq_refl)) as (cs1 & S1 & _). rewrite E in S1.
      assert (cs' = cs1) by (eapply Defines_schema_child; eauto). assert (cs = cs1) by (eapply Defines_schema_child; eauto). subst cs' cs1.
      destruct Hw as [Hw | Hw]; [| apply IH; auto; intros c' Hc'; apply K; right; auto]. subst w.
      inversion Id as [T | ts T _ | T1 T2]; [| | congruence]; exfalso; assert (X : is_user_seq cs = true) by (apply is_user_seq_iff; auto); congruence.
    - apply IH; auto. intros c' Hc'. apply K. right. auto. }
  apply kept_replay; auto. intros u v P Hu Hv. exfalso. apply (before_neq u v us Na P). rewrite (G u Hu), (G v Hv). auto.
Qed.

Lemma Holds_at : forall s x p s' n q v, valid s x = true -> At s x p s' n -> (Holds s x (p ++ q) v <-> Holds s' n q v).
Proof.
  intros s x p s' n q v V A. split.
  - intros (s2 & n2 & P & E). apply At_split in P. destruct P as (s1 & n1 & P1 & P2). destruct (At_fun p s x s1 n1 s' n V P1 A). subst. exists s2, n2. auto.
  - intros (s2 & n2 & P & E). exists s2, n2. split; auto. apply (At_app p q s x s' n); auto.
Qed.

Lemma UserOrder_at : forall s x p s' n q t us, valid s x = true -> At s x p s' n -> (UserOrder s x (p ++ q) t us <-> UserOrder s' n q t us).
Proof.
  intros s x p s' n q t us V A. split.
  - intros (s2 & n2 & ts & P & E). apply At_split in P. destruct P as (s1 & n1 & P1 & P2). destruct (At_fun p s x s1 n1 s' n V P1 A). subst. exists s2, n2, ts. auto.
  - intros (s2 & n2 & ts & P & E). exists s2, n2, ts. split; auto. apply (At_app p q s x s' n); auto.
Qed.

Theorem Tri_Landing : forall s a b r, valid s a = true -> valid s b = true -> valid s r = true -> Tri 0 False s a b r -> NoSwitch s a a -> Landing o s a b r.
Proof.
  intros s a b r Va Vb Vr HT Na. constructor.
  - intros p v. apply (Tri_data p 0 False s a b r); auto.
  - intros p v. apply (Tri_only p 0 False s a b r); auto.
  - intros p s' na nb nr t cs us vs ws Pa Pb Pr NW. destruct (Tri_At p 0 False s a b r s' na s' nb Va Vb Vr HT Pa Pb) as (nr' & N1 & _ & N3).
    destruct (At_fun p s r s' nr s' nr' Vr Pr N1) as [_ E]. subst nr'.
    apply (Tri_order _ _ s' na nb nr t cs us vs ws (At_valid p s a _ _ Va Pa) (At_valid p s b _ _ Vb Pb) (At_valid p s r _ _ Vr Pr) N3).
    intros [[] | X]. exact (NW X).
  - intros p t us. apply (Tri_new p 0 False s a b r); auto.
  - intros p s' na nb nr c cs u Pa Pb Pr NW. destruct (Tri_At p 0 False s a b r s' na s' nb Va Vb Vr HT Pa Pb) as (nr' & N1 & _ & N3).
    destruct (At_fun p s r s' nr s' nr' Vr Pr N1) as [_ E]. subst nr'.
    apply (Tri_left _ _ s' na nb nr c cs u (At_valid p s a _ _ Va Pa) (At_valid p s b _ _ Vb Pb) (At_valid p s r _ _ Vr Pr) N3).
    + intros [[] | X]. exact (NW X).
    + intros x y Hx Hy. apply (NoSwitch_at s a a p s' na na x y Na); auto.
  - intros p (u & q & r' & s' & na & nb & E & Pa & Pb & HW).
    destruct (Tri_At (u :: q) 0 False s a b r s' na s' nb Va Vb Vr HT Pa Pb) as (nr & N1 & _ & N3).
    assert (Vna := At_valid _ s a _ _ Va Pa). assert (Vnb := At_valid _ s b _ _ Vb Pb). assert (Vnr := At_valid _ s r _ _ Vr N1).
    assert (SM : Same s' nr nb).
    { destruct N3 as [[SM _] | (_ & NH & _)]; [exact SM |]. exfalso. apply NH. apply Here_iff; auto. }
    subst p. destruct (Same_SameData s' nr nb Vnr Vnb SM) as [D1 D2]. split.
    + intro v. rewrite (Holds_at s r (u :: q) s' nr r' v Vr N1), (Holds_at s b (u :: q) s' nb r' v Vb Pb). apply D1.
    + intros t us. rewrite (UserOrder_at s r (u :: q) s' nr r' t us Vr N1), (UserOrder_at s b (u :: q) s' nb r' t us Vb Pb).
      split; intro X; [apply (Same_UserOrder s' nb nr) | apply (Same_UserOrder s' nr nb)]; auto using Same_sym.
Qed.

Lemma root_Tri : forall s a b r la lb lr, sty s = TRoot -> valid s a = true -> valid s b = true -> RootKept o s a b ->
  Index s (xkids a) la -> Index s (xkids b) lb -> Index s (xkids r) lr -> KL 0 s la lb lr -> Tri 0 False s a b r.
Proof.
  intros s a b r la lb lr R Va Vb RK IA IB IR HK. right. split; [rewrite R; reflexivity |]. split; [| exists la, lb, lr; auto].
  rewrite (Here_iff 0 s a b Va Vb). intros [(m & E & _) | (X1 & X2 & X3)]; [discriminate |].
  destruct RK as [RK | [RK | RK]]; [congruence | exact (X1 RK) | exact (X3 RK)].
Qed.

(** ** The sum of configs *)
Theorem landing : forall s a b, wfs s = true -> sty s = TRoot -> IsConfig s a -> IsConfig s b ->
  orderable s a = true -> orderable s b = true -> NoSwitch s a a -> NoSwitch s b b -> RootKept o s a b ->
  exists d r, delta_nc s (Delta a b o) = Ok d /\ nc_add s a d = Ok r /\ valid s r = true /\ Landing o s a b r /\
    config_add_delta s a (Delta a b o) = trim s r.
Proof.
  intros s a b W R (Va & Ta & Na) (Vb & Tb & Nb) Oa Ob Sa Sb RK.
  destruct (sum_lands s a b) as (d & r & la & lb & lr & D1 & D2 & R1 & R2 & R3 & IA & IB & IR & HK); auto.
  exists d, r. split; [exact D1 |]. split; auto. split; auto. split.
  - apply Tri_Landing; auto. apply (root_Tri s a b r la lb lr); auto.
  - unfold config_add_delta, delta_nc, config_add, config_new. cbn [d_opts d_dst d_src]. rewrite D1. cbn [bind]. rewrite R1. cbn [bind].
    rewrite (retrieve_valid s r R R3) by congruence. destruct (trim s r); reflexivity.
Qed.

(** ** Pairs that fit *)
Definition FitsN (n : nat) (s : snode) (a b : xml) : Prop :=
  forall p s' na nb, At s a p s' na -> At s b p s' nb -> ~ WholeN n s a b p ->
    (forall t cs us vs, Defines s' t cs -> s_user (si cs) = true ->
       Order s' t (xkids na) us -> Order s' t (xkids nb) vs -> replay us vs = vs) /\
    (~ ReplLevel o (n + length p) -> forall ca cb, In ca (xkids na) -> In cb (xkids nb) -> ~ OtherCase s' ca cb).

Lemma WholeN_nil : forall n s a b, ~ WholeN n s a b [].
Proof. intros n s a b (u & q & r & s' & na & nb & E & _). discriminate. Qed.

Lemma FitsN_down : forall n s a b u ca cb cs, valid s a = true -> valid s b = true -> FitsN n s a b ->
  In ca (xkids a) -> schema_child s (xtag ca) = Ok cs -> uid_of s ca = Ok u ->
  In cb (xkids b) -> schema_child s (xtag cb) = Ok cs -> uid_of s cb = Ok u -> ~ WholeAt o (S n) cs ca cb -> FitsN (S n) cs ca cb.
Proof.
  intros n s a b u ca cb cs Va Vb F A1 A2 A3 B1 B2 B3 NW p s' na nb Pa Pb NP.
  destruct (F (u :: p) s' na nb) as [F1 F2].
  - apply (At_snoc s a u ca cs); auto.
  - apply (At_snoc s b u cb cs); auto.
  - intro X. destruct (WholeN_up n s a b u p ca cb cs Va Vb A1 A2 A3 B1 B2 B3 X); auto.
  - split; [exact F1 |]. cbn [length] in F2. replace (S n + length p) with (n + S (length p)) by lia. exact F2.
Qed.

Theorem Tri_fits : forall r n w s a b, valid s a = true -> valid s b = true -> valid s r = true -> xtag r = xtag b -> Tri n w s a b r ->
  NoSwitch s a a -> FitsN n s a b -> Same s r b.
Proof.
  intro r. induction r as [t tx at_ ks IH] using xml_ind'. intros n w s a b Va Vb Vr Et HT Na F.
  set (r := Elem t tx at_ ks) in *. change ks with (xkids r) in IH. rewrite Forall_forall in IH.
  destruct HT as [[SM _] | (L & NH & la & lb & lr & IA & IB & IR & HK)]; [exact SM |].
  destruct (valid_inv s a Va) as (_ & _ & Ka). destruct (valid_inv s b Vb) as (Ab & _ & Kb). destruct (valid_inv s r Vr) as (Ar & _ & Kr).
  destruct (F [] s a b (at_here s a) (at_here s b) (WholeN_nil n s a b)) as [F1 F2]. cbn [length] in F2. rewrite Nat.add_0_r in F2.
  assert (K : forall u, match assoc uid_eqb u lr, assoc uid_eqb u lb with
             | None, None => True | Some e, Some cb => exists cs, schema_child s (xtag e) = Ok cs /\ Same cs e cb | _, _ => False end).
  { intro u. destruct (assoc uid_eqb u lb) as [cb |] eqn:B.
    - assert (HT : Tri n w s a b r) by (right; split; auto; split; auto; exists la, lb, lr; auto).
      destruct (Tri_kid n w s a b r la lb lr u cb Va Vb Vr IA IB IR HT B) as (e & cs & E1 & E2 & E3 & E4 & E5 & E6).
      rewrite E1. exists cs. split; auto. destruct (entry_of s _ lr u e IR E1) as [Y1 Y2]. destruct (entry_of s _ lb u cb IB B) as [X1 X2].
      destruct (assoc uid_eqb u la) as [ca |] eqn:A; [| exact E6]. destruct E6 as (E6 & E7 & E8). destruct (entry_of s _ la u ca IA A) as [Z1 Z2].
      assert (HT' := E8). destruct HT' as [[SM _] | (_ & NH' & _)]; [exact SM |]. rewrite (Here_iff (S n) cs ca cb E7 E4) in NH'.
      apply (IH e Y1 (S n) _ cs ca cb E7 E4 E3) in E8; auto.
      + rewrite <- (uid_tag s e u Y2). apply (uid_tag s cb u X2).
      + apply (Everywhere_down _ s a a u ca ca cs Na); auto.
      + apply (FitsN_down n s a b u ca cb cs Va Vb F); auto.
    - destruct (assoc uid_eqb u lr) as [e |] eqn:R; auto. destruct HK as [HK _]. specialize (HK u). rewrite B, R in HK.
      inversion HK as [| | n0 s0 l1 l2 ca HY HS XN X0 X1 X2 X3 X4 X5 |]; subst. symmetry in X3.
      destruct (entry_of s _ la u e IA X3) as [Z1 Z2].
      assert (SO := Suppressed_other s a b la lb e Vb IB Z1 Va IA (fun x y => NoSwitch_here s a a x y Na)).
      apply SO in HS. destruct HS as (cb & H1 & H2). exact (F2 HY e cb Z1 H1 H2). }
  apply (Same_intro s r b lr lb); auto.
  - apply (valid_text s r Vr); intro X; rewrite X in L; discriminate.
  - apply (valid_text s b Vb); intro X; rewrite X in L; discriminate.
  - intros t' cs Hs U. destruct HK as (_ & HO & _).
    assert (U' := U). apply is_user_seq_iff in U'. destruct U' as [U' _].
    rewrite <- (F1 t' cs (seqt t' la) (seqt t' lb) (schema_child_Defines s t' cs Hs) U' (seqt_Order s a la t' Va IA) (seqt_Order s b lb t' Vb IB)).
    rewrite <- (HO t' cs Hs U). symmetry. apply filter_all. intros v Hv. apply seqt_In in Hv.
    destruct Hv as [Hv _]. apply (mem_In uid_eqb uid_eqb_ok). apply assoc_Some_uids in Hv. destruct Hv as (e & He).
    specialize (K v). rewrite He in K. destruct (assoc uid_eqb v lb) eqn:B; [| contradiction].
    eapply assoc_Some_In_uids; eauto.
Qed.

Lemma Landing_exact : forall s a b r, valid s a = true -> valid s b = true -> valid s r = true -> Landing o s a b r -> SameData s r b ->
  NoSwitch s b b -> Fits o s a b.
Proof.
  intros s a b r Va Vb Vr HL [D1 D2] Nb.
  assert (Pr' : forall p s' nb, At s b p s' nb -> exists nr, At s r p s' nr).
  { intros p s' nb Pb. destruct (proj2 (D1 p (value_of s' nb))) as (s2 & nr & Pr & _); [exists s', nb; auto |].
    assert (s2 = s') by (exact (At_schema p s r b s2 nr s' nb Vr Vb Pr Pb)). subst s2. eauto. }
  intros p s' na nb Pa Pb NW. split.
  - intros t cs us vs D U Oa Ob.
    destruct (Pr' p s' nb Pb) as (nr & Pr).
    assert (Vnr := At_valid p s r s' nr Vr Pr). assert (Vnb := At_valid p s b s' nb Vb Pb). assert (Vna := At_valid p s a s' na Va Pa).
    destruct (is_user_seq cs) eqn:Us; [| apply (single_replay s' na nb t cs us vs); auto].
    destruct (valid_inv s' nr Vnr) as (_ & (lr & IR) & _).
    assert (Or := seqt_Order s' nr lr t Vnr IR).
    rewrite <- (ld_order o s a b r HL p s' na nb nr t cs us vs (seqt t lr) Pa Pb Pr NW D U Oa Ob Or).
    apply is_user_seq_iff in Us. destruct Us as [_ Us].
    rewrite (D2 p t (seqt t lr) vs); [apply among_all; auto | exists s', nr, cs; auto | exists s', nb, cs; auto].
  - intros NR ca cb Ha Hb OC.
    destruct (Pr' p s' nb Pb) as (nr & Pr).
    assert (Vnr := At_valid p s r s' nr Vr Pr). assert (Vnb := At_valid p s b s' nb Vb Pb). assert (Vna := At_valid p s a s' na Va Pa).
    destruct (valid_inv s' na Vna) as (_ & (la & IA) & Ka). destruct (Index_In s' _ la ca IA Ha) as (u & Hu). assert (Ua := Index_uid s' _ la u ca IA Hu).
    destruct (Ka ca Ha) as (cs & Hs & _). assert (Id := Ident_uid s' ca cs u Hs Ua). assert (D := schema_child_Defines s' _ cs Hs).
    assert (NB : ~ HasKid s' nb u).
    { intros (c & cs' & H1 & H2 & H3). assert (T : xtag c = xtag ca) by (inversion H3; inversion Id; congruence).
      apply (NoSwitch_at s b b p s' nb nb c cb Nb Pb Pb H1 Hb). apply (OtherCase_tag s' ca c cb OC T). }
    assert (Hr : In ca (xkids nr)).
    { apply (ld_left o s a b r HL p s' na nb nr ca cs u); auto. split; auto. split; auto. exists cb. auto. }
    destruct (proj1 (D1 (p ++ [u]) (value_of cs ca))) as (s2 & n2 & P2 & _).
    { exists cs, ca. split; auto. apply (At_app p [u] s r s' nr); auto. econstructor; eauto. constructor. }
    apply At_split in P2. destruct P2 as (s3 & n3 & P3 & P4). destruct (At_fun p s b s3 n3 s' nb Vb P3 Pb). subst s3 n3.
    inversion P4 as [| ? ? c cs' ? ? ? ? Hc HD Hid HA]; subst. apply NB. exists c, cs'. auto.
Qed.

(** The sum is the destination exactly on the pairs that fit. *)
Theorem reaches_fits : forall s a b, wfs s = true -> sty s = TRoot -> IsConfig s a -> IsConfig s b ->
  orderable s a = true -> orderable s b = true -> NoSwitch s a a -> NoSwitch s b b -> RootKept o s a b ->
  (Reaches s (config_add_delta s a (Delta a b o)) b <-> Fits o s a b).
Proof.
  intros s a b W R Ca Cb Oa Ob Sa Sb RK. assert (Ca' := Ca). assert (Cb' := Cb). destruct Ca' as (Va & Ta & Na). destruct Cb' as (Vb & Tb & Nb).
  destruct (sum_lands s a b) as (d & r & la & lb & lr & D1 & D2 & R1 & R2 & R3 & IA & IB & IR & HK); auto.
  assert (HT := root_Tri s a b r la lb lr R Va Vb RK IA IB IR HK). split.
  - intros (x & E & (Vx & Tx & _) & SD & _).
    unfold config_add_delta, delta_nc, config_add, config_new in E. cbn [d_opts d_dst d_src] in E. rewrite D1 in E. cbn [bind] in E. rewrite R1 in E. cbn [bind] in E.
    rewrite (retrieve_valid s r R R3) in E by congruence.
    assert (TR : trim s r = Ok x) by (destruct (trim s r); exact E).
    assert (SM : Same s x b) by (apply SameData_Same; auto; congruence).
    assert (Y := untrimmed r 0 s a b la lb lr x W Va Vb R3 Vx IA IB IR HK Na Nb Sb TR SM).
    assert (x = r) by congruence. subst x.
    apply (Landing_exact s a b r); auto. apply Tri_Landing; auto.
  - intro F. assert (SM : Same s r b) by (apply (Tri_fits r 0 False s a b); auto; congruence).
    apply (reaches_of o s a b W R Ca Cb). exists d, r. auto 10.
Qed.

End Options.

(** Without options that replace *)
Lemma not_whole : forall o s a b p, o_replace o = PRMerge -> o_type o <> DReplace -> ~ Whole o s a b p.
Proof.
  intros o s a b p HR HT (u & q & r & s' & na & nb & _ & _ & _ & [(m & _ & X & _) | (_ & X & _)]); [contradiction | congruence].
Qed.

Lemma fits_merge : forall o s a b, o_replace o = PRMerge -> o_type o <> DReplace -> (Fits o s a b <-> EndsInPlace s a b /\ NoSwitch s a b).
Proof.
  intros o s a b HR HT. split.
  - intro F. split.
    + intros p s' na nb Pa Pb. apply (F p s' na nb Pa Pb (not_whole o s a b p HR HT)).
    + intros p s' na nb Pa Pb ca cb da db i j m n q ka kb Ha Hb Da Db La Lb L3 T3 L4 T4.
      destruct (Nat.eq_dec m n) as [E | NE]; auto. exfalso.
      destruct (F p s' na nb Pa Pb (not_whole o s a b p HR HT)) as [_ F2].
      apply (F2 (fun X => HT (proj1 X)) ca cb Ha Hb). exists da, db, i, j, m, n, q, ka, kb. tauto.
  - intros [E N] p s' na nb Pa Pb _. split; [exact (E p s' na nb Pa Pb) |].
    intros _ ca cb Ha Hb. apply (NoSwitch_at s a b p s' na nb); auto.
Qed.

Theorem reaches_exactly : forall o s a b, wfs s = true -> sty s = TRoot -> IsConfig s a -> IsConfig s b ->
  orderable s a = true -> orderable s b = true -> NoSwitch s a a -> NoSwitch s b b -> o_replace o = PRMerge -> o_type o <> DReplace ->
  (Reaches s (config_add_delta s a (Delta a b o)) b <-> EndsInPlace s a b /\ NoSwitch s a b).
Proof.
  intros o s a b W R Ca Cb Oa Ob Sa Sb HR HT. rewrite <- (fits_merge o s a b HR HT). apply reaches_fits; auto. left. auto.
Qed.
