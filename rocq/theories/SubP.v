(** node_sub and get_config_replace never fail on well-formed configs, and their
    result is a delta in the sense of DeltaR.v. *)
From Coq Require Import String Ascii List Bool Arith ZArith Lia Permutation.
From Verif Require Import Base BaseP XmlM CalcM CalcP NetconfM ListP DataSpec DataP DeltaSpec DeltaR NameP AddP AddStepP PlainP WorkP.
Import ListNotations.
Open Scope string_scope.
Open Scope list_scope.

Section Late.
Context {LK : late}.

(** ** Small facts *)
Lemma NoDup_app_r : forall {A} (l1 l2 : list A), NoDup (l1 ++ l2) -> NoDup l2.
Proof. intros A l1 l2. induction l1; simpl; intro H; auto. inversion H; auto. Qed.

Lemma ent_info : forall s x l u c, wfs s = true -> validk s x -> Index s (xkids x) l -> In (u, c) l ->
  exists cs, schema_child s (xtag c) = Ok cs /\ valid cs c = true /\ uid_of s c = Ok u /\ wfs cs = true /\ fst u = xtag c.
Proof.
  intros s x l u c W [_ V] HI Hin. destruct (V c (Index_kid s _ l u c HI Hin)) as (cs & H1 & H2).
  exists cs. split; auto. split; auto. split; [eapply Index_uid; eauto |].
  split; [eapply wfs_child; eauto | eapply Index_tag; eauto].
Qed.

Lemma node_eq_total : forall s x y, valid s x = true -> valid s y = true ->
  exists e, node_eq s x y = Ok e /\ (e = true <-> Same s x y).
Proof.
  intros s x y Vx Vy. destruct (node_le_total x s y Vx Vy) as (e1 & H1). destruct (node_le_total y s x Vy Vx) as (e2 & H2).
  unfold node_eq, rand, Same. rewrite H1, H2. destruct e1, e2; simpl; eexists; split; try reflexivity; intuition congruence.
Qed.

Lemma node_le_marked : forall s n v x y, xattrs x = [] -> xattrs y = [] ->
  node_le s (set_attr n v x) (set_attr n v y) = node_le s x y.
Proof.
  intros s n v [t tx a ks] [t' tx' a' ks'] H1 H2. cbn [xattrs] in *. subst. rewrite !node_le_eq. unfold same_text, parse_text.
  cbn [xattrs xtag xtext xkids set_attr dset]. unfold attrs_sub. simpl. rewrite !String.eqb_refl. rewrite (eqb_refl ostr_eqb ostr_eqb_ok). reflexivity.
Qed.

Lemma node_eq_marked : forall s n v x y, xattrs x = [] -> xattrs y = [] ->
  node_eq s (set_attr n v x) (set_attr n v y) = node_eq s x y.
Proof. intros. unfold node_eq. rewrite !node_le_marked; auto. Qed.

Lemma key_tuple_congr : forall s x y ts, (forall k c, In k (s_keys (si s)) -> kids_tagged k (xkids x) = [c] ->
    exists c', kids_tagged k (xkids y) = [c'] /\ parse_text s c' = parse_text s c) ->
  key_tuple s x = Ok ts -> key_tuple s y = Ok ts.
Proof.
  intros s x y ts H K. apply key_tuple_Forall2 in K. apply key_tuple_Forall2.
  induction K as [| k t ks ts (c & K1 & K2) K IH]; constructor.
  - destruct (H k c (or_introl eq_refl) K1) as (c' & C1 & C2). exists c'. split; auto. congruence.
  - apply IH. intros k' c' Hk. apply H. right. auto.
Qed.

Lemma uid_deep : forall s cs x d u, schema_child s (xtag x) = Ok cs -> nodeish (sty cs) = true -> uid_of s x = Ok u ->
  xtag d = xtag x -> (forall ts, sty cs = TList -> key_tuple cs x = Ok ts -> key_tuple cs d = Ok ts) -> uid_of s d = Ok u.
Proof.
  intros s cs x d u Hs N Hu T K. assert (Hd : schema_child s (xtag d) = Ok cs) by congruence.
  destruct (sty cs) eqn:Ht; try discriminate.
  - rewrite (uid_other s x cs) in Hu by (auto; congruence). rewrite (uid_other s d cs) by (auto; congruence). congruence.
  - apply (uid_list s x cs Hs Ht) in Hu. destruct Hu as (ts & H1 & H2). subst u.
    apply (uid_list s d cs Hd Ht). exists ts. split; auto. congruence.
Qed.

Lemma both_keys : forall s cs x y u, schema_child s (xtag x) = Ok cs -> schema_child s (xtag y) = Ok cs ->
  sty cs = TList -> uid_of s x = Ok u -> uid_of s y = Ok u -> exists ts, key_tuple cs x = Ok ts /\ key_tuple cs y = Ok ts.
Proof.
  intros s cs x y u Hx Hy Ht U1 U2. apply (uid_list s x cs Hx Ht) in U1. apply (uid_list s y cs Hy Ht) in U2.
  destruct U1 as (t1 & K1 & E1). destruct U2 as (t2 & K2 & E2). subst. inversion E2; subst. eauto.
Qed.

(** ** strip_to_keys *)
Definition iskid (s : snode) (c : xml) : bool :=
  match schema_child s (xtag c) with Ok cs => s_is_key (si cs) | Err _ => false end.

Lemma strip_eq : forall s x, (forall c, In c (xkids x) -> exists cs, schema_child s (xtag c) = Ok cs) ->
  strip_to_keys s x = Ok (set_kids (filter (iskid s) (xkids x)) x).
Proof.
  intros s x H. unfold strip_to_keys.
  assert (G : exists kk, mapM (fun c => let! cs := schema_child s (xtag c) in Ok (if s_is_key (si cs) then [c] else [])) (xkids x) = Ok kk
            /\ concat kk = filter (iskid s) (xkids x)).
  { induction (xkids x) as [| c r IH]; [exists []; auto |].
    destruct IH as (kk & I1 & I2); [intros; apply H; right; auto |].
    destruct (H c (or_introl eq_refl)) as (cs & Hs). cbn [mapM]. rewrite Hs. cbn [bind]. rewrite I1. cbn [bind].
    eexists. split; [reflexivity |]. simpl. unfold iskid at 1. rewrite Hs. destruct (s_is_key (si cs)); simpl; rewrite I2; auto. }
  destruct G as (kk & G1 & G2). rewrite G1. cbn [bind]. rewrite G2. reflexivity.
Qed.

Lemma Index_filter : forall s k l p, Index s k l -> Index s (filter p k) (filter (fun e => p (snd e)) l).
Proof.
  intros s k l p (H1 & H2 & H3). subst k. rewrite filter_map. split; auto. split; [apply filter_Forall; auto |].
  unfold uids in *. clear H2. induction l as [| [u c] r IH]; simpl in *; auto. inversion H3; subst.
  destruct (p c); simpl; auto. constructor; auto. intro X. apply H1. apply in_map_iff in X. destruct X as (e & E & X).
  apply filter_In in X. destruct X as [X _]. rewrite <- E. apply (in_map fst). auto.
Qed.

Lemma assoc_filter_snd : forall p u (l : list ent), NoDup (uids l) ->
  assoc uid_eqb u (filter (fun e => p (snd e)) l) =
  match assoc uid_eqb u l with Some c => if p c then Some c else None | None => None end.
Proof.
  intros p u l. induction l as [| [v c] r IH]; simpl; intro ND; auto. inversion ND as [| ? ? Hn ND']; subst.
  destruct (uid_eqb u v) eqn:E.
  - destruct (p c) eqn:P; simpl; [rewrite E; auto |]. rewrite IH; auto. apply uid_eqb_ok in E. subst v.
    rewrite assoc_not_In; auto.
  - destruct (p c); simpl; [rewrite E |]; auto.
Qed.

Lemma strip_ok : forall s cs ca cb u, schema_child s (xtag cb) = Ok cs -> wfs cs = true -> sty cs = TList ->
  valid cs ca = true -> valid cs cb = true -> Same cs ca cb -> uid_of s cb = Ok u ->
  exists d, strip_to_keys cs cb = Ok d /\ uid_of s d = Ok u /\ xtag d = xtag cb /\
    forall n la lb, EntD n s la lb (Some ca) (Some cb) (Some d).
Proof.
  intros s cs ca cb u Hs W Ht Va Vb SM Hu.
  destruct (valid_inv cs ca Va) as (_ & (lx & Hx) & Kx). destruct (valid_inv cs cb Vb) as (Ab & (ly & Hy) & Ky).
  rewrite strip_eq by (intros c Hc; destruct (Ky c Hc) as (k & K1 & _); eauto).
  eexists. split; [reflexivity |]. set (d := set_kids (filter (iskid cs) (xkids cb)) cb).
  assert (Ed : xkids d = filter (iskid cs) (xkids cb)) by (unfold d; destruct cb; auto).
  assert (Td : xtag d = xtag cb) by (unfold d; destruct cb; auto).
  assert (Ad : xattrs d = []) by (unfold d; destruct cb; auto).
  split.
  { apply (uid_deep s cs cb); auto; [rewrite Ht; auto |]. intros ts _ K. apply (key_tuple_congr cs cb); auto.
    intros k c Hk E. exists c. split; auto. rewrite Ed. unfold kids_tagged in *.
    destruct (wfs_keys cs W Ht) as [_ HK]. destruct (HK k Hk) as (_ & kc & K1 & K2 & K3).
    rewrite filter_comm. rewrite E. simpl. unfold iskid.
    assert (I : In c (filter (fun c0 => String.eqb (xtag c0) k) (xkids cb))) by (rewrite E; left; auto).
    apply filter_In in I. destruct I as [_ I]. apply String.eqb_eq in I. rewrite I, K1, K3. reflexivity. }
  split; auto. intros n la lb.
  assert (Hs' : schema_child s (xtag ca) = Ok cs) by (rewrite (Same_tag cs ca cb SM); auto).
  apply (e_deep n s la lb ca cb d cs); auto; [rewrite Ht; auto | apply op_merge; auto |].
  rewrite Ed. assert (Hd := Index_filter cs _ ly (iskid cs) Hy). set (ld := filter _ ly) in Hd.
  assert (ND : NoDup (uids ly)) by apply Hy.
  apply (isd (S n) cs (xkids ca) (xkids cb) _ lx ly ld); auto.
  - intro w. unfold ld. rewrite assoc_filter_snd by auto.
    destruct (assoc uid_eqb w lx) as [c |] eqn:Ec.
    + destruct (Same_assoc cs ca cb lx ly w c SM Hx Hy Ec) as (c' & kc & C1 & C2 & C3). rewrite C1.
      destruct (iskid cs c') eqn:Ek; [| eapply e_same; eauto].
      assert (Hc' := C1). apply (Index_assoc cs _ ly w c' Hy) in Hc'. apply (Index_kid cs _ ly w c' Hy) in Hc'.
      destruct (Ky c' Hc') as (kc' & J1 & J2). unfold iskid in Ek. rewrite J1 in Ek.
      assert (kc' = kc) by (rewrite (Same_tag kc c c' C3) in C2; congruence). subst kc'.
      destruct (wfs_is_key cs _ kc W J1 Ek) as (_ & T & _).
      apply (e_leaf (S n) cs lx ly c c' c' kc); auto; [rewrite T; auto | | apply (Body_refl c' kc J2)].
      left. apply op_merge. apply (valid_inv kc c' J2).
    + destruct (assoc uid_eqb w ly) as [c' |] eqn:Ec'; [| apply e_none].
      destruct (Same_assoc cs cb ca ly lx w c' (Same_sym cs ca cb SM) Hy Hx Ec') as (c & kc & C1 & _). congruence.
  - intros t cs0 Hs0 U. apply ord_same; [| apply (Same_seqt cs ca cb lx ly t cs0); auto].
    apply (no_user_leaves cs _ ld t cs0 Hd); auto. intros w c Hc.
    apply (assoc_In uid_eqb uid_eqb_ok) in Hc. apply filter_In in Hc. destruct Hc as [Hc Hk]. simpl in Hk.
    destruct (Ky c (Index_kid cs _ ly w c Hy Hc)) as (kc & J1 & J2). unfold iskid in Hk. rewrite J1 in Hk.
    destruct (wfs_is_key cs _ kc W J1 Hk) as (_ & T & _). eauto.
Qed.

(** ** One level *)
(** Nodes of tag [t] that only the source has are deleted by node_sub: the destination has
    a node of the same tag, or no node of its own in the same choice, or one in the same
    case. *)
Definition Own (s : snode) (la lb : list ent) (eb : centry) : Prop :=
  exists v cb, In (v, cb) lb /\ ~ In v (uids la) /\ schema_entry s (xtag cb) = Ok eb /\ ce_case eb = true.
Definition Allowed (s : snode) (la lb : list ent) (t : string) : Prop :=
  (exists v cb, In (v, cb) lb /\ xtag cb = t) \/
  forall ce, schema_entry s t = Ok ce -> ce_case ce = true ->
    (forall eb, Own s la lb eb -> choice_pos eb <> choice_pos ce) \/
    (exists eb, Own s la lb eb /\ choice_pos eb = choice_pos ce /\ case_pos eb = case_pos ce).

(** The condition on deleted nodes holds at one level, for get_config_replace if [rep]. *)
Definition Lvl (o : opts) (n : nat) (rep : bool) (s : snode) (la lb : list ent) : Prop :=
  forall u ca cs d, In (u, ca) la -> ~ In u (uids lb) -> schema_child s (xtag ca) = Ok cs ->
    rep = true \/ Allowed s la lb (xtag ca) -> mk_del o cs ca = Ok d -> lk n s la lb ca (op_of d).
(** The nodes at depth [n] are compared by get_config_replace. *)
Definition RLevel (o : opts) (n : nat) : Prop := o_type o = DReplace /\ o_depth o = Z.of_nat n.
(** All conditions hold for a pair at depth [n] and for the pairs below it. *)
Inductive Lvls (o : opts) : nat -> snode -> list xml -> list xml -> Prop :=
| lvls : forall n s ka kb la lb, Index s ka la -> Index s kb lb ->
    (~ RLevel o n -> Lvl o n false s la lb /\ lk_stay n) ->
    (RLevel o n -> Lvl o n true s la lb /\
       forall u ca cb cs, In (u, ca) la -> In (u, cb) lb -> schema_child s (xtag ca) = Ok cs -> lk_repl (S n) cs (xkids ca) (xkids cb)) ->
    (~ RLevel o n -> o_replace o = PRReplace -> leaf_lists_differ s kb ka = Ok true -> lk_repl n s ka kb) ->
    ((forall m, n = S m -> ~ RLevel o m) -> RLevel o n \/ o_replace o = PRMerge \/ leaf_lists_differ s kb ka = Ok false -> lk_deep n s ka kb) ->
    (forall u ca cb cs, In (u, ca) la -> In (u, cb) lb -> schema_child s (xtag ca) = Ok cs -> Lvls o (S n) cs (xkids ca) (xkids cb)) ->
    Lvls o n s ka kb.

Section Level.
Variables (dp : nat) (s : snode) (a b : xml) (la lb : list ent).
Hypothesis Ws : wfs s = true.
Hypothesis Va : validk s a.
Hypothesis Vb : validk s b.
Hypothesis Ia : Index s (xkids a) la.
Hypothesis Ib : Index s (xkids b) lb.
Variable B : Prop.
Hypothesis Oa : texted s a = true \/ B.
Hypothesis Ob : texted s b = true \/ B.

(** A key that is the same in both is not touched. *)
Definition KeyP (l1 l2 : list ent) (u : uid) (x : option xml) : Prop :=
  forall cs c1 c2, schema_child s (fst u) = Ok cs -> s_is_key (si cs) = true ->
    assoc uid_eqb u l1 = Some c1 -> assoc uid_eqb u l2 = Some c2 -> xtext c1 = xtext c2 -> x = Some c2.
Definition PS (u : uid) (x : option xml) : Prop :=
  EntD dp s la lb (assoc uid_eqb u la) (assoc uid_eqb u lb) x /\ KeyP la lb u x.
Definition PO : uid -> option xml -> Prop := KeyP lb la.

Lemma KeyP_only1 : forall l1 l2 u x, assoc uid_eqb u l1 = None -> KeyP l1 l2 u x.
Proof. intros l1 l2 u x H cs c1 c2 _ _ H1. congruence. Qed.
Lemma KeyP_only2 : forall l1 l2 u x, assoc uid_eqb u l2 = None -> KeyP l1 l2 u x.
Proof. intros l1 l2 u x H cs c1 c2 _ _ _ H1. congruence. Qed.
Lemma KeyP_notkey : forall l1 l2 u x cs, schema_child s (fst u) = Ok cs -> sty cs <> TLeaf -> KeyP l1 l2 u x.
Proof.
  intros l1 l2 u x cs H N cs' c1 c2 H' K. assert (cs' = cs) by congruence. subst.
  destruct (wfs_is_key s _ cs Ws H K) as (_ & X & _). contradiction.
Qed.
Lemma KeyP_keep : forall l1 l2 u c, assoc uid_eqb u l2 = Some c -> KeyP l1 l2 u (Some c).
Proof. intros l1 l2 u c H cs c1 c2 _ _ _ H2 _. congruence. Qed.

Definition Cover (todo : list uid) (m : obu) : Prop :=
  forall u cs, In u (uids lb) -> ~ In u todo -> schema_child s (fst u) = Ok cs -> is_user_seq cs = true ->
    In (fst u) (map fst m).

Record SelfInv (todo : list uid) (L : list went) (m : obu) : Prop := {
  si_w : WInv s la lb L; si_p : Part PS lb todo L; si_o : ObuOK s m; si_c : Cover todo m }.
Record OtherInv (todo : list uid) (L : list went) : Prop := {
  oi_w : WInv s lb la L; oi_p : Part PO la todo L }.

Lemma Cover_add : forall u cs rest m, Cover (u :: rest) m -> schema_child s (fst u) = Ok cs -> Cover rest (obu_add cs m).
Proof.
  intros u cs rest m H Hs v cs' Hv Hn Hs' U. destruct (uid_dec v u) as [E | E].
  - subst v. assert (cs' = cs) by congruence. subst. apply (obu_add_mem (fst u) cs m s); auto.
  - apply obu_add_incl. eapply H; eauto. intros [X | X]; [congruence | contradiction].
Qed.

Lemma Cover_keep : forall u rest m, Cover (u :: rest) m ->
  (forall cs, In u (uids lb) -> schema_child s (fst u) = Ok cs -> is_user_seq cs = false) -> Cover rest m.
Proof.
  intros u rest m H Hu v cs' Hv Hn Hs' U. destruct (uid_dec v u) as [E | E].
  - subst v. rewrite (Hu cs' Hv Hs') in U. discriminate.
  - eapply H; eauto. intros [X | X]; [congruence | contradiction].
Qed.

(** *** Finishing a level *)
Lemma key_kids : forall (l1 l2 : list ent) x1 x2 L L' ts,
  Index s (xkids x1) l1 -> Index s (xkids x2) l2 -> WellId s (wes L) -> WellId s (wes L') -> Forall2 SameW L L' ->
  (forall u, KeyP l1 l2 u (assoc uid_eqb u (wes L))) ->
  sty s = TList -> key_tuple s x1 = Ok ts -> key_tuple s x2 = Ok ts -> forall d, xkids d = map w_xml L' -> key_tuple s d = Ok ts.
Proof.
  intros l1 l2 x1 x2 L L' ts I1 I2 WL WL' HF HP Ht K1 K2 d Ed.
  destruct (wfs_keys s Ws Ht) as [_ HK]. destruct (SameW_wes L L' HF) as [_ HS].
  apply (key_tuple_congr s x2); auto. intros k c Hk E. destruct (HK k Hk) as (_ & kc & J1 & J2 & J3).
  apply key_tuple_Forall2 in K1. apply key_tuple_Forall2 in K2.
  assert (T : exists c1, kids_tagged k (xkids x1) = [c1] /\ parse_text s c1 = parse_text s c).
  { clear -K1 K2 Hk E. revert ts K1 K2 Hk. induction (s_keys (si s)) as [| k0 ks IH]; intros ts K1 K2 Hk; [destruct Hk |].
    inversion K1 as [| ? t0 ? ts0 (c1 & A1 & A2) K1']; subst. inversion K2 as [| ? ? ? ? (c2 & B1 & B2) K2']; subst.
    destruct Hk as [X | Hk]; [subst k0 | eapply IH; eauto]. exists c1. split; auto. congruence. }
  destruct T as (c1 & T1 & T2). rewrite !parse_text_id in T2 by congruence.
  rewrite (one_child s _ l1 k kc I1 J1 J2) in T1. rewrite (one_child s _ l2 k kc I2 J1 J2) in E.
  destruct (assoc uid_eqb (k, KNone) l1) as [c1' |] eqn:A1; [| discriminate]. inversion T1; subst c1'.
  destruct (assoc uid_eqb (k, KNone) l2) as [c2' |] eqn:A2; [| discriminate]. inversion E; subst c2'.
  assert (Z := HP (k, KNone) kc c1 c J1 J3 A1 A2 T2).
  destruct (HS (k, KNone)) as [[X _] | (x & x' & X1 & X2 & X3 & X4 & _)]; [congruence |].
  assert (x = c) by congruence. subst x. exists x'.
  assert (Wd := WellId_Index s _ WL'). rewrite wes_kids in Wd. rewrite Ed.
  rewrite (one_child s _ _ k kc Wd J1 J2). rewrite X2. split; auto. rewrite !parse_text_id by congruence. auto.
Qed.

Lemma self_done : forall L m, SelfInv [] L m ->
  RT B (all_seq_attrs m L) (fun L' => IsD dp s (xkids a) (xkids b) (map w_xml L') /\
    forall ts, sty s = TList -> key_tuple s a = Ok ts -> key_tuple s b = Ok ts ->
      forall d, xkids d = map w_xml L' -> key_tuple s d = Ok ts).
Proof.
  intros L m [HW HP HO HC]. assert (Wid := wi_id _ _ _ _ HW).
  destruct (all_seq_ok B s m L HO) as [(L' & A1 & A2 & A3 & A4) | X]; [| | | right; exact X].
  { intros w Hw. apply (WellId_uid s (wes L) (w_uid w) (w_xml w) Wid). apply (in_map we) in Hw. exact Hw. }
  { intros w cs Hw Hs U. apply (known_TxtU B s a b la lb L w cs Oa Ob Ia Ib HW Hw Hs U). }
  assert (HW' := WInv_same s la lb L L' HW A2). assert (Wid' := wi_id _ _ _ _ HW').
  destruct (SameW_wes L L' A2) as [E1 E2].
  left. exists L'. split; auto. split.
  - assert (HI := WellId_Index s _ Wid'). rewrite wes_kids in HI.
    apply (isd dp s (xkids a) (xkids b) (map w_xml L') la lb (wes L')); auto.
    + intro u. destruct (HP u) as [_ H]. specialize (H (fun x => x)). destruct H as [H _].
      destruct (E2 u) as [[X1 X2] | (x & x' & X1 & X2 & X3 & X4 & X5 & X6)]; rewrite X1 in H; rewrite X2; auto.
      apply (EntD_congr dp s la lb _ _ x x'); auto.
    + intros t cs Hs U. assert (M : map fst (dseq t lb (wes L')) = seqt t lb).
      { rewrite (dseq_orig s la lb L' t HW'). rewrite <- (wi_ord _ _ _ _ HW' t cs Hs U). unfold wes. rewrite map_map. reflexivity. }
      apply ord_chain; auto. destruct (in_dec string_dec t (map fst m)) as [Hm | Hm].
      * rewrite (dseq_orig s la lb L' t HW'). apply A3; auto.
      * assert (Z : seqt t lb = []).
        { destruct (seqt t lb) as [| u r] eqn:E; auto. exfalso. apply Hm.
          assert (X : In u (seqt t lb)) by (rewrite E; left; auto). apply seqt_In in X. destruct X as [X1 X2]. subst t.
          apply (HC u cs); auto. }
        rewrite Z in M. destruct (dseq t lb (wes L')); [simpl; auto | discriminate].
  - intros ts Ht K1 K2 d Ed. apply (key_kids la lb a b L L' ts); auto. intro u. destruct (HP u) as [_ H].
    apply (H (fun x => x)).
Qed.

Lemma other_done : forall L m, OtherInv [] L -> ObuOK s m ->
  RT B (all_seq_attrs m L) (fun L' =>
    forall ts, sty s = TList -> key_tuple s a = Ok ts -> key_tuple s b = Ok ts ->
      forall d, xkids d = map w_xml L' -> key_tuple s d = Ok ts).
Proof.
  intros L m [HW HP] HO. assert (Wid := wi_id _ _ _ _ HW).
  destruct (all_seq_ok B s m L HO) as [(L' & A1 & A2 & A3 & A4) | X]; [| | | right; exact X].
  { intros w Hw. apply (WellId_uid s (wes L) (w_uid w) (w_xml w) Wid). apply (in_map we) in Hw. exact Hw. }
  { intros w cs Hw Hs U. apply (known_TxtU B s b a lb la L w cs Ob Oa Ib Ia HW Hw Hs U). }
  assert (HW' := WInv_same s lb la L L' HW A2). assert (Wid' := wi_id _ _ _ _ HW').
  left. exists L'. split; auto. intros ts Ht K1 K2 d Ed. apply (key_kids lb la b a L L' ts); auto.
  intro u. destruct (HP u) as [_ H]. apply (H (fun x => x)).
Qed.

(** *** The items of the three loops *)
Definition T1 := uids (only_in lb la).
Definition T2 := uids (only_in la lb).
Definition T3 := map (fun p : uid * xml * xml => fst (fst p)) (both_in lb la).

Lemma T_NoDup : NoDup (T1 ++ T2 ++ T3).
Proof.
  assert (Na : NoDup (uids la)) by apply Ia. assert (Nb : NoDup (uids lb)) by apply Ib.
  assert (N1 : forall l1 l2 : list ent, NoDup (uids l1) -> NoDup (uids (only_in l1 l2))).
  { intros l1 l2 N. unfold only_in. rewrite <- filter_not_in_assoc. apply NoDup_filter. auto. }
  assert (E3 : T3 = filter (fun u => mem uid_eqb u (uids la)) (uids lb)).
  { unfold T3, both_in. clear. induction lb as [| [u c] r IH]; simpl; auto.
    destruct (assoc uid_eqb u la) as [x |] eqn:E.
    - assert (M : mem uid_eqb u (uids la) = true) by (apply (mem_In uid_eqb uid_eqb_ok); eapply assoc_Some_In_uids; eauto).
      simpl. rewrite M, IH. reflexivity.
    - assert (M : mem uid_eqb u (uids la) = false) by (apply (mem_not_In uid_eqb uid_eqb_ok); apply assoc_None_uids; auto).
      rewrite M. exact IH. }
  assert (I1 : forall u, In u T1 -> In u (uids lb) /\ ~ In u (uids la)).
  { intros u H. apply in_map_iff in H. destruct H as ([v c] & E & H). simpl in E. subst. apply only_in_In in H.
    destruct H as [H1 H2]. split; auto. apply (in_map fst) in H1. exact H1. }
  assert (I2 : forall u, In u T2 -> In u (uids la) /\ ~ In u (uids lb)).
  { intros u H. apply in_map_iff in H. destruct H as ([v c] & E & H). simpl in E. subst. apply only_in_In in H.
    destruct H as [H1 H2]. split; auto. apply (in_map fst) in H1. exact H1. }
  assert (I3 : forall u, In u T3 -> In u (uids la) /\ In u (uids lb)).
  { intros u H. rewrite E3 in H. apply filter_In in H. destruct H as [H1 H2]. apply (mem_In uid_eqb uid_eqb_ok) in H2. auto. }
  assert (APP : forall l1 l2 : list uid, NoDup l1 -> NoDup l2 -> (forall u, In u l1 -> ~ In u l2) -> NoDup (l1 ++ l2)).
  { induction l1 as [| x r IH]; intros l2 A1 A2 A3; auto. inversion A1; subst. simpl. constructor.
    - intro X. apply in_app_or in X. destruct X as [X | X]; [contradiction | apply (A3 x); [left |]; auto].
    - apply IH; auto. intros u Hu. apply A3. right. auto. }
  apply APP; [apply N1; auto | apply APP; [apply N1; auto | rewrite E3; apply NoDup_filter; auto |] |].
  - intros u H2 H3. destruct (I2 u H2). destruct (I3 u H3). contradiction.
  - intros u H1 H. destruct (I1 u H1). apply in_app_or in H. destruct H as [H | H]; [destruct (I2 u H) | destruct (I3 u H)]; contradiction.
Qed.

Lemma T_all : forall u, ~ In u (T1 ++ T2 ++ T3) -> assoc uid_eqb u la = None /\ assoc uid_eqb u lb = None.
Proof.
  intros u H.
  assert (G : assoc uid_eqb u lb = None).
  { destruct (assoc uid_eqb u lb) as [c |] eqn:E; auto. exfalso. apply H.
    apply (assoc_In uid_eqb uid_eqb_ok) in E.
    destruct (assoc uid_eqb u la) as [x |] eqn:F.
    - apply in_or_app. right. apply in_or_app. right. apply in_map_iff. exists (u, c, x). split; auto.
      apply both_in_In. auto.
    - apply in_or_app. left. apply assoc_None_uids in F. apply in_map_iff. exists (u, c). split; auto.
      apply only_in_In. auto. }
  split; auto. destruct (assoc uid_eqb u la) as [x |] eqn:F; auto. exfalso. apply H.
  apply (assoc_In uid_eqb uid_eqb_ok) in F. apply in_or_app. right. apply in_or_app. left.
  apply in_map_iff. exists (u, x). split; auto. apply only_in_In. split; auto. apply assoc_None_uids. auto.
Qed.

Lemma loop_ok : forall {A S} (Inv : list uid -> S -> Prop) (key : A -> uid) (step : S -> A -> res S) l todo st,
  (forall p rest st0, In p l -> Inv (key p :: rest) st0 -> ~ In (key p) rest -> exists st', step st0 p = Ok st' /\ Inv rest st') ->
  NoDup (map key l ++ todo) -> Inv (map key l ++ todo) st -> exists st', foldM step st l = Ok st' /\ Inv todo st'.
Proof.
  intros A S Inv key step l. induction l as [| p r IH]; intros todo st Hs ND HI.
  - exists st. auto.
  - simpl in *. inversion ND as [| ? ? Hn ND']; subst.
    destruct (Hs p (map key r ++ todo) st (or_introl eq_refl) HI Hn) as (st1 & H1 & H2). rewrite H1. simpl.
    apply IH; auto.
Qed.

Lemma loop_rt : forall {A S} (Inv : list uid -> S -> Prop) (key : A -> uid) (step : S -> A -> res S) l todo st,
  (forall p rest st0, In p l -> Inv (key p :: rest) st0 -> ~ In (key p) rest -> RT B (step st0 p) (Inv rest)) ->
  NoDup (map key l ++ todo) -> Inv (map key l ++ todo) st -> RT B (foldM step st l) (Inv todo).
Proof.
  intros A S Inv key step l. induction l as [| p r IH]; intros todo st Hs ND HI.
  - left. exists st. auto.
  - simpl in *. inversion ND as [| ? ? Hn ND']; subst.
    destruct (Hs p (map key r ++ todo) st (or_introl eq_refl) HI Hn) as [(st1 & H1 & H2) | [H1 H2]]; rewrite H1; simpl; [| right; auto].
    apply IH; auto.
Qed.

Lemma SelfInv_init : SelfInv (T1 ++ T2 ++ T3) (w_init lb) [].
Proof.
  split.
  - apply (WInv_init s (xkids b)); auto.
  - intro u. rewrite wes_init. split; auto. intro H. destruct (T_all u H) as [H1 H2]. unfold PS. rewrite H1, H2.
    split; [apply e_none | apply KeyP_only2; auto].
  - intros t k H. destruct H.
  - intros u cs Hu H _ _. exfalso. destruct (T_all u H) as [_ H2]. apply assoc_None_uids in H2. contradiction.
Qed.

Lemma OtherInv_init : OtherInv (T1 ++ T2 ++ T3) (w_init la).
Proof.
  split.
  - apply (WInv_init s (xkids a)); auto.
  - intro u. rewrite wes_init. split; auto. intro H. destruct (T_all u H) as [H1 H2]. apply KeyP_only1; auto.
Qed.

Lemma only_b : forall u c, In (u, c) (only_in lb la) ->
  assoc uid_eqb u la = None /\ assoc uid_eqb u lb = Some c /\ In u (uids lb) /\ ~ In u (uids la) /\
  exists cs, schema_child s (xtag c) = Ok cs /\ valid cs c = true /\ uid_of s c = Ok u /\ wfs cs = true /\ fst u = xtag c.
Proof.
  intros u c H. apply only_in_In in H. destruct H as [H1 H2]. split; [apply assoc_None_uids; auto |].
  split; [apply (Index_assoc s _ lb u c Ib); auto |]. split; [apply (in_map fst) in H1; exact H1 |]. split; auto.
  apply (ent_info s b lb); auto.
Qed.

Lemma only_a : forall u c, In (u, c) (only_in la lb) ->
  assoc uid_eqb u la = Some c /\ assoc uid_eqb u lb = None /\ In u (uids la) /\ ~ In u (uids lb) /\
  exists cs, schema_child s (xtag c) = Ok cs /\ valid cs c = true /\ uid_of s c = Ok u /\ wfs cs = true /\ fst u = xtag c.
Proof.
  intros u c H. apply only_in_In in H. destruct H as [H1 H2].
  split; [apply (Index_assoc s _ la u c Ia); auto |]. split; [apply assoc_None_uids; auto |].
  split; [apply (in_map fst) in H1; exact H1 |]. split; auto. apply (ent_info s a la); auto.
Qed.

Lemma both_ab : forall u cb ca, In (u, cb, ca) (both_in lb la) ->
  assoc uid_eqb u la = Some ca /\ assoc uid_eqb u lb = Some cb /\ In u (uids la) /\ In u (uids lb) /\
  In ca (xkids a) /\ In cb (xkids b) /\ xtag ca = xtag cb /\ uid_of s ca = Ok u /\ uid_of s cb = Ok u /\
  exists cs, schema_child s (xtag cb) = Ok cs /\ valid cs ca = true /\ valid cs cb = true /\ wfs cs = true /\ fst u = xtag cb.
Proof.
  intros u cb ca H. apply both_in_In in H. destruct H as [H1 H2]. split; auto.
  split; [apply (Index_assoc s _ lb u cb Ib); auto |].
  assert (H3 : In (u, ca) la) by (apply (assoc_In uid_eqb uid_eqb_ok); auto).
  split; [apply (in_map fst) in H3; exact H3 |]. split; [apply (in_map fst) in H1; exact H1 |].
  split; [eapply Index_kid; eauto |]. split; [eapply Index_kid; eauto |].
  destruct (ent_info s a la u ca Ws Va Ia H3) as (cs & A1 & A2 & A3 & A4 & A5).
  destruct (ent_info s b lb u cb Ws Vb Ib H1) as (cs' & B1 & B2 & B3 & B4 & B5).
  assert (E : xtag ca = xtag cb) by congruence. rewrite E in A1. assert (cs' = cs) by congruence. subst cs'.
  split; auto. split; auto. split; auto. exists cs. auto.
Qed.

Lemma KeyP_nokey : forall l1 l2 u x cs, schema_child s (fst u) = Ok cs -> s_is_key (si cs) = false -> KeyP l1 l2 u x.
Proof. intros l1 l2 u x cs H N cs' c1 c2 H' K. congruence. Qed.
Lemma KeyP_diff : forall l1 l2 u x c1 c2, assoc uid_eqb u l1 = Some c1 -> assoc uid_eqb u l2 = Some c2 ->
  xtext c1 <> xtext c2 -> KeyP l1 l2 u x.
Proof. intros l1 l2 u x c1 c2 H1 H2 N cs' c1' c2' H' K G1 G2 E. congruence. Qed.

(** *** node_sub *)
Definition ChoOK (cho : list (list nat * list nat)) : Prop :=
  forall p q, In (p, q) cho -> exists v cb eb, In (v, cb) lb /\ ~ In v (uids la) /\
    schema_entry s (xtag cb) = Ok eb /\ ce_case eb = true /\ choice_pos eb = p /\ case_pos eb = q.

Record SubInv (todo : list uid) (st : sstate) : Prop := {
  ui_s : SelfInv todo (ss_self st) (ss_obu st); ui_o : OtherInv todo (ss_other st); ui_c : ChoOK (ss_cho st) }.

(** Entries of the destination only are in [choice_nodes], unless they are still to come. *)
Definition ChoAll (todo : list uid) (cho : list (list nat * list nat)) : Prop :=
  forall v cb eb, In (v, cb) lb -> ~ In v (uids la) -> schema_entry s (xtag cb) = Ok eb -> ce_case eb = true ->
    In v todo \/ In (choice_pos eb, case_pos eb) cho.
Definition Made (L : list went) : Prop := forall w, In w L -> w_orig w = false -> Allowed s la lb (fst (w_uid w)).
Definition SubInv1 (todo : list uid) (st : sstate) : Prop :=
  SubInv todo st /\ ChoAll todo (ss_cho st) /\ Made (ss_self st).
Definition SubInv2 (todo : list uid) (st : sstate) : Prop :=
  SubInv todo st /\ ChoAll [] (ss_cho st) /\ Made (ss_self st).

Lemma Made_upd : forall u x L, Made L -> Made (w_upd u x L).
Proof.
  intros u x L H w Hw Ho. apply in_map_iff in Hw. destruct Hw as (w0 & E & Hw). specialize (H w0 Hw).
  destruct (uid_eqb u (w_uid w0)) eqn:Eu; [| subst; auto]. apply uid_eqb_ok in Eu. subst w u. simpl in *. auto.
Qed.

Lemma step_only_self : forall o p rest st, In p (only_in lb la) -> SubInv1 (fst p :: rest) st -> ~ In (fst p) rest ->
  exists st', sub_only_self o s st p = Ok st' /\ SubInv1 rest st'.
Proof.
  intros o [u c] rest st Hin ([[W1 P1 O1 C1] [W2 P2] HC] & HA & HM) Hn. simpl in *.
  destruct (only_b u c Hin) as (A1 & A2 & A3 & A4 & cs & B1 & B2 & B3 & B4 & B5).
  destruct (schema_entry_child s _ cs B1) as (ce & E1 & E2). rewrite E1. cbn [bind]. rewrite E2.
  assert (G : exists c', match o_type o with
             | DReplace => Ok (set_attr operation_tag "replace" c)
             | _ => mark_create o cs c
             end = Ok c' /\ uid_of s c' = Ok u /\ forall n la lb, EntD n s la lb None (Some c) (Some c')).
  { destruct (mark_create_ok o s cs c u B1 Ws B2 B3) as (c' & X1 & X2 & X3).
    destruct (mark_replace_new s cs c u B1 B2 B3) as [Y1 Y2].
    destruct (o_type o); eauto. }
  destruct G as (c' & G1 & G2 & G3). rewrite G1. cbn [bind].
  destruct (mk_del_ok o s cs c u B1 Ws B2 B3) as (d & D1 & D2 & _). rewrite D1. cbn [bind].
  eexists. split; [reflexivity |].
  assert (HI := ins_after_last_Ins (w_tag (xtag c)) (W false u d) (ss_other st)).
  assert (Hf : schema_child s (fst u) = Ok cs) by (rewrite B5; auto).
  split; [| split; [| apply Made_upd; auto]].
  2:{ intros v cb eb F1 F2 F3 F4. simpl. destruct (HA v cb eb F1 F2 F3 F4) as [[X | X] | X]; auto.
      - right. subst v. assert (cb = c).
        { apply only_in_In in Hin. destruct Hin as [Hin _]. eapply Index_unique; eauto. } subst cb.
        assert (eb = ce) by congruence. subst eb. rewrite F4. left. auto.
      - right. destruct (ce_case ce); [right |]; auto. }
  split; simpl.
  - split.
    + apply WInv_upd; auto.
    + apply (Part_upd PS lb u rest); auto. unfold PS. rewrite A1, A2. split; [apply G3 | apply KeyP_only1; auto].
    + apply (ObuOK_add s (xtag c)); auto.
    + apply (Cover_add u cs rest); auto.
  - split.
    + apply (WInv_ins s lb la (ss_other st) _ u d W2 HI); auto. apply (Part_new PO la u rest); auto.
    + apply (Part_ins PO la u rest (ss_other st) _ d P2 Hn A4 HI). apply KeyP_only2. auto.
  - destruct (ce_case ce) eqn:Ec; auto. intros p q [E | Hpq]; [| apply HC; auto]. inversion E; subst.
    apply only_in_In in Hin. exists u, c, ce. tauto.
Qed.

Lemma allowed_ok : forall t ce L cho, schema_entry s t = Ok ce -> ChoOK cho -> ChoAll [] cho -> Made L -> WInv s la lb L ->
  existsb (w_tag t) L || case_allows ce cho = true -> Allowed s la lb t.
Proof.
  intros t ce L cho He HC HA HM HW EC. assert (POS : eqb_ok pos_eqb) by (apply list_eqb_ok; exact Nat.eqb_eq).
  apply orb_true_iff in EC. destruct EC as [EC | EC].
  - apply existsb_exists in EC. destruct EC as (w & Hw & Ht). unfold w_tag in Ht. apply String.eqb_eq in Ht.
    assert (Hu : fst (w_uid w) = t).
    { rewrite <- Ht. apply (uid_tag s (w_xml w)). apply (WellId_uid s (wes L) (w_uid w) (w_xml w) (wi_id _ _ _ _ HW)).
      apply (in_map we) in Hw. exact Hw. }
    destruct (w_orig w) eqn:Ho; [| rewrite <- Hu; apply (HM w); auto].
    left. assert (X := wi_known _ _ _ _ HW w Hw). rewrite Ho in X. apply in_map_iff in X. destruct X as ([v cb] & E & X).
    simpl in E. subst v. exists (w_uid w), cb. split; auto. rewrite <- Hu. symmetry. eapply Index_tag; eauto.
  - right. intros ce' He' Hc. assert (ce' = ce) by congruence. subst ce'. unfold case_allows in EC. rewrite Hc in EC.
    destruct (assoc pos_eqb (choice_pos ce) cho) as [cp |] eqn:A.
    + right. apply POS in EC. subst cp. apply (assoc_In pos_eqb POS) in A.
      destruct (HC _ _ A) as (v & cb & eb & F1 & F2 & F3 & F4 & F5 & F6). exists eb. split; [exists v, cb |]; auto.
    + left. intros eb (v & cb & F1 & F2 & F3 & F4) X. destruct (HA v cb eb F1 F2 F3 F4) as [[] | Y].
      rewrite X in Y. apply (assoc_None pos_eqb POS) in A. apply A. apply (in_map fst) in Y. exact Y.
Qed.

Lemma step_only_other : forall o p rest st, Lvl o dp false s la lb /\ lk_stay dp ->
  In p (only_in la lb) -> SubInv2 (fst p :: rest) st -> ~ In (fst p) rest ->
  exists st', sub_only_other o s st p = Ok st' /\ SubInv2 rest st'.
Proof.
  intros o [u c] rest st [HV HT] Hin ([[W1 P1 O1 C1] [W2 P2] HC] & HA & HM) Hn. simpl in *.
  destruct (only_a u c Hin) as (A1 & A2 & A3 & A4 & cs & B1 & B2 & B3 & B4 & B5).
  destruct (schema_entry_child s _ cs B1) as (ce & E1 & E2). rewrite E1. cbn [bind]. rewrite E2.
  destruct (mark_create_ok o s cs c u B1 Ws B2 B3) as (c' & X1 & X2 & _). rewrite X1. cbn [bind].
  destruct (mk_del_ok o s cs c u B1 Ws B2 B3) as (d & D1 & D2 & D3). rewrite D1. cbn [bind].
  eexists. split; [reflexivity |].
  assert (HI := ins_after_last_Ins (w_tag (xtag c)) (W false u d) (ss_self st)).
  assert (Hf : schema_child s (fst u) = Ok cs) by (rewrite B5; auto).
  assert (AL : existsb (w_tag (xtag c)) (ss_self st) || case_allows ce (ss_cho st) = true -> Allowed s la lb (xtag c)).
  { apply (allowed_ok (xtag c) ce); auto. }
  split; [| split; [exact HA |]].
  2:{ destruct (existsb (w_tag (xtag c)) (ss_self st) || case_allows ce (ss_cho st)) eqn:EC; simpl; auto.
      intros w Hw Ho. apply (Ins_In _ w _ _ HI) in Hw. destruct Hw as [Hw | Hw]; [| apply HM; auto].
      subst w. simpl. rewrite B5. apply AL. auto. }
  split; simpl.
  - destruct (existsb (w_tag (xtag c)) (ss_self st) || case_allows ce (ss_cho st)) eqn:EC.
    + assert (HLK : lk dp s la lb c (op_of d)).
      { apply only_in_In in Hin. destruct Hin as [Hin1 Hin2]. apply (HV u c cs d); auto. }
      split.
      * apply (WInv_ins s la lb (ss_self st) _ u d W1 HI); auto. apply (Part_new PS lb u rest); auto.
      * apply (Part_ins PS lb u rest (ss_self st) _ d P1 Hn A4 HI). unfold PS. rewrite A1, A2.
        split; [apply D3; exact HLK | apply KeyP_only2; auto].
      * apply (ObuOK_add s (xtag c)); auto.
      * apply (Cover_add u cs rest); auto.
    + split; auto.
      * apply (Part_keep PS lb u rest); auto. unfold PS. rewrite A1, A2. split; [| apply KeyP_only2; auto].
        apply e_supp; [exact HT |]. apply orb_false_iff in EC. destruct EC as [_ EC]. unfold case_allows in EC.
        destruct (ce_case ce) eqn:K1; [| discriminate].
        destruct (assoc pos_eqb (choice_pos ce) (ss_cho st)) as [cp |] eqn:K2; [| discriminate].
        assert (POS : eqb_ok pos_eqb) by (apply list_eqb_ok; exact Nat.eqb_eq).
        apply (assoc_In pos_eqb POS) in K2. destruct (HC _ _ K2) as (v & cb & eb & F1 & F2 & F3 & F4 & F5 & F6).
        exists v, cb, ce, eb. repeat (split; auto). apply (eqb_neq pos_eqb POS) in EC. congruence.
      * apply (ObuOK_add s (xtag c)); auto.
      * apply (Cover_add u cs rest); auto.
  - split.
    + apply WInv_upd; auto.
    + apply (Part_upd PO la u rest); auto. apply KeyP_only1. auto.
  - exact HC.
Qed.

(** Result of a recursive call on children with the same identity *)
Definition SubRes (n : nat) (cs : snode) (ca cb d a' : xml) : Prop :=
  xtag d = xtag cb /\ xtext d = xtext cb /\
  ((xattrs d = [] /\ lk_deep n cs (xkids ca) (xkids cb) /\ IsD n cs (xkids ca) (xkids cb) (xkids d)) \/
   (lk_repl n cs (xkids ca) (xkids cb) /\ d = set_attr operation_tag "replace" cb)) /\
  xtag a' = xtag ca /\
  (forall ts, sty cs = TList -> key_tuple cs ca = Ok ts -> key_tuple cs cb = Ok ts ->
     key_tuple cs d = Ok ts /\ key_tuple cs a' = Ok ts).
Definition RecOK (rec : snode -> xml -> xml -> res (xml * xml)) : Prop :=
  forall u cs ca cb, In (u, ca) la -> In (u, cb) lb -> schema_child s (xtag ca) = Ok cs -> In ca (xkids a) -> In cb (xkids b) -> wfs cs = true -> nodeish (sty cs) = true ->
    valid cs ca = true -> valid cs cb = true -> texted cs ca = true \/ B -> texted cs cb = true \/ B ->
    RT B (rec cs cb ca) (fun r => SubRes (S dp) cs ca cb (fst r) (snd r)).

Lemma rec_entry : forall cs ca cb d a' u, schema_child s (xtag cb) = Ok cs -> nodeish (sty cs) = true ->
  valid cs cb = true -> xtag ca = xtag cb -> uid_of s ca = Ok u -> uid_of s cb = Ok u -> SubRes (S dp) cs ca cb d a' ->
  uid_of s d = Ok u /\ uid_of s a' = Ok u /\ EntD dp s la lb (Some ca) (Some cb) (Some d).
Proof.
  intros cs ca cb d a' u Hs N Vcb T Ua Ub (R1 & R2 & R3 & R4 & R5).
  assert (Hs' : schema_child s (xtag ca) = Ok cs) by congruence.
  split; [| split].
  - apply (uid_deep s cs cb); auto. intros ts Ht K.
    destruct (both_keys s cs ca cb u Hs' Hs Ht Ua Ub) as (ts' & K1 & K2). assert (ts' = ts) by congruence. subst.
    apply (R5 ts Ht K1 K2).
  - apply (uid_deep s cs ca); auto. intros ts Ht K.
    destruct (both_keys s cs ca cb u Hs' Hs Ht Ua Ub) as (ts' & K1 & K2). assert (ts' = ts) by congruence. subst.
    apply (R5 ts Ht K1 K2).
  - destruct R3 as [(R3 & RD & R6) | [R6 R3]].
    + apply (e_deep dp s la lb ca cb d cs); auto. apply op_merge; auto.
    + subst d. destruct (set_attr_parts operation_tag "replace" cb) as (P1 & P2 & P3).
      apply (e_repl dp s la lb ca cb _ cs); auto; [apply op_replace |]. apply (Body_congr _ cb); auto.
      apply (Body_refl cb cs Vcb).
Qed.

Lemma user_false : forall cs, sty cs <> TLeafList -> sty cs <> TList -> is_user_seq cs = false.
Proof. intros cs H1 H2. destruct (is_user_seq cs) eqn:E; auto. apply is_user_seq_iff in E. destruct E as [_ [E | E]]; contradiction. Qed.
Lemma user_false' : forall cs, s_user (si cs) = false -> is_user_seq cs = false.
Proof. intros cs H. unfold is_user_seq. rewrite H. reflexivity. Qed.
Lemma user_true : forall cs, s_user (si cs) = true -> sty cs = TLeafList \/ sty cs = TList -> is_user_seq cs = true.
Proof. intros cs H1 H2. apply is_user_seq_iff. auto. Qed.

(** An entry that is in both and equal *)
Lemma leaf_same : forall cs ca cb, leafish (sty cs) = true -> valid cs ca = true -> valid cs cb = true ->
  xtag ca = xtag cb -> xtext ca = xtext cb -> Same cs ca cb.
Proof.
  intros cs ca cb L V1 V2 T X. rewrite (leafish_eq cs ca cb V1 V2 L T X). apply Same_refl. auto.
Qed.

Lemma drop_ok : forall u cs ca cb rest st m, SubInv (u :: rest) st -> ~ In u rest ->
  assoc uid_eqb u la = Some ca -> assoc uid_eqb u lb = Some cb -> fst u = xtag cb ->
  schema_child s (xtag cb) = Ok cs -> xtag ca = xtag cb -> Same cs ca cb -> is_user_seq cs = false ->
  s_is_key (si cs) = false -> (m = ss_obu st \/ m = obu_add cs (ss_obu st)) ->
  SubInv rest (SState (w_del u (ss_self st)) (w_del u (ss_other st)) m (ss_cho st)).
Proof.
  intros u cs ca cb rest st m [[W1 P1 O1 C1] [W2 P2] HC] Hn A1 A2 Hf Hs T S U K Hm.
  assert (Hs' : schema_child s (fst u) = Ok cs) by (rewrite Hf; auto).
  assert (Em : m = ss_obu st).
  { destruct Hm as [Hm | Hm]; auto. unfold obu_add in Hm. rewrite U in Hm. auto. } subst m.
  split; simpl; auto.
  - split; auto.
    + apply WInv_del; auto. intros cs' X. congruence.
    + apply Part_del; auto. unfold PS. rewrite A1, A2.
      split; [apply (e_same dp s la lb ca cb cs); auto; congruence | apply (KeyP_nokey la lb u None cs); auto].
    + apply (Cover_keep u); auto. intros cs' _ X. congruence.
  - split.
    + apply WInv_del; auto. intros cs' X. congruence.
    + apply Part_del; auto. apply (KeyP_nokey lb la u None cs); auto.
Qed.

Lemma put_ok : forall u cs ca cb a1 b1 rest st m, SubInv (u :: rest) st -> ~ In u rest ->
  assoc uid_eqb u la = Some ca -> assoc uid_eqb u lb = Some cb -> fst u = xtag cb ->
  schema_child s (xtag cb) = Ok cs -> uid_of s a1 = Ok u -> uid_of s b1 = Ok u ->
  EntD dp s la lb (Some ca) (Some cb) (Some a1) -> KeyP la lb u (Some a1) -> KeyP lb la u (Some b1) ->
  (m = ss_obu st /\ is_user_seq cs = false \/ m = obu_add cs (ss_obu st)) ->
  SubInv rest (SState (w_upd u a1 (ss_self st)) (w_upd u b1 (ss_other st)) m (ss_cho st)).
Proof.
  intros u cs ca cb a1 b1 rest st m [[W1 P1 O1 C1] [W2 P2] HC] Hn A1 A2 Hf Hs U1 U2 E K1 K2 Hm.
  assert (Hs' : schema_child s (fst u) = Ok cs) by (rewrite Hf; auto).
  split; simpl; auto.
  - split.
    + apply WInv_upd; auto.
    + apply Part_upd; auto; [eapply assoc_Some_In_uids; eauto |]. unfold PS. rewrite A1, A2. auto.
    + destruct Hm as [[Hm _] | Hm]; subst; auto. apply (ObuOK_add s (fst u)); auto.
    + destruct Hm as [[Hm N] | Hm]; subst; [| apply Cover_add with (u := u); auto].
      apply (Cover_keep u); auto. intros cs' _ X. congruence.
  - split.
    + apply WInv_upd; auto.
    + apply Part_upd; auto. eapply assoc_Some_In_uids; eauto.
Qed.

Lemma keep_ok : forall u cs ca cb rest st, SubInv (u :: rest) st -> ~ In u rest ->
  assoc uid_eqb u la = Some ca -> assoc uid_eqb u lb = Some cb -> fst u = xtag cb ->
  schema_child s (xtag cb) = Ok cs -> is_user_seq cs = false ->
  EntD dp s la lb (Some ca) (Some cb) (Some cb) -> SubInv rest st.
Proof.
  intros u cs ca cb rest st [[W1 P1 O1 C1] [W2 P2] HC] Hn A1 A2 Hf Hs U E.
  assert (Hs' : schema_child s (fst u) = Ok cs) by (rewrite Hf; auto).
  split; auto; split; auto.
  - apply (Part_keep PS lb u); auto. unfold PS. rewrite A1, A2. split; auto. apply KeyP_keep; auto.
  - apply (Cover_keep u); auto. intros cs' _ X. congruence.
  - apply (Part_keep PO la u); auto. rewrite A1. apply KeyP_keep; auto.
Qed.

Lemma step_both : forall o rec p rest st, RecOK rec -> In p (both_in lb la) -> SubInv (fst (fst p) :: rest) st ->
  ~ In (fst (fst p)) rest -> RT B (sub_both o rec s st p) (SubInv rest).
Proof.
  intros o rec [[u cb] ca] rest st HR Hin HI Hn. simpl in HI, Hn.
  destruct (both_ab u cb ca Hin) as (A1 & A2 & A3 & A4 & A5 & A6 & T & Ua & Ub & cs & B1 & B2 & B3 & B4 & B5).
  assert (Hs' : schema_child s (xtag ca) = Ok cs) by congruence.
  assert (Hf : schema_child s (fst u) = Ok cs) by (rewrite B5; auto).
  assert (Aa := proj1 (valid_inv cs ca B2)). assert (Ab := proj1 (valid_inv cs cb B3)).
  assert (Oca : texted cs ca = true \/ B) by (destruct Oa as [Oa' |]; auto; left; apply (texted_kid s a ca cs Oa' A5 Hs')).
  assert (Ocb : texted cs cb = true \/ B) by (destruct Ob as [Ob' |]; auto; left; apply (texted_kid s b cb cs Ob' A6 B1)).
  unfold sub_both. rewrite B1. cbn [bind].
  assert (HN : sty cs <> TLeaf -> s_is_key (si cs) = false).
  { intro N. destruct (s_is_key (si cs)) eqn:K; auto. destruct (wfs_is_key s _ cs Ws B1 K) as (_ & X & _). contradiction. }
  assert (Hsub : forall m, nodeish (sty cs) = true -> (m = ss_obu st /\ is_user_seq cs = false \/ m = obu_add cs (ss_obu st)) ->
    RT B (let! ab := rec cs cb ca in Ok (SState (w_upd u (fst ab) (ss_self st)) (w_upd u (snd ab) (ss_other st)) m (ss_cho st))) (SubInv rest)).
  { intros m N Hm. destruct (HR u cs ca cb (proj1 (Index_assoc s _ la u ca Ia) A1) (proj1 (Index_assoc s _ lb u cb Ib) A2) Hs' A5 A6 B4 N B2 B3 Oca Ocb) as [([d a'] & R1 & R2) | [R1 R2]]; rewrite R1; cbn [bind fst snd]; [| right; auto].
    left. eexists. split; [reflexivity |]. destruct (rec_entry cs ca cb d a' u B1 N B3 T Ua Ub R2) as (U1 & U2 & E).
    assert (NL : sty cs <> TLeaf) by (intro X; rewrite X in N; discriminate).
    apply (put_ok u cs ca cb d a'); auto; apply (KeyP_notkey _ _ u _ cs); auto. }
  destruct (nonroot_data s _ cs cb Ws B1 B3) as [L | L].
  - assert (HE : forall op, op_of op = OpMerge \/ op_of op = OpReplace -> xtext op = xtext cb -> xkids op = xkids cb ->
              EntD dp s la lb (Some ca) (Some cb) (Some op)).
    { intros x Hx X1 X2. apply (e_leaf dp s la lb ca cb x cs); auto. apply (Body_congr x cb); auto. apply (Body_refl cb cs B3). }
    destruct (sty cs) eqn:Ht; try discriminate.
    + assert (NU : is_user_seq cs = false) by (apply user_false; congruence).
      destruct (valid_same_text cs cb ca B3 B2) as (sm & M1 & M2). rewrite M1. cbn [bind].
      unfold value_of in M2. rewrite Ht in M2. destruct sm.
      * assert (X : xtext ca = xtext cb) by (symmetry; apply M2; auto).
        destruct (s_is_key (si cs)) eqn:K.
        -- left. eexists. split; [reflexivity |]. apply (keep_ok u cs ca cb); auto. apply HE; auto. left. apply op_merge. auto.
        -- left. eexists. split; [reflexivity |]. apply (drop_ok u cs ca cb); auto. apply leaf_same; auto. rewrite Ht. auto.
      * assert (X : xtext ca <> xtext cb) by (intro X; assert (false = true) by (apply M2; auto); discriminate).
        destruct (o_replace o).
        -- left. eexists. split; [reflexivity |]. apply (keep_ok u cs ca cb); auto. apply HE; auto. left. apply op_merge. auto.
        -- left. eexists. split; [reflexivity |].
           destruct (set_attr_parts operation_tag "replace" cb) as (P1 & P2 & P3).
           apply (put_ok u cs ca cb); auto; rewrite ?uid_set_attr; auto.
           ++ apply HE; auto. right. apply op_replace.
           ++ apply (KeyP_diff la lb u _ ca cb); auto.
           ++ apply (KeyP_diff lb la u _ cb ca); auto.
    + assert (X : xtext ca = xtext cb).
      { rewrite (uid_leaflist s ca cs Hs' Ht) in Ua. rewrite (uid_leaflist s cb cs B1 Ht) in Ub. congruence. }
      destruct (s_user (si cs)) eqn:U.
      * left. eexists. split; [reflexivity |]. apply (put_ok u cs ca cb); auto.
        -- apply HE; auto. left. apply op_merge. auto.
        -- apply KeyP_keep; auto.
        -- apply KeyP_keep; auto.
      * left. eexists. split; [reflexivity |]. apply (drop_ok u cs ca cb); auto.
        -- apply leaf_same; auto. rewrite Ht. auto.
        -- apply user_false'. auto.
        -- apply HN. congruence.
  - destruct (node_eq_total cs cb ca B3 B2) as (e & Q1 & Q2).
    destruct (sty cs) eqn:Ht; try discriminate.
    + assert (NU : is_user_seq cs = false) by (apply user_false; congruence).
      rewrite Q1. cbn [bind]. destruct e.
      * left. eexists. split; [reflexivity |]. apply (drop_ok u cs ca cb); auto.
        -- apply Same_sym. apply Q2. auto.
        -- apply HN. congruence.
      * apply Hsub; auto.
    + rewrite Q1. cbn [bind]. destruct e.
      * assert (S : Same cs ca cb) by (apply Same_sym; apply Q2; auto).
        destruct (s_user (si cs)) eqn:U.
        -- destruct (strip_ok s cs ca cb u B1 B4 Ht B2 B3 S Ub) as (d & D1 & D2 & D3 & D4). rewrite D1. cbn [bind].
           destruct (strip_ok s cs cb ca u Hs' B4 Ht B3 B2 (Same_sym _ _ _ S) Ua) as (d' & F1 & F2 & F3 & F4). rewrite F1. cbn [bind].
           left. eexists. split; [reflexivity |]. apply (put_ok u cs ca cb); auto; apply (KeyP_notkey _ _ u _ cs); auto; congruence.
        -- left. eexists. split; [reflexivity |]. apply (drop_ok u cs ca cb); auto.
           ++ apply user_false'. auto.
           ++ apply HN. congruence.
      * apply Hsub; auto.
Qed.

(** *** get_config_replace *)
Definition RInv (todo : list uid) (st : rstate) : Prop := SelfInv todo (r_self st) (r_obu st).

Lemma rstep_only_self : forall p rest st, In p (only_in lb la) -> RInv (fst p :: rest) st -> ~ In (fst p) rest ->
  exists st', repl_only_self s st p = Ok st' /\ RInv rest st'.
Proof.
  intros [u c] rest st Hin [W1 P1 O1 C1] Hn. simpl in *.
  destruct (only_b u c Hin) as (A1 & A2 & A3 & A4 & cs & B1 & B2 & B3 & B4 & B5).
  rewrite B1. cbn [bind]. destruct (mark_replace_new s cs c u B1 B2 B3) as [Y1 Y2].
  assert (Hf : schema_child s (fst u) = Ok cs) by (rewrite B5; auto).
  eexists. split; [reflexivity |]. split; simpl.
  - apply WInv_upd; auto.
  - apply (Part_upd PS lb u rest); auto. unfold PS. rewrite A1, A2. split; [apply Y2 | apply KeyP_only1; auto].
  - apply (ObuOK_add s (xtag c)); auto.
  - apply (Cover_add u cs rest); auto.
Qed.

Lemma rstep_only_other : forall o p rest st, Lvl o dp true s la lb -> In p (only_in la lb) -> RInv (fst p :: rest) st -> ~ In (fst p) rest ->
  exists st', repl_only_other o s st p = Ok st' /\ RInv rest st'.
Proof.
  intros o [u c] rest st HV Hin [W1 P1 O1 C1] Hn. simpl in *.
  destruct (only_a u c Hin) as (A1 & A2 & A3 & A4 & cs & B1 & B2 & B3 & B4 & B5).
  rewrite B1. cbn [bind]. destruct (mk_del_ok o s cs c u B1 Ws B2 B3) as (d & D1 & D2 & D3). rewrite D1. cbn [bind].
  eexists. split; [reflexivity |].
  assert (HI := ins_after_last_Ins (w_tag (xtag c)) (W false u d) (r_self st)).
  split; simpl; auto.
  - apply (WInv_ins s la lb (r_self st) _ u d W1 HI); auto. apply (Part_new PS lb u rest); auto.
  - apply (Part_ins PS lb u rest (r_self st) _ d P1 Hn A4 HI). unfold PS. rewrite A1, A2.
    split; [apply D3 | apply KeyP_only2; auto]. apply only_in_In in Hin. destruct Hin as [Hin1 Hin2].
    apply (HV u c cs d); auto.
  - apply (Cover_keep u); auto. intros cs' X. contradiction.
Qed.

Lemma rdrop_ok : forall u cs ca cb rest st m, RInv (u :: rest) st -> ~ In u rest ->
  assoc uid_eqb u la = Some ca -> assoc uid_eqb u lb = Some cb -> fst u = xtag cb ->
  schema_child s (xtag cb) = Ok cs -> xtag ca = xtag cb -> Same cs ca cb -> is_user_seq cs = false ->
  s_is_key (si cs) = false -> (m = r_obu st \/ m = obu_add cs (r_obu st)) ->
  RInv rest (RState (w_del u (r_self st)) m).
Proof.
  intros u cs ca cb rest st m [W1 P1 O1 C1] Hn A1 A2 Hf Hs T S U K Hm.
  assert (Hs' : schema_child s (fst u) = Ok cs) by (rewrite Hf; auto).
  assert (Em : m = r_obu st).
  { destruct Hm as [Hm | Hm]; auto. unfold obu_add in Hm. rewrite U in Hm. auto. } subst m.
  split; simpl; auto.
  - apply WInv_del; auto. intros cs' X. congruence.
  - apply Part_del; auto. unfold PS. rewrite A1, A2.
    split; [apply (e_same dp s la lb ca cb cs); auto; congruence | apply (KeyP_nokey la lb u None cs); auto].
  - apply (Cover_keep u); auto. intros cs' _ X. congruence.
Qed.

Lemma rput_ok : forall u cs ca cb a1 rest st m, RInv (u :: rest) st -> ~ In u rest ->
  assoc uid_eqb u la = Some ca -> assoc uid_eqb u lb = Some cb -> fst u = xtag cb ->
  schema_child s (xtag cb) = Ok cs -> uid_of s a1 = Ok u ->
  EntD dp s la lb (Some ca) (Some cb) (Some a1) -> KeyP la lb u (Some a1) ->
  (m = r_obu st /\ is_user_seq cs = false \/ m = obu_add cs (r_obu st)) ->
  RInv rest (RState (w_upd u a1 (r_self st)) m).
Proof.
  intros u cs ca cb a1 rest st m [W1 P1 O1 C1] Hn A1 A2 Hf Hs U1 E K1 Hm.
  assert (Hs' : schema_child s (fst u) = Ok cs) by (rewrite Hf; auto).
  split; simpl; auto.
  - apply WInv_upd; auto.
  - apply Part_upd; auto; [eapply assoc_Some_In_uids; eauto |]. unfold PS. rewrite A1, A2. auto.
  - destruct Hm as [[Hm _] | Hm]; subst; auto. apply (ObuOK_add s (fst u)); auto.
  - destruct Hm as [[Hm N] | Hm]; subst; [| apply Cover_add with (u := u); auto].
    apply (Cover_keep u); auto. intros cs' _ X. congruence.
Qed.

Lemma pop_set : forall n v x, xattrs x = [] -> pop_attr n (set_attr n v x) = x.
Proof. intros n v [t tx al ks] H. simpl in H. subst. simpl. rewrite String.eqb_refl. reflexivity. Qed.

(** All nodes of both are replaced. *)
Definition Whole : Prop := forall u ca cb cs, In (u, ca) la -> In (u, cb) lb -> schema_child s (xtag ca) = Ok cs ->
  lk_repl (S dp) cs (xkids ca) (xkids cb).

Lemma rstep_both : Whole -> forall p rest st, In p (both_in lb la) -> RInv (fst (fst p) :: rest) st ->
  ~ In (fst (fst p)) rest -> exists st', repl_both s st p = Ok st' /\ RInv rest st'.
Proof.
  intros HR [[u cb] ca] rest st Hin HI Hn. simpl in HI, Hn.
  destruct (both_ab u cb ca Hin) as (A1 & A2 & A3 & A4 & A5 & A6 & T & Ua & Ub & cs & B1 & B2 & B3 & B4 & B5).
  assert (Hs' : schema_child s (xtag ca) = Ok cs) by congruence.
  assert (Aa := proj1 (valid_inv cs ca B2)). assert (Ab := proj1 (valid_inv cs cb B3)).
  unfold repl_both. rewrite B1. cbn [bind]. rewrite node_eq_marked by auto. rewrite pop_set by auto.
  assert (HN : sty cs <> TLeaf -> s_is_key (si cs) = false).
  { intro N. destruct (s_is_key (si cs)) eqn:K; auto. destruct (wfs_is_key s _ cs Ws B1 K) as (_ & X & _). contradiction. }
  destruct (set_attr_parts operation_tag "replace" cb) as (P1 & P2 & P3).
  assert (BR : Body (set_attr operation_tag "replace" cb) cb) by (apply (Body_congr _ cb); auto; apply (Body_refl cb cs B3)).
  assert (RU : uid_of s (set_attr operation_tag "replace" cb) = Ok u) by (rewrite uid_set_attr; auto).
  destruct (nonroot_data s _ cs cb Ws B1 B3) as [L | L].
  - assert (RE : EntD dp s la lb (Some ca) (Some cb) (Some (set_attr operation_tag "replace" cb))).
    { apply (e_leaf dp s la lb ca cb _ cs); auto. right. apply op_replace. }
    destruct (sty cs) eqn:Ht; try discriminate.
    + assert (NU : is_user_seq cs = false) by (apply user_false; congruence).
      destruct (valid_same_text cs cb ca B3 B2) as (sm & M1 & M2). rewrite M1. cbn [bind].
      unfold value_of in M2. rewrite Ht in M2. destruct sm.
      * assert (X : xtext ca = xtext cb) by (symmetry; apply M2; auto).
        destruct (s_is_key (si cs)) eqn:K.
        -- eexists. split; [reflexivity |]. apply (rput_ok u cs ca cb); auto; [| apply KeyP_keep; auto].
           apply (e_leaf dp s la lb ca cb _ cs); auto; [rewrite Ht; auto | left; apply op_merge; auto | apply (Body_refl cb cs B3)].
        -- eexists. split; [reflexivity |]. apply (rdrop_ok u cs ca cb); auto. apply leaf_same; auto. rewrite Ht. auto.
      * assert (X : xtext ca <> xtext cb) by (intro X; assert (false = true) by (apply M2; auto); discriminate).
        eexists. split; [reflexivity |]. apply (rput_ok u cs ca cb); auto. apply (KeyP_diff la lb u _ ca cb); auto.
    + assert (X : xtext ca = xtext cb).
      { rewrite (uid_leaflist s ca cs Hs' Ht) in Ua. rewrite (uid_leaflist s cb cs B1 Ht) in Ub. congruence. }
      destruct (s_user (si cs)) eqn:U.
      * eexists. split; [reflexivity |]. apply (rput_ok u cs ca cb); auto. apply (KeyP_notkey _ _ u _ cs); auto; congruence.
      * eexists. split; [reflexivity |]. apply (rdrop_ok u cs ca cb); auto.
        -- apply leaf_same; auto. rewrite Ht. auto.
        -- apply user_false'. auto.
        -- apply HN. congruence.
  - assert (RE : EntD dp s la lb (Some ca) (Some cb) (Some (set_attr operation_tag "replace" cb))).
    { apply (e_repl dp s la lb ca cb _ cs); auto; [apply op_replace |].
      apply (HR u); auto; [apply (Index_assoc s _ la u ca Ia) | apply (Index_assoc s _ lb u cb Ib)]; auto. }
    destruct (node_eq_total cs cb ca B3 B2) as (e & Q1 & Q2).
    assert (NK : forall x, sty cs <> TLeaf -> KeyP la lb u x).
    { intros x N. apply (KeyP_notkey _ _ u _ cs); auto. rewrite B5. auto. }
    destruct (sty cs) eqn:Ht; try discriminate.
    + assert (NU : is_user_seq cs = false) by (apply user_false; congruence).
      rewrite Q1. cbn [bind]. destruct e; eexists; (split; [reflexivity |]).
      * apply (rdrop_ok u cs ca cb); auto; [apply Same_sym; apply Q2; auto | apply HN; congruence].
      * apply (rput_ok u cs ca cb); auto. apply NK. congruence.
    + rewrite Q1. cbn [bind]. destruct (e && negb (s_user (si cs))) eqn:EU; eexists; (split; [reflexivity |]).
      * apply andb_true_iff in EU. destruct EU as [EU NU]. apply negb_true_iff in NU.
        apply (rdrop_ok u cs ca cb); auto; [apply Same_sym; apply Q2; auto | apply user_false'; auto | apply HN; congruence].
      * apply (rput_ok u cs ca cb); auto. apply NK. congruence.
Qed.

Lemma replace_level : forall o, Lvl o dp true s la lb /\ Whole -> RT B (config_replace o s b a) (fun d => xtag d = xtag b /\ xtext d = xtext b /\ xattrs d = xattrs b /\
  IsD dp s (xkids a) (xkids b) (xkids d) /\
  forall ts, sty s = TList -> key_tuple s a = Ok ts -> key_tuple s b = Ok ts -> key_tuple s d = Ok ts).
Proof.
  intros o [HV HR]. unfold config_replace. rewrite (group_ok s _ _ lb la Ib Ia). cbn [bind in_1_not_2 in_2_not_1 in_1_and_2].
  rewrite (proj2 (index_ok s _ lb) Ib). cbn [bind].
  destruct (loop_ok RInv fst (repl_only_self s) (only_in lb la) (T2 ++ T3) (RState (w_init lb) []))
    as (st1 & S1 & I1); [apply rstep_only_self | apply T_NoDup | apply SelfInv_init |]. rewrite S1. cbn [bind].
  assert (ND := T_NoDup). apply NoDup_app_r in ND.
  destruct (loop_ok RInv fst (repl_only_other o s) (only_in la lb) T3 st1)
    as (st2 & S2 & I2); [intros p rest st0; apply rstep_only_other; auto | apply ND | apply I1 |]. rewrite S2. cbn [bind].
  apply NoDup_app_r in ND.
  destruct (loop_ok RInv (fun p => fst (fst p)) (repl_both s) (both_in lb la) [] st2)
    as (st3 & S3 & I3); [apply rstep_both; exact HR | rewrite app_nil_r; apply ND | rewrite app_nil_r; apply I2 |]. rewrite S3. cbn [bind].
  destruct (self_done _ _ I3) as [(L' & F1 & F2 & F3) | [F1 F2]]; rewrite F1; cbn [bind]; [| right; auto].
  left. eexists. split; [reflexivity |]. destruct b as [t tx al ks]. simpl. repeat (split; auto).
Qed.

Lemma sub_level : forall o rec, Lvl o dp false s la lb /\ lk_stay dp -> RecOK rec -> RT B
  (let! g := group_kids s (xkids b) (xkids a) in
   let! l1 := index_kids s (xkids b) in
   let! l2 := index_kids s (xkids a) in
   let! st1 := foldM (sub_only_self o s) (SState (w_init l1) (w_init l2) [] []) (in_1_not_2 g) in
   let! st2 := foldM (sub_only_other o s) st1 (in_2_not_1 g) in
   let! st3 := foldM (sub_both o rec s) st2 (in_1_and_2 g) in
   let! ls := all_seq_attrs (ss_obu st3) (ss_self st3) in
   let! lo := all_seq_attrs (ss_obu st3) (ss_other st3) in
   Ok (set_kids (map w_xml ls) b, set_kids (map w_xml lo) a)) (fun r => let (d, a') := r in
  xtag d = xtag b /\ xtext d = xtext b /\ xattrs d = xattrs b /\ IsD dp s (xkids a) (xkids b) (xkids d) /\ xtag a' = xtag a /\
  forall ts, sty s = TList -> key_tuple s a = Ok ts -> key_tuple s b = Ok ts -> key_tuple s d = Ok ts /\ key_tuple s a' = Ok ts).
Proof.
  intros o rec HV HR. rewrite (group_ok s _ _ lb la Ib Ia). cbn [bind in_1_not_2 in_2_not_1 in_1_and_2].
  rewrite (proj2 (index_ok s _ lb) Ib), (proj2 (index_ok s _ la) Ia). cbn [bind].
  destruct (loop_ok SubInv1 fst (sub_only_self o s) (only_in lb la) (T2 ++ T3) (SState (w_init lb) (w_init la) [] []))
    as (st1 & S1 & I1 & HA & HM); [apply step_only_self | apply T_NoDup | |].
  { split; [| split]; simpl.
    - split; simpl; [apply SelfInv_init | apply OtherInv_init | intros p q H; destruct H].
    - intros v cb eb F1 F2 F3 F4. left. apply in_or_app. left. apply in_map_iff. exists (v, cb). split; auto.
      apply only_in_In. auto.
    - intros w Hw Ho. apply in_map_iff in Hw. destruct Hw as (e & E & _). subst w. discriminate. }
  rewrite S1. cbn [bind].
  assert (ND := T_NoDup). assert (ND0 := ND). apply NoDup_app_r in ND.
  assert (HA0 : ChoAll [] (ss_cho st1)).
  { intros v cb eb F1 F2 F3 F4. destruct (HA v cb eb F1 F2 F3 F4) as [X | X]; auto. exfalso.
    assert (Y : In v T1) by (apply in_map_iff; exists (v, cb); split; auto; apply only_in_In; auto).
    clear -ND0 X Y. induction T1 as [| z r IH]; [destruct Y |]. simpl in ND0. inversion ND0; subst.
    destruct Y as [Y | Y]; auto. subst. apply H1. apply in_or_app. auto. }
  destruct (loop_ok SubInv2 fst (sub_only_other o s) (only_in la lb) T3 st1)
    as (st2 & S2 & I2 & _); [intros p rest st0; apply step_only_other; auto | apply ND | split; auto |]. rewrite S2. cbn [bind].
  apply NoDup_app_r in ND.
  destruct (loop_rt SubInv (fun p => fst (fst p)) (sub_both o rec s) (both_in lb la) [] st2)
    as [(st3 & S3 & I3) | [S3 I3]]; [intros p rest st0 Hp; apply step_both; auto | rewrite app_nil_r; apply ND | rewrite app_nil_r; apply I2 | |]; rewrite S3; cbn [bind]; [| right; auto].
  destruct I3 as [J1 J2 J3].
  destruct (self_done _ _ J1) as [(L' & F1 & F2 & F3) | [F1 F2]]; rewrite F1; cbn [bind]; [| right; auto].
  destruct (other_done _ (ss_obu st3) J2) as [(M' & G1 & G3) | [G1 G3]]; [apply J1 | |]; rewrite G1; cbn [bind]; [| right; auto].
  left. eexists. split; [reflexivity |]. destruct b as [t tx al ks], a as [t' tx' al' ks']. simpl. repeat (split; auto).
Qed.
End Level.

(** ** All levels *)
Lemma leaf_list_tags_ok : forall s l, (forall c, In c l -> exists cs, schema_child s (xtag c) = Ok cs) ->
  exists ts, leaf_list_tags s l = Ok ts /\ forall t, In t ts -> exists cs, schema_child s t = Ok cs.
Proof.
  intros s l H. unfold leaf_list_tags.
  assert (G : exists tt, mapM (fun c => let! cs := schema_child s (xtag c) in
                            Ok (match sty cs with TLeafList => [xtag c] | _ => [] end)) l = Ok tt /\
            forall t, In t (concat tt) -> exists cs, schema_child s t = Ok cs).
  { induction l as [| c r IH]; [exists []; split; auto; intros t X; destruct X |].
    destruct IH as (tt & I1 & I2); [intros; apply H; right; auto |]. destruct (H c (or_introl eq_refl)) as (cs & Hs).
    cbn [mapM]. rewrite Hs. cbn [bind]. rewrite I1. cbn [bind]. eexists. split; [reflexivity |].
    intros t Ht. simpl in Ht. apply in_app_or in Ht. destruct Ht as [Ht | Ht]; auto.
    destruct (sty cs); simpl in Ht; try contradiction. destruct Ht as [E | []]. subst. eauto. }
  destruct G as (tt & G1 & G2). rewrite G1. cbn [bind]. eauto.
Qed.

Lemma leaf_lists_total : forall s l1 l2, (forall c, In c l1 -> exists cs, schema_child s (xtag c) = Ok cs) ->
  (forall c, In c l2 -> exists cs, schema_child s (xtag c) = Ok cs) -> exists e, leaf_lists_differ s l1 l2 = Ok e.
Proof.
  intros s l1 l2 H1 H2. unfold leaf_lists_differ.
  destruct (leaf_list_tags_ok s l1 H1) as (t1 & A1 & A2). destruct (leaf_list_tags_ok s l2 H2) as (t2 & B1 & B2).
  rewrite A1, B1. cbn [bind].
  assert (G : forall ts, (forall t, In t ts -> exists cs, schema_child s t = Ok cs) ->
            exists bs, mapM (fun t => same_leaf_list s t l1 l2) ts = Ok bs).
  { induction ts as [| t r IH]; intro H; [exists []; auto |].
    destruct IH as (bs & I); [intros; apply H; right; auto |]. destruct (H t (or_introl eq_refl)) as (cs & Hs).
    cbn [mapM]. unfold same_leaf_list at 1. rewrite Hs. cbn [bind]. destruct (s_user (si cs)); cbn [bind]; rewrite I; cbn [bind]; eauto. }
  destruct (G (filter (fun t => mem String.eqb t t2) t1)) as (bs & E).
  { intros t Ht. apply filter_In in Ht. apply A2. tauto. }
  rewrite E. cbn [bind]. eauto.
Qed.

Theorem node_sub_rt : forall B f o n s a b, height b <= f -> wfs s = true -> validk s a -> validk s b ->
  xattrs b = [] -> texted s a = true \/ B -> texted s b = true \/ B -> Lvls o n s (xkids a) (xkids b) ->
  ~ RLevel o n -> (forall m, n = S m -> ~ RLevel o m) ->
  RT B (node_sub f o s (Z.of_nat n) b a) (fun r => SubRes n s a b (fst r) (snd r) /\
    (o_replace o = PRMerge -> xattrs (fst r) = [])).
Proof.
  intro B. induction f as [| f IH]; intros o n s a b Hf W Va Vb Ab Oa Ob HL HN HP.
  - destruct b; simpl in Hf. lia.
  - cbn [node_sub].
    inversion HL as [n0 s0 ka kb la lb Ia Ib L1 L2 L0 LD L3]; subst n0 s0 ka kb.
    specialize (L1 HN). specialize (LD HP).
    assert (D : exists e, match o_replace o with PRMerge => Ok false | PRReplace => leaf_lists_differ s (xkids b) (xkids a) end = Ok e /\
              (o_replace o = PRMerge -> e = false) /\ if e then lk_repl n s (xkids a) (xkids b) else lk_deep n s (xkids a) (xkids b)).
    { destruct (o_replace o) eqn:Er; [exists false; split; auto; split; auto |].
      destruct (leaf_lists_total s (xkids b) (xkids a)) as (e & E); [| | exists e; split; auto; split; [discriminate | destruct e; auto]].
      - intros c Hc. destruct Vb as [_ V]. destruct (V c Hc) as (cs & H & _). eauto.
      - intros c Hc. destruct Va as [_ V]. destruct (V c Hc) as (cs & H & _). eauto. }
    destruct D as (e & D1 & D2 & D3). rewrite D1. cbn [bind]. destruct e.
    + left. eexists. split; [reflexivity |]. cbn [fst snd]. split; [| intro X; specialize (D2 X); discriminate].
      destruct (set_attr_parts operation_tag "replace" b) as (P1 & P2 & P3).
      destruct (set_attr_parts operation_tag "replace" a) as (Q1 & Q2 & Q3).
      repeat (split; auto).
      * unfold key_tuple, find_one_child in *. rewrite P3. auto.
      * unfold key_tuple, find_one_child in *. rewrite Q3. auto.
    + destruct Va as [_ Va']. destruct Vb as [_ Vb'].
      assert (Va : validk s a) by (split; eauto). assert (Vb : validk s b) by (split; eauto).
      assert (SZ : (Z.of_nat n + 1)%Z = Z.of_nat (S n)) by lia.
      destruct (sub_level n s a b la lb W Va Vb Ia Ib B Oa Ob o
        (fun cs a0 b0 => match o_type o with
          | DReplace => if Z.eqb (o_depth o) (Z.of_nat n + 1)
                        then let! a' := config_replace o cs a0 b0 in Ok (a', b0)
                        else node_sub f o cs (Z.of_nat n + 1) a0 b0
          | _ => node_sub f o cs (Z.of_nat n + 1) a0 b0
          end) L1) as [([d a'] & S1 & S2 & S3 & S4 & S5 & S6 & S7) | X]; [| | right; exact X].
      { intros u cs ca cb Uca Ucb Hs Ica Icb Wc N V1 V2 O1 O2.
        assert (HLc := L3 u ca cb cs Uca Ucb Hs). rewrite SZ.
        assert (HPc : forall m, S n = S m -> ~ RLevel o m) by (intros m E; inversion E; subst; auto).
        assert (R : ~ RLevel o (S n) -> RT B (node_sub f o cs (Z.of_nat (S n)) cb ca) (fun r => SubRes (S n) cs ca cb (fst r) (snd r))).
        { intro HNc. destruct (IH o (S n) cs ca cb) as [(r & R1 & R2 & _) | R]; auto using valid_validk.
          - assert (X := height_kid cb b Icb). lia.
          - apply (valid_inv cs cb V2).
          - left. eauto.
          - right. exact R. }
        destruct (o_type o) eqn:Eo; try (apply R; intros [X _]; congruence).
        destruct (Z.eqb (o_depth o) (Z.of_nat (S n))) eqn:Ez; [apply Z.eqb_eq in Ez | apply R; intros [_ X]; apply Z.eqb_neq in Ez; contradiction].
        assert (Vca := valid_validk cs ca V1). assert (Vcb := valid_validk cs cb V2).
        assert (RL : RLevel o (S n)) by (split; auto).
        inversion HLc as [n0 s0 ka kb lca lcb Ilca Ilcb M1 M2 M0 MD M3]; subst n0 s0 ka kb.
        destruct (replace_level (S n) cs ca cb lca lcb Wc Vca Vcb Ilca Ilcb B O1 O2 o (M2 RL)) as [(d & E1 & E2 & E3 & E4 & E5 & E6) | [E1 E2]]; rewrite E1; cbn [bind]; [| right; auto].
        left. eexists. split; [reflexivity |]. cbn [fst snd].
        split; auto. split; auto. split; [left; split; [rewrite E4; apply (valid_inv cs cb V2) | split; auto] |]. split; auto. }
      left. exists (d, a'). split; [exact S1 |]. cbn [fst snd]. split; [| intros _; congruence].
      split; auto. split; auto. split; [left; split; [congruence | split; auto] |]. auto.
Qed.

Theorem node_sub_ok : forall f o n s a b, height b <= f -> wfs s = true -> validk s a -> validk s b ->
  xattrs b = [] -> orderable s a = true -> orderable s b = true -> Lvls o n s (xkids a) (xkids b) ->
  ~ RLevel o n -> (forall m, n = S m -> ~ RLevel o m) ->
  exists d a', node_sub f o s (Z.of_nat n) b a = Ok (d, a') /\ SubRes n s a b d a' /\
    (o_replace o = PRMerge -> xattrs d = []).
Proof.
  intros f o n s a b Hf W Va Vb Ab Oa Ob HL HN HP.
  destruct (node_sub_rt False f o n s a b) as [([d a'] & R1 & R2 & R3) | [_ []]]; auto using orderable_texted.
  exists d, a'. auto.
Qed.
End Late.
