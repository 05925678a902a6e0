(** One level of node_add: the two loops. What is proved about them holds for all pairs of
    configs: the entries of the destination end up as [replay] says, and a node whose deletion
    is left to the server stays. *)
From Coq Require Import String Ascii List Bool Arith ZArith Lia Permutation.
From Verif Require Import Base BaseP XmlM CalcM CalcP NetconfM ListP DataSpec DataP DeltaSpec MoveSpec MoveP DeltaR NameP AddP.
Import ListNotations.
Open Scope string_scope.
Open Scope list_scope.

Section Late.
Context {LK : late}.

(** The entries of a name that is not in the destination keep their order. *)
Definition Rest (la lb l : list ent) : Prop := forall t, (forall w, In w (uids lb) -> fst w <> t) ->
  exists p, seqt t l = filter p (seqt t la).

(** Where a sum ends: [Land n cs oa e cb] if [e] is what becomes of the node [oa] of the
    source, [cb] being that of the destination. *)
Inductive Land : nat -> snode -> option xml -> xml -> xml -> Prop :=
| la_put : forall n cs e cb, Same cs e cb -> Land n cs None e cb
| la_same : forall n cs ca cb, Same cs ca cb -> Land n cs (Some ca) ca cb
| la_leaf : forall n cs ca e cb, leafish (sty cs) = true -> Same cs e cb -> Land n cs (Some ca) e cb
| la_repl : forall n cs ca e cb, lk_repl n cs (xkids ca) (xkids cb) -> Same cs e cb -> Land n cs (Some ca) e cb
| la_deep : forall n cs ca e cb la lb lr, nodeish (sty cs) = true -> xtag e = xtag cb ->
    lk_deep n cs (xkids ca) (xkids cb) \/ Same cs ca cb ->
    Index cs (xkids ca) la -> Index cs (xkids cb) lb -> Index cs (xkids e) lr ->
    (forall u, LandE n cs la lb (assoc uid_eqb u la) (assoc uid_eqb u lb) (assoc uid_eqb u lr)) ->
    (forall t ts, schema_child cs t = Ok ts -> is_user_seq ts = true ->
       filter (fun u => mem uid_eqb u (uids lb)) (seqt t lr) = replay (seqt t la) (seqt t lb)) -> Rest la lb lr ->
    Land n cs (Some ca) e cb
with LandE : nat -> snode -> list ent -> list ent -> option xml -> option xml -> option xml -> Prop :=
| le_none : forall n s la lb, LandE n s la lb None None None
| le_gone : forall n s la lb ca op, lk n s la lb ca op -> LandE n s la lb (Some ca) None None
| le_stay : forall n s la lb ca, lk_stay n -> Suppressed s la lb ca -> LandE n s la lb (Some ca) None (Some ca)
| le_to : forall n s la lb oa e cb cs, schema_child s (xtag e) = Ok cs -> valid cs e = true -> valid cs cb = true ->
    Land (S n) cs oa e cb -> LandE n s la lb oa (Some cb) (Some e).

Definition KL (n : nat) (s : snode) (la lb lr : list ent) : Prop :=
  (forall u, LandE n s la lb (assoc uid_eqb u la) (assoc uid_eqb u lb) (assoc uid_eqb u lr)) /\
  (forall t cs, schema_child s t = Ok cs -> is_user_seq cs = true ->
     filter (fun u => mem uid_eqb u (uids lb)) (seqt t lr) = replay (seqt t la) (seqt t lb)) /\ Rest la lb lr.

Lemma Land_leaf : forall n cs oa e cb, leafish (sty cs) = true -> Land n cs oa e cb -> Same cs e cb.
Proof. intros n cs oa e cb L H. inversion H; subst; auto. destruct (sty cs); discriminate. Qed.

Lemma KL_in : forall n s la lb lr u cb, KL n s la lb lr -> assoc uid_eqb u lb = Some cb ->
  exists e cs, assoc uid_eqb u lr = Some e /\ schema_child s (xtag e) = Ok cs /\ valid cs e = true /\ valid cs cb = true /\
    Land (S n) cs (assoc uid_eqb u la) e cb.
Proof.
  intros n s la lb lr u cb [H _] B. specialize (H u). rewrite B in H.
  inversion H as [| | | n0 s0 l1 l2 oa e cb0 cs H1 H2 H3 H4]; subst. exists e, cs. auto.
Qed.

(** The result of one level is well formed and has the identity of the destination. *)
Lemma KL_valid : forall n cs b r ka la lb lr, wfs cs = true -> nodeish (sty cs) = true -> valid cs b = true -> Index cs (xkids b) lb ->
  xtext r = None -> xattrs r = [] -> Index cs (xkids r) lr -> Index cs ka la ->
  (forall c, In c ka -> exists ds, schema_child cs (xtag c) = Ok ds /\ valid ds c = true) ->
  KL n cs la lb lr -> valid cs r = true.
Proof.
  intros n cs b r ka la lb lr W N Vb Hb Htx Ha Hr Hka Vka HK. apply (valid_intro cs r lr); auto.
  - intros Hnp E. rewrite E in Hr. apply Index_nil_inv in Hr. subst lr. assert (K := np_kids cs b Vb Hnp).
    destruct (xkids b) as [| k ks] eqn:Ek; [contradiction |].
    destruct (Index_In cs _ lb k Hb) as (u & Hin); [left; auto |]. apply (Index_assoc cs _ lb u k Hb) in Hin.
    destruct (KL_in n cs la lb [] u k HK Hin) as (e & ds & X & _). discriminate.
  - intros c Hc. destruct (Index_In cs _ lr c Hr Hc) as (u & Hin). apply (Index_assoc cs _ lr u c Hr) in Hin.
    destruct HK as [HK _]. specialize (HK u). rewrite Hin in HK.
    inversion HK as [| | n0 s0 l1 l2 ca HT HS XN X0 X1 X2 X3 X4 X5 | n0 s0 l1 l2 oa e cb0 ds H1 H2 H3 H4]; subst.
    + apply Vka. symmetry in X3. apply (Index_assoc cs _ la u c Hka) in X3. eapply Index_kid; eauto.
    + eauto.
Qed.

Lemma KL_uid : forall n s cs b r la lb lr u, schema_child s (xtag b) = Ok cs -> wfs cs = true -> nodeish (sty cs) = true ->
  valid cs b = true -> valid cs r = true -> xtag r = xtag b -> Index cs (xkids b) lb -> Index cs (xkids r) lr ->
  KL n cs la lb lr -> uid_of s b = Ok u -> uid_of s r = Ok u.
Proof.
  intros n s cs b r la lb lr u Hs W N Vb Vr T Hb Hr HK Hu.
  assert (Hs' : schema_child s (xtag r) = Ok cs) by congruence.
  destruct (sty cs) eqn:Ht; try discriminate.
  - rewrite (uid_other s b cs) in Hu by (auto; congruence). rewrite (uid_other s r cs) by (auto; congruence). congruence.
  - apply (uid_list s b cs Hs Ht) in Hu. destruct Hu as (ts & H1 & H2). subst u.
    apply (uid_list s r cs Hs' Ht). exists ts. split; [| congruence]. apply (keys_by cs r b lr lb); auto.
    intros k kc c Hk Hkc Hl Ec. destruct (KL_in n cs la lb lr (k, KNone) c HK Ec) as (e & ds & E1 & E2 & E3 & E4 & E5).
    exists e. split; auto. apply Same_sym.
    assert (Te : k = xtag e) by (apply (Index_tag cs _ lr (k, KNone) e Hr); apply (Index_assoc cs _ lr _ e Hr); auto).
    rewrite <- Te in E2. assert (ds = kc) by congruence. subst ds. apply (Land_leaf (S n) kc (assoc uid_eqb (k, KNone) la) e c); auto. rewrite Hl. auto.
Qed.

(** On the pairs of [Ok2] the sum is the destination. *)
Lemma KL_same : forall s ka kb, Ok2 s ka kb -> forall n la lb lr, Index s ka la -> Index s kb lb -> WellId s lr ->
  KL n s la lb lr -> KS s lr lb.
Proof.
  intros s ka kb H. induction H as [s ka kb la0 lb0 IA IB C1 C2 C3 IH]. intros n la lb lr IA' IB' WR (HE & HO & _).
  assert (la = la0) by (eapply Index_fun; eauto). assert (lb = lb0) by (eapply Index_fun; eauto). subst la0 lb0.
  assert (K : forall u, match assoc uid_eqb u lr, assoc uid_eqb u lb with
             | None, None => True | Some e, Some cb => Good s u e cb | _, _ => False end).
  { intro u. specialize (HE u). destruct (assoc uid_eqb u la) as [ca |] eqn:A, (assoc uid_eqb u lb) as [cb |] eqn:B,
      (assoc uid_eqb u lr) as [e |] eqn:R; try (inversion HE; fail); auto.
    - inversion HE as [| | | n0 s0 l1 l2 oa e0 cb0 cs H1 H2 H3 H4]; subst.
      assert (Ue : uid_of s e = Ok u) by (eapply WellId_uid; eauto; apply (assoc_In uid_eqb uid_eqb_ok); auto).
      exists cs. split; auto. split; auto. split; auto. split; auto.
      inversion H4 as [| | | | n0 cs0 ca0 e0 cb0 lca lcb lce N T DP I1 I2 I3 G1 G2 G3]; subst; auto.
      apply (Index_assoc s _ la u ca IA) in A. apply (Index_assoc s _ lb u cb IB) in B.
      assert (Te := uid_tag s e u Ue). assert (Ta := Index_tag s _ la u ca IA A).
      assert (Hs : schema_child s (xtag ca) = Ok cs) by congruence.
      apply (KS_good cs cb e lce lcb); auto.
      + apply (valid_text cs e H2); intro X; rewrite X in N; discriminate.
      + apply (valid_inv cs e H2).
      + apply (IH u ca cb cs A B Hs (S n) lca lcb lce); auto; [eapply Index_WellId; eauto | split; auto].
    - inversion HE as [| | n0 s0 l1 l2 ca0 HT HS | ]; subst. 
      exact (C2 u e (proj1 (Index_assoc s _ la u e IA) A) (proj1 (assoc_None_uids u lb) B) HS).
    - inversion HE as [| | | n0 s0 l1 l2 oa e0 cb0 cs H1 H2 H3 H4]; subst. exists cs. split; auto. split; auto. split; auto. split.
      + inversion H4; subst; auto.
      + eapply WellId_uid; eauto. apply (assoc_In uid_eqb uid_eqb_ok). auto. }
  split; [exact K |].
  intros t cs Hs U. rewrite <- (C1 t cs Hs U), <- (HO t cs Hs U). symmetry. apply filter_all. intros w Hw. apply seqt_In in Hw.
  destruct Hw as [Hw _]. apply (mem_In uid_eqb uid_eqb_ok). apply assoc_Some_uids in Hw. destruct Hw as (e & He).
  specialize (K w). rewrite He in K. destruct (assoc uid_eqb w lb) eqn:B; [| contradiction].
  eapply assoc_Some_In_uids; eauto.
Qed.

Definition AddOK (f : nat) : Prop := forall n s a b d,
  height d <= f -> wfs s = true -> validk s a -> validk s b ->
  orderable s a = true -> orderable s b = true ->
  IsD n s (xkids a) (xkids b) (xkids d) ->
  exists la lb lr, node_add f s a d = Ok (set_kids (map snd lr) a) /\ Index s (xkids a) la /\ Index s (xkids b) lb /\
    WellId s lr /\ KL n s la lb lr.

(** An entry of the result that is in the destination *)
Definition Lands (n : nat) (s : snode) (u : uid) (oa : option xml) (e cb : xml) : Prop :=
  exists cs, schema_child s (xtag e) = Ok cs /\ valid cs e = true /\ valid cs cb = true /\ Land (S n) cs oa e cb /\ uid_of s e = Ok u.

Lemma nonroot_data : forall s t cs x, wfs s = true -> schema_child s t = Ok cs -> valid cs x = true ->
  leafish (sty cs) = true \/ nodeish (sty cs) = true.
Proof.
  intros s t cs [t' tx a ks] W Hs V. assert (R := wfs_not_root s t cs W Hs).
  cbn [valid] in V. rewrite !andb_true_iff in V. destruct V as [[[_ V] _] _].
  destruct (sty cs); try discriminate; auto; contradiction.
Qed.

Lemma key_child : forall cs l es k kc kn, Index cs l es -> schema_child cs k = Ok kc -> sty kc = TLeaf ->
  find_kid k l = Some kn -> assoc uid_eqb (k, KNone) es = Some kn.
Proof.
  intros cs l es k kc kn HI Hs Ht Hf. assert (H1 := one_child cs l es k kc HI Hs Ht).
  apply find_some in Hf. destruct Hf as [F1 F2].
  assert (Hin : In kn (kids_tagged k l)) by (apply filter_In; auto).
  rewrite H1 in Hin. destruct (assoc uid_eqb (k, KNone) es) as [c |]; simpl in Hin; [| tauto].
  destruct Hin as [E | []]. congruence.
Qed.

Lemma uid_key : forall s cb cs u k, schema_child s (xtag cb) = Ok cs -> sty cs = TList -> uid_of s cb = Ok u ->
  In k (s_keys (si cs)) -> exists kb, kids_tagged k (xkids cb) = [kb].
Proof.
  intros s cb cs u k Hs Ht Hu Hk. apply (uid_list s cb cs Hs Ht) in Hu. destruct Hu as (ts & H & _).
  apply key_tuple_Forall2 in H. revert ts H Hk. induction (s_keys (si cs)) as [| k0 ks IH]; intros ts H Hk; [destruct Hk |].
  inversion H as [| ? ? ? ? (c & E & _) HF]; subst. destruct Hk as [E' | Hk].
  - subst. eauto.
  - eapply IH; eauto.
Qed.

(** The key copies of a new list entry are the key leaves of the destination. *)
Lemma key_copies_in : forall n s cs cb cd ks u, wfs cs = true -> schema_child s (xtag cb) = Ok cs -> sty cs = TList ->
  valid cs cb = true -> uid_of s cb = Ok u -> key_copies cs cd = Ok ks ->
  IsD n cs ks (xkids cb) (xkids cd) ->
  forall k, In k ks -> In k (xkids cb) /\ exists kc, schema_child cs (xtag k) = Ok kc /\ sty kc = TLeaf.
Proof.
  intros n s cs cb cd ks u W Hs Ht V Hu Hk HI k Hin.
  inversion HI as [? ? ? ? ? lk lb ld IA IB ID HE _]; subst.
  unfold key_copies in Hk. apply mapM_ok in Hk.
  assert (G : exists kt kn, In kt (s_keys (si cs)) /\ find_kid kt (xkids cd) = Some kn /\ k = del_attrib kn).
  { clear -Hk Hin. induction Hk as [| x y l l' H Hk IH]; [destruct Hin |]. destruct Hin as [E | Hin].
    - subst. destruct (find_kid x (xkids cd)) as [kn |] eqn:F; [| discriminate]. inversion H.
      exists x, kn. split; [left |]; auto.
    - destruct (IH Hin) as (kt & kn & H1 & H2 & H3). exists kt, kn. split; [right |]; auto. }
  destruct G as (kt & kn & Hkt & Hf & E).
  destruct (wfs_keys cs W Ht) as [_ HK]. destruct (HK kt Hkt) as (_ & kc & Hkc & Hleaf & _).
  assert (Ad : assoc uid_eqb (kt, KNone) ld = Some kn) by (eapply key_child; eauto).
  assert (Tn : xtag kn = kt).
  { apply find_some in Hf. destruct Hf as [_ Hf]. apply String.eqb_eq in Hf. auto. }
  assert (Tk : xtag k = kt) by (subst k; destruct kn; auto).
  destruct (uid_key s cb cs u kt Hs Ht Hu Hkt) as (kb & Hkb).
  assert (Ab : assoc uid_eqb (kt, KNone) lb = Some kb).
  { eapply key_child; eauto. apply kids_tagged_find. auto. }
  assert (Aa : assoc uid_eqb (kt, KNone) lk = Some k).
  { assert (O := one_child cs ks lk kt kc IA Hkc Hleaf).
    assert (I : In k (kids_tagged kt ks)).
    { apply filter_In. split; auto. rewrite Tk. apply String.eqb_refl. }
    rewrite O in I. destruct (assoc uid_eqb (kt, KNone) lk) as [c |]; simpl in I; [| tauto].
    destruct I as [I | []]. congruence. }
  specialize (HE (kt, KNone)). rewrite Ad, Ab, Aa in HE.
  assert (Ib : In kb (xkids cb)).
  { assert (I : In kb (kids_tagged kt (xkids cb))) by (rewrite Hkb; left; auto). apply filter_In in I. tauto. }
  assert (Tb : xtag kb = kt).
  { assert (I : In kb (kids_tagged kt (xkids cb))) by (rewrite Hkb; left; auto). apply filter_In in I.
    destruct I as [_ I]. apply String.eqb_eq in I. auto. }
  destruct (valid_inv cs cb V) as (_ & _ & Kb). destruct (Kb kb Ib) as (kc' & Hkc' & Vkb).
  rewrite Tb in Hkc'. assert (kc' = kc) by congruence. subst kc'.
  assert (EQ : k = kb).
  { inversion HE as [| | | | | | | | ? ? ? ? ? ? ? c1 S1 L1 O1 B1 | ? ? ? ? ? ? ? c1 S1 L1 O1 B1 | ? ? ? ? ? ? ? c1 S1 L1 O1 B1]; subst.
    - apply (Body_del kc); auto; congruence.
    - rewrite Tk in S1. assert (c1 = kc) by congruence. subst c1. rewrite Hleaf in L1. discriminate.
    - rewrite Tk in S1. assert (c1 = kc) by congruence. subst c1. rewrite Hleaf in L1. discriminate. }
  rewrite EQ in *. split; auto. exists kc. rewrite Tb. auto.
Qed.

(** Inversions *)
Lemma EntD_new : forall n s la lb ob cd, EntD n s la lb None ob (Some cd) ->
  exists cb cs, ob = Some cb /\ schema_child s (xtag cb) = Ok cs /\
    (((op_of cd = OpCreate \/ op_of cd = OpReplace \/ (op_of cd = OpMerge /\ leafish (sty cs) = true)) /\ Body cd cb) \/
     (sty cs = TContainer /\ op_of cd = OpMerge /\ IsD (S n) cs [] (xkids cb) (xkids cd)) \/
     (sty cs = TList /\ op_of cd = OpMerge /\ exists ks, key_copies cs cd = Ok ks /\ IsD (S n) cs ks (xkids cb) (xkids cd))).
Proof.
  intros n s la lb ob cd H. inversion H; subst.
  - exists cb, cs. tauto.
  - exists cb, cs. tauto.
  - exists cb, cs. split; auto. split; auto. right. right. eauto.
Qed.

Lemma EntD_peer : forall n s la lb ca ob cd, EntD n s la lb (Some ca) ob (Some cd) ->
  exists cs, schema_child s (xtag ca) = Ok cs /\
    ((ob = None /\ (op_of cd = OpDelete \/ op_of cd = OpRemove) /\ lk n s la lb ca (op_of cd)) \/
     (ob = None /\ lk n s la lb ca OpMerge /\ np_container cs = true /\ op_of cd = OpMerge /\ IsD (S n) cs (xkids ca) [] (xkids cd)) \/
     exists cb, ob = Some cb /\
       ((leafish (sty cs) = true /\ (op_of cd = OpMerge \/ op_of cd = OpReplace) /\ Body cd cb) \/
        (nodeish (sty cs) = true /\ op_of cd = OpReplace /\ Body cd cb /\ lk_repl (S n) cs (xkids ca) (xkids cb)) \/
        (nodeish (sty cs) = true /\ op_of cd = OpMerge /\ (lk_deep (S n) cs (xkids ca) (xkids cb) \/ Same cs ca cb) /\ IsD (S n) cs (xkids ca) (xkids cb) (xkids cd)))).
Proof.
  intros n s la lb ca ob cd H. inversion H; subst; exists cs; (split; [assumption |]);
    first [tauto | right; right; eexists; split; [reflexivity | tauto]].
Qed.

Section Level.
Variables (f dp : nat) (s : snode) (a b d : xml) (la lb ld : list ent).
Hypothesis IHf : AddOK f.
Hypothesis Hh : height d <= S f.
Hypothesis W : wfs s = true.
Hypothesis Va : validk s a.
Hypothesis Vb : validk s b.
Hypothesis OA : orderable s a = true.
Hypothesis OB : orderable s b = true.
Hypothesis IA : Index s (xkids a) la.
Hypothesis IB : Index s (xkids b) lb.
Hypothesis ID : Index s (xkids d) ld.
Hypothesis HE : forall u, EntD dp s la lb (assoc uid_eqb u la) (assoc uid_eqb u lb) (assoc uid_eqb u ld).
Hypothesis HO : forall t cs, schema_child s t = Ok cs -> is_user_seq cs = true -> OrderOK t cs la lb ld.

Lemma entry_ok : forall x l u c, validk s x -> Index s (xkids x) l -> assoc uid_eqb u l = Some c ->
  exists cs, schema_child s (xtag c) = Ok cs /\ valid cs c = true /\ uid_of s c = Ok u /\ In c (xkids x) /\ fst u = xtag c.
Proof.
  intros x l u c [_ K] HI Hc. apply (Index_assoc s _ l u c HI) in Hc.
  assert (Hk := Index_kid s _ l u c HI Hc). destruct (K c Hk) as (cs & H1 & H2). exists cs.
  split; auto. split; auto. split; [eapply Index_uid; eauto |]. split; auto. eapply Index_tag; eauto.
Qed.

Lemma rec_good : forall cs cb cd x u ka, wfs cs = true -> nodeish (sty cs) = true ->
  schema_child s (xtag cb) = Ok cs -> valid cs cb = true -> uid_of s cb = Ok u -> orderable cs cb = true ->
  height cd <= f -> xtag x = xtag cb -> xtext x = None -> xattrs x = [] -> xkids x = ka ->
  validk cs x -> orderable cs x = true -> IsD (S dp) cs ka (xkids cb) (xkids cd) ->
  exists e, node_add f cs x cd = Ok e /\ (lk_deep (S dp) cs (xkids x) (xkids cb) \/ Same cs x cb -> Lands dp s u (Some x) e cb) /\ (Ok2 cs ka (xkids cb) -> Lands dp s u None e cb).
Proof.
  intros cs cb cd x u ka Wc N Hs V Hu O Hh' T1 T2 T3 Ek Vx Ox HI. subst ka.
  destruct (IHf (S dp) cs x cb cd) as (la' & lb' & lr & R1 & R0 & R2 & R3 & R4); auto.
  { apply valid_validk. auto. }
  exists (set_kids (map snd lr) x). split; auto. set (e := set_kids (map snd lr) x).
  assert (Q : xtag e = xtag cb /\ xtext e = None /\ xattrs e = [] /\ Index cs (xkids e) lr).
  { unfold e. destruct x; simpl in *. split; auto. split; auto. split; auto. apply WellId_Index. auto. }
  destruct Q as (Q1 & Q2 & Q3 & Q4).
  assert (Ve : valid cs e = true) by (apply (KL_valid (S dp) cs cb e (xkids x) la' lb' lr); auto; apply Vx).
  assert (Ue : uid_of s e = Ok u) by (apply (KL_uid (S dp) s cs cb e la' lb' lr u); auto).
  assert (Se : schema_child s (xtag e) = Ok cs) by (rewrite Q1; exact Hs).
  split.
  - intro DP. exists cs. split; auto. split; auto. split; auto. split; auto. destruct R4 as (X1 & X2 & X3).
    apply (la_deep (S dp) cs x e cb la' lb' lr); auto.
  - intro H2. exists cs. split; auto. split; auto. split; auto. split; auto. apply la_put.
    apply (KS_good cs cb e lr lb'); auto. apply (KL_same cs (xkids x) (xkids cb) H2 (S dp) la' lb' lr); auto.
Qed.

Definition place_any (cs : snode) (cd : xml) (l : list ent) (F : ent -> list ent) : Prop :=
  is_user_seq cs = true -> Placed cs cd l F.

Lemma place_exists : forall cs cd l F, place_any cs cd l F -> sty cs = TLeafList \/ sty cs = TList ->
  exists F0, Placed cs cd l F0 /\ (is_user_seq cs = true -> F0 = F).
Proof.
  intros cs cd l F H Ht. destruct (is_user_seq cs) eqn:U.
  - exists F. auto.
  - eexists. split; [apply pl_last | discriminate]. left.
    destruct (s_user (si cs)) eqn:X; auto. exfalso.
    assert (is_user_seq cs = true) by (apply is_user_seq_iff; auto). congruence.
Qed.

Lemma new_child : forall u cd, In (u, cd) ld -> ~ In u (uids la) ->
  exists cb e cs, assoc uid_eqb u lb = Some cb /\ schema_child s (xtag cd) = Ok cs /\ Lands dp s u None e cb /\ fst u = xtag cd /\
  forall l F, ~ In u (uids l) -> place_any cs cd l F ->
    exists l', add_new (node_add f) s l (u, cd) = Ok l' /\ Ins (u, e) l l' /\
      (is_user_seq cs = true -> l' = F (u, e)).
Proof.
  intros u cd Hd Ha. assert (Hd' := Hd). apply (Index_assoc s _ ld u cd ID) in Hd.
  assert (Ht := Index_tag s _ ld u cd ID Hd').
  assert (Hcd : height cd <= f).
  { assert (X := height_kid cd d (Index_kid s _ ld u cd ID Hd')). lia. }
  assert (En := HE u). rewrite (assoc_not_In u la Ha), Hd in En.
  apply EntD_new in En. destruct En as (cb & cs & Eb & Hs & En).
  destruct (entry_ok b lb u cb Vb IB Eb) as (cs' & Hs' & Vc & Hu & Hk & Ht').
  assert (cs' = cs) by congruence. subst cs'.
  assert (Htt : xtag cd = xtag cb) by congruence.
  destruct En as [(Hop & HB) | [(Hty & Hop & HI) | (Hty & Hop & ks & Hks & HI)]].
  - assert (Hdel : del_attrib cd = cb) by (apply (Body_del cs); auto).
    exists cb, cb, cs. split; [exact Eb |]. split; [rewrite Htt; exact Hs |].
    split; [exists cs; repeat (split; auto); apply la_put; apply Same_refl; auto |]. split; [exact Ht |].
    intros l F Hn HF. unfold add_new. rewrite Htt, Hs. cbn [bind]. rewrite Hdel.
    destruct (nonroot_data s _ cs cb W Hs Vc) as [L | L].
    + destruct (sty cs) eqn:Hty; try discriminate.
      * exists (l ++ [(u, cb)]).
        assert (G : op_of cd = OpCreate \/ op_of cd = OpReplace \/ op_of cd = OpMerge) by tauto.
        split; [destruct G as [G | [G | G]]; rewrite G; reflexivity |].
        split; [apply app_Ins |]. intro U. apply is_user_seq_iff in U. destruct U as [_ [U | U]]; congruence.
      * destruct (place_exists cs cd l F HF (or_introl Hty)) as (F0 & P1 & P2).
        exists (F0 (u, cb)).
        assert (G : op_of cd = OpCreate \/ op_of cd = OpReplace \/ op_of cd = OpMerge) by tauto.
        rewrite (Placed_new cs cd l F0 (u, cb) P1). cbn [bind].
        split; [destruct G as [G | [G | G]]; rewrite G; reflexivity |].
        split; [eapply Placed_Ins; eauto |]. intro U. rewrite (P2 U). reflexivity.
    + assert (G : op_of cd = OpCreate \/ op_of cd = OpReplace).
      { destruct Hop as [X | [X | [_ X]]]; auto. destruct (sty cs); discriminate. }
      destruct (sty cs) eqn:Hty; try discriminate.
      * exists (l ++ [(u, cb)]). split; [destruct G as [G | G]; rewrite G; reflexivity |].
        split; [apply app_Ins |]. intro U. apply is_user_seq_iff in U. destruct U as [_ [U | U]]; congruence.
      * destruct (place_exists cs cd l F HF (or_intror Hty)) as (F0 & P1 & P2).
        exists (F0 (u, cb)). rewrite (Placed_new cs cd l F0 (u, cb) P1). cbn [bind].
        split; [destruct G as [G | G]; rewrite G; reflexivity |].
        split; [eapply Placed_Ins; eauto |]. intro U. rewrite (P2 U). reflexivity.
  - assert (Wc := wfs_child s _ cs W Hs).
    destruct (orderable_kid s b cb cs OB Hk Hs) as [_ Oc].
    destruct (rec_good cs cb cd (Elem (xtag cd) None [] []) u []) as (e & R & _ & G); auto.
    { rewrite Hty. auto. }
    { apply validk_nil. }
    assert (Q : Ok2 cs [] (xkids cb)).
    { destruct (valid_inv cs cb Vc) as (_ & (lb' & IB') & _). apply (Ok2_nil_l cs _ lb'). auto. }
    specialize (G Q). clear Q.
    exists cb, e, cs. split; [exact Eb |]. split; [rewrite Htt; exact Hs |]. split; auto. split; auto.
    intros l F Hn HF. unfold add_new. rewrite Hop. rewrite Htt, Hs. cbn [bind]. rewrite Hty.
    rewrite <- Htt. rewrite R. cbn [bind]. exists (l ++ [(u, e)]). split; auto. split; [apply app_Ins |].
    intro U. apply is_user_seq_iff in U. destruct U as [_ [U | U]]; congruence.
  - assert (Wc := wfs_child s _ cs W Hs).
    destruct (orderable_kid s b cb cs OB Hk Hs) as [_ Oc].
    assert (Kin := key_copies_in (S dp) s cs cb cd ks u Wc Hs Hty Vc Hu Hks HI).
    assert (Vx : validk cs (Elem (xtag cd) None [] ks)).
    { inversion HI; subst. split; [simpl; eauto |]. simpl. intros c Hc.
      destruct (Kin c Hc) as [Kc _]. apply (valid_inv cs cb Vc). auto. }
    destruct (rec_good cs cb cd (Elem (xtag cd) None [] ks) u ks) as (e & R & _ & G); auto.
    { rewrite Hty. auto. }
    { apply (orderable_sub cs cb); auto. simpl. intros c Hc. apply Kin. auto. }
    assert (Q : Ok2 cs ks (xkids cb)).
    { destruct Vx as [(lk & ILk) _]. simpl in ILk.
      destruct (valid_inv cs cb Vc) as (_ & (lb' & IB') & _). apply (ok2 cs ks (xkids cb) lk lb'); auto.
      - intros t ts Hts U. apply kept_replay; [apply seqt_NoDup; apply ILk | apply seqt_NoDup; apply IB' |].
        intros w v B. exfalso. apply before_In in B. destruct B as [B _].
        apply seqt_In in B. destruct B as [B1 B2]. apply in_map_iff in B1. destruct B1 as ([w' c] & E & Hin).
        simpl in E. subst w'. assert (Tc := Index_tag cs _ lk w c ILk Hin).
        destruct (Kin c (Index_kid cs _ lk w c ILk Hin)) as (_ & kc & K1 & K2).
        rewrite <- Tc, B2 in K1. assert (kc = ts) by congruence. subst kc.
        apply is_user_seq_iff in U. destruct U as [_ [U | U]]; congruence.
      - intros w c Hin Hnin _. apply Hnin.
        destruct (Kin c (Index_kid cs _ lk w c ILk Hin)) as (Kc & _).
        destruct (Index_In cs _ lb' c IB' Kc) as (w' & Hw').
        assert (X1 := Index_uid cs _ lk w c ILk Hin). assert (X2 := Index_uid cs _ lb' w' c IB' Hw').
        assert (w' = w) by congruence. subst w'. apply (in_map fst) in Hw'. exact Hw'.
      - intros w c c' ts Hin Hin' Hts.
        destruct (Kin c (Index_kid cs _ lk w c ILk Hin)) as (Kc & kc & K1 & K2).
        assert (kc = ts) by congruence. subst kc.
        destruct (Index_In cs _ lb' c IB' Kc) as (w' & Hw').
        assert (X1 := Index_uid cs _ lk w c ILk Hin). assert (X2 := Index_uid cs _ lb' w' c IB' Hw').
        assert (w' = w) by congruence. subst w'.
        assert (c' = c) by (eapply Index_unique; eauto). subst c'.
        destruct (valid_inv cs cb Vc) as (_ & _ & Kv). destruct (Kv c Kc) as (kc & K3 & K4).
        assert (kc = ts) by congruence. subst kc.
        rewrite (leafish_kids ts c K4) by (rewrite K2; auto). apply (Ok2_nil_l ts [] []). apply Index_nil. }
    specialize (G Q). clear Q.
    exists cb, e, cs. split; [exact Eb |]. split; [rewrite Htt; exact Hs |]. split; auto. split; auto.
    intros l F Hn HF. unfold add_new. rewrite Hop. rewrite Htt, Hs. cbn [bind]. rewrite Hty.
    rewrite Hks. cbn [bind].
    destruct (place_exists cs cd l F HF (or_intror Hty)) as (F0 & P1 & P2).
    rewrite (Placed_new cs cd l F0 _ P1). cbn [bind]. rewrite <- Htt. rewrite R. cbn [bind].
    rewrite (Placed_upd cs cd l F0 u _ e P1 Hn). exists (F0 (u, e)). split; auto.
    split; [eapply Placed_Ins; eauto |]. intro U. rewrite (P2 U). reflexivity.
Qed.

(** ** Order of user-ordered entries *)
Definition inb (u : uid) : bool := mem uid_eqb u (uids lb).

Lemma inb_iff : forall u, inb u = true <-> In u (uids lb).
Proof. intro u. apply (mem_In uid_eqb uid_eqb_ok). Qed.

Definition tin (t : string) (e : ent) : bool := String.eqb (fst (fst e)) t && inb (fst e).

Lemma proj_eq : forall t l, filter inb (seqt t l) = map fst (filter (tin t) l).
Proof.
  intros t l. unfold seqt, uids. rewrite !filter_map. f_equal. rewrite filter_filter. apply filter_ext. intro x.
  reflexivity.
Qed.

Lemma last_default : forall {A} (l : list A) y d1 d2, last (y :: l) d1 = last (y :: l) d2.
Proof. intros A l. induction l as [| z l IH]; intros y d1 d2; auto. change (last (z :: l) d1 = last (z :: l) d2). apply IH. Qed.

Lemma Chain_at : forall cs D1 prev e D2, Chain cs prev (D1 ++ e :: D2) ->
  InsAttr cs (last (map (fun x => Some (fst x)) D1) prev) (snd e).
Proof.
  intros cs D1. induction D1 as [| x D1 IH]; intros prev e D2 H; simpl in H.
  - apply H.
  - destruct H as [_ H]. apply IH in H. destruct D1 as [| y D1]; auto.
    change (InsAttr cs (last (map (fun x => Some (fst x)) (y :: D1)) prev) (snd e)).
    cbn [map] in *. rewrite (last_default _ _ prev (Some (fst x))). exact H.
Qed.

Lemma Chain_at_last : forall cs D x e D2, Chain cs None ((D ++ [x]) ++ e :: D2) -> InsAttr cs (Some (fst x)) (snd e).
Proof.
  intros cs D x e D2 H. apply Chain_at in H. rewrite map_app in H. simpl in H. rewrite last_last in H. exact H.
Qed.

Lemma has_tag_uid : forall l t e, WellId s l -> In e l -> has_tag t e = String.eqb (fst (fst e)) t.
Proof.
  intros l t [v x] H Hin. unfold has_tag. simpl. rewrite (uid_tag s x v); auto. eapply WellId_uid; eauto.
Qed.

Definition Known (l : list ent) : Prop := (forall w, In w (uids l) -> In w (uids la) \/ In w (uids lb)) /\ Rest la lb l.

Lemma Rest_same : forall l l', Rest la lb l -> (forall t, (forall w, In w (uids lb) -> fst w <> t) -> seqt t l' = seqt t l) -> Rest la lb l'.
Proof. intros l l' H E t Ht. rewrite (E t Ht). auto. Qed.

Lemma Known_Nam : forall l, Known l -> Nam s l.
Proof.
  intros l [K _] w cs Hw. destruct (K w Hw) as [H | H].
  - apply (orderable_Nam s a la OA IA w cs H).
  - apply (orderable_Nam s b lb OB IB w cs H).
Qed.

Lemma Known_NamU : forall l, Known l -> forall w cs, In w (uids l) -> schema_child s (fst w) = Ok cs -> is_user_seq cs = true -> NamU cs w.
Proof.
  intros l [K _] w cs Hw. destruct (K w Hw) as [H | H].
  - apply (orderable_NamU s a la w cs OA IA H).
  - apply (orderable_NamU s b lb w cs OB IB H).
Qed.

(** Where [node_add] puts an entry whose predecessors in the destination are there. *)
Lemma dseq_split : forall t q1 u cd q2, ld = q1 ++ (u, cd) :: q2 -> fst u = t -> In u (uids lb) ->
  dseq t lb ld = dseq t lb q1 ++ (u, cd) :: dseq t lb q2.
Proof.
  intros t q1 u cd q2 E Ht Hb. rewrite E. unfold dseq. rewrite filter_app'. simpl.
  rewrite Ht, String.eqb_refl. fold (inb u). rewrite (proj2 (inb_iff u) Hb). reflexivity.
Qed.

Lemma after_placed : forall l cs cd v, WellId s l -> Known l -> schema_child s (xtag cd) = Ok cs ->
  is_user_seq cs = true -> InsAttr cs (Some v) cd -> In v (uids l) -> fst v = xtag cd ->
  ref_sibling (sty cs) cd l = Ok v.
Proof.
  intros l cs cd v Wl Kl Hs U HIn Hv Ht.
  apply (ref_sibling_ok s l (xtag cd) cs cd v); auto.
  - eapply wfs_child; eauto.
  - apply (Known_NamU l Kl v cs); auto. congruence.
  - intros w Hw Htw Hty. apply (Known_Nam l Kl w cs); auto; [congruence |]. apply is_user_seq_iff in U. tauto.
Qed.

Lemma proj_first : forall t l e, WellId s l -> tin t e = true ->
  map fst (filter (tin t) (ins_before_first (has_tag t) e l)) = fst e :: map fst (filter (tin t) l).
Proof.
  intros t l e Wl He. rewrite ins_before_first_filter; auto.
  intros x Hx Hq. rewrite (has_tag_uid l t x Wl Hx). unfold tin in Hq. apply andb_true_iff in Hq. tauto.
Qed.

Lemma proj_last : forall t l e, WellId s l -> tin t e = true ->
  map fst (filter (tin t) (ins_after_last (has_tag t) e l)) = map fst (filter (tin t) l) ++ [fst e].
Proof.
  intros t l e Wl He. rewrite ins_after_last_filter; auto; [rewrite map_app; auto |].
  intros x Hx Hq. rewrite (has_tag_uid l t x Wl Hx). unfold tin in Hq. apply andb_true_iff in Hq. tauto.
Qed.

Lemma proj_after : forall t l e v, tin t e = true -> In v (uids l) -> fst v = t -> In v (uids lb) ->
  map fst (filter (tin t) (ins_after_first (has_uid v) e l)) =
  ins_after_first (uid_eqb v) (fst e) (map fst (filter (tin t) l)).
Proof.
  intros t l e v He Hv Ht Hb. rewrite ins_after_first_filter; auto.
  - apply ins_after_first_map. reflexivity.
  - intros x Hx Hq. unfold has_uid in Hq. apply uid_eqb_ok in Hq. subst v. unfold tin.
    rewrite Ht, String.eqb_refl, (proj2 (inb_iff _) Hb). reflexivity.
  - apply existsb_exists. apply in_map_iff in Hv. destruct Hv as (x & E & Hin). exists x. split; auto.
    unfold has_uid. rewrite E. apply uid_eqb_refl.
Qed.

(** The entries of [lb] with tag [t] in [l] *)
Definition proj (t : string) (l : list ent) : list uid := filter inb (seqt t l).
Definition ft (t : string) (us : list uid) : list uid := filter (fun u => String.eqb (fst u) t) us.

Lemma mem_iff : forall u l, mem uid_eqb u l = true <-> In u l.
Proof. intros. apply (mem_In uid_eqb uid_eqb_ok). Qed.
Lemma mem_false : forall u l, mem uid_eqb u l = false <-> ~ In u l.
Proof. intros. apply (mem_not_In uid_eqb uid_eqb_ok). Qed.

Lemma proj_In : forall t l w, In w (proj t l) <-> In w (uids l) /\ fst w = t /\ In w (uids lb).
Proof. intros t l w. unfold proj. rewrite filter_In, seqt_In, inb_iff. tauto. Qed.

Lemma uids_snoc : forall (l : list ent) u c, uids (l ++ [(u, c)]) = uids l ++ [u].
Proof. intros. unfold uids. rewrite map_app. reflexivity. Qed.
Lemma ft_app : forall t l1 l2, ft t (l1 ++ l2) = ft t l1 ++ ft t l2.
Proof. intros. apply filter_app'. Qed.
Lemma ft_one : forall t (u : uid), fst u = t -> ft t [u] = [u].
Proof. intros t u H. unfold ft. simpl. rewrite H, String.eqb_refl. reflexivity. Qed.
Lemma ft_other : forall t (u : uid), fst u <> t -> ft t [u] = [].
Proof. intros t u H. unfold ft. simpl. apply String.eqb_neq in H. rewrite H. reflexivity. Qed.

Definition Ord1 (done : list ent) (l : list ent) : Prop :=
  forall t cs, schema_child s t = Ok cs -> is_user_seq cs = true ->
    proj t l = fold_left (place (seqt t lb)) (ft t (uids done)) (proj t la).

Lemma fold_prefix : forall p q, NoDup (p ++ q) -> fold_left (place (p ++ q)) p [] = p.
Proof.
  intros p. induction p as [| u p IH] using rev_ind; intros q ND; auto.
  rewrite fold_left_app. rewrite <- app_assoc in *. simpl in *. rewrite IH by auto.
  assert (Hn : ~ In u p).
  { apply NoDup_remove_2 in ND. intro X. apply ND. apply in_or_app. auto. }
  unfold place. rewrite (follows_at p u q Hn), (without_id u p Hn).
  rewrite <- (app_nil_r p) at 2. apply put_at. apply (NoDup_app_l p (u :: q)). auto.
Qed.

Lemma order_step1 : forall done u cd rest l cs,
  only_in ld la = done ++ (u, cd) :: rest -> WellId s l -> Known l -> Ord1 done l ->
  (forall w, In w (uids la) \/ In w (uids done) -> In w (uids l)) -> ~ In u (uids l) ->
  schema_child s (xtag cd) = Ok cs -> is_user_seq cs = true -> In u (uids lb) ->
  exists F, Placed cs cd l F /\ forall e, proj (xtag cd) (F (u, e)) = place (seqt (xtag cd) lb) (proj (xtag cd) l) u.
Proof.
  intros done u cd rest l cs Hsp Wl Kl HO1 Hfull Hul Hs U Hb.
  destruct (filter_split _ _ _ _ _ Hsp) as (q1 & q2 & Eld & Eq1 & Eq2).
  assert (Hin : In (u, cd) ld) by (rewrite Eld; apply in_or_app; right; left; auto).
  assert (Ht := Index_tag s _ ld u cd ID Hin).
  set (t := xtag cd) in *.
  assert (ND : NoDup (uids ld)) by apply ID.
  assert (Hds := dseq_split t q1 u cd q2 Eld Ht Hb).
  set (B1 := map fst (dseq t lb q1)). set (B2 := map fst (dseq t lb q2)).
  assert (HB1 : forall w, In w B1 -> In w (uids l)).
  { intros w Hw. apply in_map_iff in Hw. destruct Hw as ([w' x] & E & Hx). simpl in E. subst w'.
    apply filter_In in Hx. destruct Hx as [Hx _]. apply Hfull. destruct (mem uid_eqb w (uids la)) eqn:M.
    - left. apply mem_iff. auto.
    - right. rewrite <- Eq1. apply in_map_iff. exists (w, x). split; auto. apply filter_In. split; auto.
      simpl. rewrite M. auto. }
  assert (NB : NoDup (seqt t lb)) by (apply seqt_NoDup; apply IB).
  assert (Hup : ~ In u (proj t l)) by (rewrite proj_In; tauto).
  assert (Hu1 : forall B', seqt t lb = B1 ++ u :: B' -> ~ In u B1).
  { intros B' E X. rewrite E in NB. apply NoDup_remove_2 in NB. apply NB. apply in_or_app. auto. }
  assert (Htin : forall e, tin t (u, e) = true).
  { intro e. unfold tin. simpl. rewrite Ht, String.eqb_refl, (proj2 (inb_iff u) Hb). reflexivity. }
  assert (Hus : s_user (si cs) = true) by (apply is_user_seq_iff in U; tauto).
  destruct (HO t cs Hs U) as [E1 E2 | E1 E2 E3 | E1 E2].
  - assert (EB : seqt t lb = B1 ++ u :: B2).
    { rewrite <- E1, Hds, map_app. reflexivity. }
    rewrite Hds in E2. unfold place. rewrite (without_id u _ Hup), EB, (follows_at B1 u B2 (Hu1 B2 EB)).
    destruct (dseq t lb q1) as [| x0 D] eqn:Eq using rev_ind.
    + apply Chain_at in E2. simpl in E2.
      exists (fun e => ins_before_first (has_tag (xtag cd)) e l). split; [apply pl_first; auto |].
      intro e. unfold proj. rewrite !proj_eq. fold t. rewrite proj_first; auto.
    + clear IHD. apply Chain_at_last in E2. simpl in E2. set (v := fst x0) in *.
      assert (EB1 : B1 = map fst D ++ [v]) by (unfold B1; rewrite map_app; reflexivity).
      assert (Hv1 : In v B1) by (rewrite EB1; apply in_or_app; right; left; auto).
      assert (Hvt : In v (seqt t lb)) by (rewrite EB; apply in_or_app; auto).
      apply seqt_In in Hvt. destruct Hvt as [Hvb Hvt].
      assert (Hvl : In v (uids l)) by auto.
      exists (fun e => ins_after_first (has_uid v) e l). split.
      * apply pl_after; auto; [apply E2 |]. apply (after_placed l cs cd v); auto.
      * intro e. unfold proj. rewrite !proj_eq. fold t. rewrite proj_after; auto. rewrite EB1, lastx_snoc, put_after. reflexivity.
  - assert (EB : seqt t lb = B1 ++ u :: B2).
    { rewrite <- E2, Hds, map_app. reflexivity. }
    exists (fun e => ins_after_last (has_tag (xtag cd)) e l). split.
    + apply pl_last. right. rewrite Forall_forall in E3. apply (E3 (u, cd)). rewrite Hds. apply in_or_app. right. left. auto.
    + intro e. unfold proj at 1. rewrite proj_eq. fold t. rewrite proj_last; auto.
      rewrite <- proj_eq. fold (proj t l). rewrite !(HO1 t cs Hs U).
      assert (Ed : ft t (uids done) = B1).
      { unfold B1, dseq, ft. rewrite <- Eq1. unfold uids. rewrite filter_map, filter_filter. f_equal.
        apply filter_ext_in. intros [w x] Hw. simpl.
        destruct (String.eqb (fst w) t) eqn:Et; simpl; [| apply andb_false_r].
        assert (Hwd : In (w, x) ld) by (rewrite Eld; apply in_or_app; auto).
        assert (Hwa : mem uid_eqb w (uids la) = false).
        { apply mem_false. intro Y. apply String.eqb_eq in Et. assert (Z : In w (seqt t la)) by (apply seqt_In; auto).
          rewrite E1 in Z. destruct Z. }
        fold (uids la) (uids lb). rewrite Hwa. simpl. symmetry. apply mem_iff.
        destruct (new_child w x Hwd) as (cb & _ & _ & Eb & _); [apply mem_false; auto |].
        eapply assoc_Some_In_uids; eauto. }
      assert (Ea : proj t la = []) by (unfold proj; rewrite E1; reflexivity).
      rewrite Ea, Ed, EB. rewrite EB in NB. rewrite (fold_prefix B1 (u :: B2) NB).
      unfold place. rewrite (follows_at B1 u B2 (Hu1 B2 EB)), (without_id u B1 (Hu1 B2 EB)).
      rewrite <- (app_nil_r B1) at 3. rewrite put_at by (eapply NoDup_app_l; eauto). reflexivity.
  - exfalso. assert (X : In u (seqt t ld)); [| rewrite E1 in X; destruct X].
    apply seqt_In. split; auto. apply (in_map fst) in Hin. exact Hin.
Qed.

(** ** First loop *)
Definition Inv1 (done : list ent) (l : list ent) : Prop :=
  WellId s l /\ Known l /\ Ord1 done l /\
  forall u, if mem uid_eqb u (uids done)
            then exists e cb, assoc uid_eqb u l = Some e /\ assoc uid_eqb u lb = Some cb /\ Lands dp s u None e cb
            else assoc uid_eqb u l = assoc uid_eqb u la.

Lemma WellId_Ins : forall u e l l', WellId s l -> Ins (u, e) l l' -> ~ In u (uids l) -> uid_of s e = Ok u -> WellId s l'.
Proof.
  intros u e l l' [H1 H2] HI Hn Hu. split.
  - apply (Ins_Forall _ (u, e) l l'); auto.
  - unfold uids. apply (Ins_NoDup (fst (u, e)) (map fst l)); auto. apply Ins_map. auto.
Qed.

Lemma Ins_uids : forall u e l l', Ins (u, e) l l' -> forall w, In w (uids l') <-> w = u \/ In w (uids l).
Proof. intros u e l l' H w. apply (Ins_In u w). apply (Ins_map fst (u, e)). auto. Qed.

Lemma loop1_init : Inv1 [] la.
Proof.
  split; [eapply Index_WellId; eauto |]. split; [split; [intros w Hw; auto | intros t _; exists (fun _ => true); symmetry; apply filter_all; auto] |]. split.
  - intros t cs Hs U. reflexivity.
  - intro u. simpl. reflexivity.
Qed.

Lemma loop1_step : forall done x r l, only_in ld la = done ++ x :: r -> Inv1 done l ->
  exists l', add_new (node_add f) s l x = Ok l' /\ Inv1 (done ++ [x]) l'.
Proof.
  intros done [u cd] r l Hsp (Wl & Kl & O1 & HA).
  assert (Hin : In (u, cd) (only_in ld la)) by (rewrite Hsp; apply in_or_app; right; left; auto).
  apply only_in_In in Hin. destruct Hin as [Hin Hnla].
  assert (NDo : NoDup (uids (only_in ld la))).
  { unfold only_in, uids. apply NoDup_map_filter. apply ID. }
  assert (Hnd : ~ In u (uids done)).
  { rewrite Hsp in NDo. unfold uids in NDo. rewrite map_app in NDo. simpl in NDo. apply NoDup_remove_2 in NDo.
    intro X. apply NDo. apply in_or_app. auto. }
  destruct (new_child u cd Hin Hnla) as (cb & e & cs & Eb & Hs & HG & Ht & Hnew).
  assert (Hul : ~ In u (uids l)).
  { specialize (HA u). rewrite (proj2 (mem_false u (uids done)) Hnd) in HA.
    apply assoc_None_uids. rewrite HA. apply assoc_not_In. auto. }
  assert (Hub : In u (uids lb)) by (eapply assoc_Some_In_uids; eauto).
  assert (Hfull : forall w, In w (uids la) \/ In w (uids done) -> In w (uids l)).
  { intros w Hw. specialize (HA w). destruct (mem uid_eqb w (uids done)) eqn:M.
    - destruct HA as (e0 & cb0 & X & _). eapply assoc_Some_In_uids; eauto.
    - apply mem_false in M. destruct Hw as [Hw | Hw]; [| contradiction]. apply assoc_Some_uids in Hw. destruct Hw as (x & Hx).
      rewrite Hx in HA. eapply assoc_Some_In_uids; eauto. }
  assert (HF : exists F, place_any cs cd l F /\ (is_user_seq cs = true -> forall e,
            proj (xtag cd) (F (u, e)) = place (seqt (xtag cd) lb) (proj (xtag cd) l) u)).
  { destruct (is_user_seq cs) eqn:U.
    - destruct (order_step1 done u cd r l cs) as (F & F1 & F2); auto. exists F. split; [intro; exact F1 | auto].
    - exists (fun _ => []). split; [intro X; congruence | discriminate]. }
  destruct HF as (F & F1 & F2). destruct (Hnew l F Hul F1) as (l' & R1 & R2 & R3).
  exists l'. split; auto. destruct HG as (cs' & G1 & G2 & G3 & G4 & G5).
  assert (Te : xtag e = xtag cd) by (rewrite <- (uid_tag s e u G5); auto).
  assert (cs' = cs) by congruence. subst cs'.
  split; [apply (WellId_Ins u e l); auto |]. split.
  { split.
    - intros w Hw. apply (Ins_uids u e l l' R2) in Hw. destruct Hw as [E | Hw]; [subst; auto |]. apply Kl. auto.
    - apply (Rest_same l); [apply Kl |]. intros t Htt. apply (seqt_Ins_other t (u, e) l l' R2). simpl. auto. }
  split.
  - intros t ts Hts Ut. rewrite uids_snoc, ft_app, fold_left_app.
    rewrite <- (O1 t ts Hts Ut). destruct (string_dec t (xtag cd)) as [E | N].
    + subst t. assert (ts = cs) by congruence. subst ts.
      rewrite (ft_one _ u Ht). simpl. rewrite (R3 Ut). apply F2. auto.
    + rewrite (ft_other t u) by congruence. simpl. unfold proj.
      rewrite (seqt_Ins_other t (u, e) l l' R2) by (simpl; congruence). reflexivity.
  - intro w. rewrite (assoc_Ins w (u, e) l l' R2 Hul). simpl fst. simpl snd.
    specialize (HA w). unfold uids. rewrite map_app. simpl. fold (uids done).
    destruct (uid_eqb w u) eqn:E.
    + apply uid_eqb_ok in E. subst w.
      assert (X : mem uid_eqb u (uids done ++ [u]) = true) by (apply mem_iff; apply in_or_app; right; left; auto).
      rewrite X. exists e, cb. split; auto. split; auto. exists cs. auto.
    + destruct (mem uid_eqb w (uids done)) eqn:M.
      * assert (X : mem uid_eqb w (uids done ++ [u]) = true).
        { apply mem_iff. apply mem_iff in M. apply in_or_app. auto. }
        rewrite X. exact HA.
      * assert (X : mem uid_eqb w (uids done ++ [u]) = false).
        { apply mem_false. apply mem_false in M. intro Y. apply in_app_or in Y.
          destruct Y as [Y | [Y | []]]; [contradiction |]. subst. rewrite uid_eqb_refl in E. discriminate. }
        rewrite X. exact HA.
Qed.

Lemma lb_cover : forall u, In u (uids lb) -> In u (uids la) \/ In u (uids ld).
Proof.
  intros u Hu. apply assoc_Some_uids in Hu. destruct Hu as (cb & Hb).
  destruct (assoc uid_eqb u la) as [ca |] eqn:A; [left; eapply assoc_Some_In_uids; eauto |].
  destruct (assoc uid_eqb u ld) as [cd |] eqn:D; [right; eapply assoc_Some_In_uids; eauto |].
  exfalso. assert (E := HE u). rewrite A, Hb, D in E. inversion E.
Qed.

Lemma loop1_end : exists l1, foldM (add_new (node_add f) s) la (only_in ld la) = Ok l1 /\
  WellId s l1 /\ Known l1 /\
  (forall t cs, schema_child s t = Ok cs -> is_user_seq cs = true ->
     proj t l1 = fold_left (place (seqt t lb)) (ft t (uids (only_in ld la))) (proj t la)) /\
  (forall u, if mem uid_eqb u (uids la) then assoc uid_eqb u l1 = assoc uid_eqb u la
             else match assoc uid_eqb u l1, assoc uid_eqb u lb with
                  | None, None => True | Some e, Some cb => Lands dp s u None e cb | _, _ => False end).
Proof.
  destruct (foldM_inv (add_new (node_add f) s) Inv1 (only_in ld la) la loop1_init) as (l1 & R & Wl & Kl & O1 & HA).
  { intros done x r l Hsp HI. apply (loop1_step done x r l); auto. }
  assert (Hdone : forall u, ~ In u (uids la) -> (In u (uids (only_in ld la)) <-> In u (uids ld))).
  { intros u Hn. unfold uids. rewrite !in_map_iff. split; intros ([w x] & E & H); simpl in E; subst w.
    - apply only_in_In in H. exists (u, x). tauto.
    - exists (u, x). split; auto. apply only_in_In. auto. }
  exists l1. split; auto. split; auto. split; auto. split; [exact O1 |].
  intro u. specialize (HA u). destruct (mem uid_eqb u (uids la)) eqn:M.
    + assert (X : mem uid_eqb u (uids (only_in ld la)) = false).
      { apply mem_false. intro Y. apply in_map_iff in Y. destruct Y as ([w x] & E & H). simpl in E. subst w.
        apply only_in_In in H. apply mem_iff in M. tauto. }
      rewrite X in HA. exact HA.
    + apply mem_false in M. destruct (mem uid_eqb u (uids (only_in ld la))) eqn:X.
      * destruct HA as (e & cb & H1 & H2 & H3). rewrite H1, H2. exact H3.
      * apply mem_false in X. rewrite HA. rewrite (assoc_not_In u la M).
        destruct (assoc uid_eqb u lb) as [cb |] eqn:B; auto.
        apply assoc_Some_In_uids in B. destruct (lb_cover u B) as [Y | Y]; [contradiction |].
        apply X. apply Hdone; auto.
Qed.

(** ** Second loop *)
Definition Proj (ds : list uid) (l : list ent) : Prop :=
  forall t cs, schema_child s t = Ok cs -> is_user_seq cs = true ->
    proj t l = fold_left (place (seqt t lb)) (filter inb (ft t ds))
                 (fold_left (place (seqt t lb)) (ft t (uids (only_in ld la))) (proj t la)).

Lemma Proj_step : forall ds u l l', Proj ds l ->
  (forall t cs, schema_child s t = Ok cs -> is_user_seq cs = true ->
     proj t l' = if inb u && String.eqb (fst u) t then place (seqt t lb) (proj t l) u else proj t l) ->
  Proj (ds ++ [u]) l'.
Proof.
  intros ds u l l' H Hst t cs Hs U. rewrite (Hst t cs Hs U), ft_app, filter_app', fold_left_app, <- (H t cs Hs U).
  destruct (String.eqb (fst u) t) eqn:E.
  - apply String.eqb_eq in E. rewrite (ft_one t u E). simpl. destruct (inb u); reflexivity.
  - apply String.eqb_neq in E. rewrite (ft_other t u E), andb_false_r. reflexivity.
Qed.

Lemma Proj_skip : forall ds u l, Proj ds l ->
  (forall cs, schema_child s (fst u) = Ok cs -> is_user_seq cs = false) \/ inb u = false -> Proj (ds ++ [u]) l.
Proof.
  intros ds u l H Hu. apply (Proj_step ds u l); auto. intros t cs Hs U.
  destruct Hu as [Hu | Hu]; [| rewrite Hu; reflexivity].
  destruct (String.eqb (fst u) t) eqn:E; [| rewrite andb_false_r; auto].
  apply String.eqb_eq in E. subst t. rewrite (Hu cs Hs) in U. discriminate.
Qed.

Lemma move_result : forall u ca l F, WellId s l -> assoc uid_eqb u l = Some ca -> Ins (u, ca) (del_uid u l) F ->
  WellId s F /\ (forall w, assoc uid_eqb w F = assoc uid_eqb w l) /\
  (forall t, t <> fst u -> seqt t F = seqt t l).
Proof.
  intros u ca l F Wl Ha HI.
  assert (Hn : ~ In u (uids (del_uid u l))).
  { apply assoc_None_uids. rewrite assoc_del, uid_eqb_refl. auto. }
  split; [| split].
  - apply (WellId_Ins u ca (del_uid u l)); auto.
    + destruct Wl as [W1 W2]. split; [apply filter_Forall; auto |]. rewrite uids_del. apply NoDup_filter. auto.
    + eapply WellId_uid; eauto. apply (assoc_In uid_eqb uid_eqb_ok). auto.
  - intro w. rewrite (assoc_Ins w (u, ca) _ F HI Hn). simpl. rewrite assoc_del.
    destruct (uid_eqb w u) eqn:E; auto. apply uid_eqb_ok in E. subst. auto.
  - intros t Ht. rewrite (seqt_Ins_other t (u, ca) _ F HI) by (simpl; auto). rewrite seqt_del.
    apply filter_all. intros w Hw. apply seqt_In in Hw. apply negb_true_iff.
    apply (eqb_neq uid_eqb uid_eqb_ok). intro X. subst. destruct Hw. congruence.
Qed.

Lemma first_tagged : forall t l e, WellId s l -> find (has_tag t) l = Some e -> exists r, seqt t l = fst e :: r.
Proof.
  intros t l e Wl H. assert (G : forall x, In x l -> has_tag t x = String.eqb (fst (fst x)) t).
  { intros x Hx. apply (has_tag_uid l t x Wl Hx). }
  clear Wl. unfold seqt, uids. revert H G. induction l as [| x l IH]; simpl; [discriminate |]. intros H G.
  rewrite <- (G x (or_introl eq_refl)). destruct (has_tag t x); [inversion H; subst; eauto |]. apply IH; auto.
Qed.

Lemma move_ok : forall ds u ca cb cd cs l, assoc uid_eqb u la = Some ca -> assoc uid_eqb u lb = Some cb ->
  assoc uid_eqb u ld = Some cd -> schema_child s (xtag ca) = Ok cs -> sty cs = TLeafList \/ sty cs = TList ->
  WellId s l -> Known l -> (forall w, In w (uids lb) -> In w (uids l)) -> Proj ds l -> assoc uid_eqb u l = Some ca ->
  exists l', move_peer cs cd (u, ca) l = Ok l' /\ WellId s l' /\ Known l' /\ Proj (ds ++ [u]) l' /\
    forall w, assoc uid_eqb w l' = assoc uid_eqb w l.
Proof.
  intros ds u ca cb cd cs l Ea Eb Ed Hs Hty Wl Kl Hfull HP El. unfold move_peer. simpl fst.
  assert (Ia := Ea). apply (Index_assoc s _ la u ca IA) in Ia.
  assert (Ta := Index_tag s _ la u ca IA Ia).
  destruct (s_user (si cs)) eqn:Hus.
  2:{ exists l. split; auto. split; auto. split; auto. split; auto. apply Proj_skip; auto. left.
      intros cs' Hs'. rewrite Ta in Hs'. assert (cs' = cs) by congruence. subst cs'.
      destruct (is_user_seq cs) eqn:U; auto. apply is_user_seq_iff in U. destruct U. congruence. }
  assert (U : is_user_seq cs = true) by (apply is_user_seq_iff; auto).
  assert (Ib := Eb). apply (Index_assoc s _ lb u cb IB) in Ib.
  assert (Id := Ed). apply (Index_assoc s _ ld u cd ID) in Id.
  assert (Td := Index_tag s _ ld u cd ID Id).
  assert (Hub : In u (uids lb)) by (eapply assoc_Some_In_uids; eauto).
  assert (Hinb := proj2 (inb_iff u) Hub).
  assert (Hs' : schema_child s (xtag cd) = Ok cs) by congruence.
  destruct (HO (xtag cd) cs Hs' U) as [E1 E2 | E1 E2 E3 | E1 E2].
  2:{ exfalso. assert (X : In u (seqt (xtag cd) la)); [| rewrite E1 in X; destruct X].
      apply seqt_In. split; auto. eapply assoc_Some_In_uids; eauto. }
  2:{ exfalso. assert (X : In u (seqt (xtag cd) ld)); [| rewrite E1 in X; destruct X].
      apply seqt_In. split; auto. eapply assoc_Some_In_uids; eauto. }
  destruct (in_split _ _ Id) as (q1 & q2 & Eld).
  assert (Hds := dseq_split (xtag cd) q1 u cd q2 Eld Td Hub).
  set (t := xtag cd) in *. rewrite Hds in E1, E2. rewrite map_app in E1. simpl in E1.
  assert (NB : NoDup (seqt t lb)) by (apply seqt_NoDup; apply IB).
  set (B1 := map fst (dseq t lb q1)) in *.
  assert (HuB : ~ In u B1).
  { rewrite <- E1 in NB. apply NoDup_remove_2 in NB. intro X. apply NB. apply in_or_app. auto. }
  assert (Hpl : forall Q, place (seqt t lb) Q u = put (lastx B1) u (without u Q)).
  { intro Q. unfold place. rewrite <- E1, (follows_at B1 u _ HuB). reflexivity. }
  assert (Htin : tin t (u, ca) = true).
  { unfold tin. simpl. rewrite Td, String.eqb_refl, Hinb. reflexivity. }
  assert (Hdel : map fst (filter (tin t) (del_uid u l)) = without u (proj t l)).
  { unfold proj. rewrite proj_eq. unfold without. rewrite filter_map. f_equal. unfold del_uid. rewrite filter_comm. reflexivity. }
  assert (Wd : WellId s (del_uid u l)).
  { destruct Wl as [W1 W2]. split; [apply filter_Forall; auto |]. rewrite uids_del. apply NoDup_filter. auto. }
  assert (Stp : forall F, (forall t', t' <> t -> seqt t' F = seqt t' l) -> proj t F = place (seqt t lb) (proj t l) u ->
            Proj (ds ++ [u]) F).
  { intros F M3 HF. apply (Proj_step ds u l); auto. intros t' cs' Hts Ut. rewrite Hinb. simpl.
    destruct (String.eqb (fst u) t') eqn:E.
    - apply String.eqb_eq in E. rewrite <- E, Td. exact HF.
    - apply String.eqb_neq in E. unfold proj. rewrite M3 by congruence. reflexivity. }
  assert (Fin : forall F, Ins (u, ca) (del_uid u l) F -> proj t F = place (seqt t lb) (proj t l) u ->
            WellId s F /\ Known F /\ Proj (ds ++ [u]) F /\ forall w, assoc uid_eqb w F = assoc uid_eqb w l).
  { intros F HI HF. destruct (move_result u ca l F Wl El HI) as (M1 & M2 & M3). split; auto. split.
    - split; [| apply (Rest_same l); [apply Kl |]; intros t' Ht'; apply M3; intro X; exact (Ht' u Hub (eq_sym X))].
      intros w Hw. apply Kl. apply assoc_Some_uids in Hw. destruct Hw as (x & Hx). rewrite M2 in Hx.
      eapply assoc_Some_In_uids; eauto.
    - split; auto. apply Stp; auto. intros t' Ht'. apply M3. congruence. }
  destruct (lastx B1) as [v |] eqn:EL.
  - destruct (lastx_Some _ _ EL) as (B0 & EB1).
    assert (EI : InsAttr cs (Some v) cd).
    { unfold B1 in EB1. destruct (dseq t lb q1) as [| x0 D _] eqn:Eq using rev_ind; [destruct B0; discriminate |].
      rewrite map_app in EB1. simpl in EB1. apply app_inj_tail in EB1. destruct EB1 as [_ EB1]. subst v.
      apply Chain_at_last in E2. exact E2. }
    assert (Hv1 : In v B1) by (rewrite EB1; apply in_or_app; right; left; auto).
    assert (Hvt : In v (seqt t lb)) by (rewrite <- E1; apply in_or_app; auto).
    assert (Hvt' := Hvt). apply seqt_In in Hvt'. destruct Hvt' as [Hvb Hvtag].
    assert (Hvl : In v (uids l)) by auto.
    rewrite (proj1 EI). rewrite (after_placed l cs cd v); auto. cbn [bind].
    assert (Nvu : v <> u) by (intro X; subst; contradiction).
    assert (Evu : uid_eqb v u = false) by (apply (eqb_neq uid_eqb uid_eqb_ok); auto). rewrite Evu.
    eexists. split; [reflexivity |]. apply Fin; [apply ins_after_first_Ins |].
    rewrite Hpl, put_after. unfold proj at 1. rewrite proj_eq, proj_after; auto.
    + simpl. rewrite Hdel. reflexivity.
    + rewrite uids_del. apply filter_In. split; auto. apply negb_true_iff.
      apply (eqb_neq uid_eqb uid_eqb_ok). auto.
  - assert (EI : get_attr insert_tag cd = Some "first").
    { apply lastx_None in EL. unfold B1 in EL. apply map_eq_nil in EL. rewrite EL in E2. apply Chain_at in E2. exact E2. }
    rewrite EI.
    assert (Hul : In (u, ca) l) by (apply (assoc_In uid_eqb uid_eqb_ok); auto).
    destruct (find (has_tag t) l) as [e0 |] eqn:Ef.
    2:{ exfalso. assert (X := find_none _ l Ef (u, ca) Hul). rewrite (has_tag_uid l t (u, ca) Wl Hul) in X. simpl in X.
        rewrite Td, String.eqb_refl in X. discriminate. }
    destruct (has_uid u e0) eqn:Eh.
    + exists l. split; auto. split; auto. split; auto. split; auto. apply Stp; auto. rewrite Hpl.
      destruct (first_tagged t l e0 Wl Ef) as (r & Er). unfold has_uid in Eh. apply uid_eqb_ok in Eh. rewrite <- Eh in Er.
      assert (NL : NoDup (seqt t l)) by (apply seqt_NoDup; apply Wl).
      unfold proj. rewrite Er. simpl. rewrite Hinb. simpl. rewrite uid_eqb_refl. simpl. f_equal. symmetry.
      apply without_id. intro X. apply filter_In in X. rewrite Er in NL. inversion NL; subst. tauto.
    + eexists. split; [reflexivity |]. apply Fin; [apply ins_before_first_Ins |].
      rewrite Hpl. unfold proj at 1. rewrite proj_eq, proj_first; auto. simpl. rewrite Hdel. reflexivity.
Qed.

Definition Match (u : uid) (o1 o2 : option xml) : Prop :=
  match o1, o2 with
  | None, None => forall ca, assoc uid_eqb u la = Some ca -> exists op, lk dp s la lb ca op
  | Some e, Some cb => Lands dp s u (assoc uid_eqb u la) e cb
  | Some e, None => assoc uid_eqb u la = Some e /\ lk_stay dp /\ Suppressed s la lb e
  | _, _ => False
  end.

Definition Inv2 (l1 : list ent) (done : list (uid * xml * xml)) (l : list ent) : Prop :=
  WellId s l /\ Known l /\ Proj (map (fun p => fst (fst p)) done) l /\
  forall u, if mem uid_eqb u (map (fun p => fst (fst p)) done)
            then Match u (assoc uid_eqb u l) (assoc uid_eqb u lb)
            else assoc uid_eqb u l = assoc uid_eqb u l1.

(** Effect of one step of the second loop *)
Definition PeerStep (ds : list uid) (u : uid) (l l' : list ent) : Prop :=
  WellId s l' /\ Known l' /\ Proj ds l' /\ Match u (assoc uid_eqb u l') (assoc uid_eqb u lb) /\
  forall w, w <> u -> assoc uid_eqb w l' = assoc uid_eqb w l.

Lemma del_step : forall ds u l, WellId s l -> Known l -> Proj ds l -> assoc uid_eqb u lb = None ->
  (forall ca, assoc uid_eqb u la = Some ca -> exists op, lk dp s la lb ca op) ->
  PeerStep (ds ++ [u]) u l (del_uid u l).
Proof.
  intros ds u l [W1 W2] K P B HL. assert (Hinb : inb u = false) by (apply mem_false; apply assoc_None_uids; auto).
  split; [| split; [| split; [| split]]].
  - split; [apply filter_Forall; auto |]. rewrite uids_del. apply NoDup_filter. auto.
  - split; [intros w Hw; rewrite uids_del in Hw; apply filter_In in Hw; apply K; tauto |].
    intros t Ht. destruct K as [_ K]. destruct (K t Ht) as (p & E). rewrite seqt_del, E, filter_filter. eexists. reflexivity.
  - apply (Proj_step ds u l); auto. intros t cs Hs U. rewrite Hinb. simpl.
    unfold proj. rewrite seqt_del, filter_comm. apply filter_all. intros w Hw.
    apply filter_In in Hw. apply negb_true_iff. apply (eqb_neq uid_eqb uid_eqb_ok). intro X. subst w.
    destruct Hw. congruence.
  - rewrite assoc_del, uid_eqb_refl, B. exact HL.
  - intros w Hw. rewrite assoc_del. assert (X : uid_eqb w u = false) by (apply (eqb_neq uid_eqb uid_eqb_ok); auto).
    rewrite X. auto.
Qed.

Lemma upd_step : forall ds u e cb l, WellId s l -> Known l -> Proj ds l -> In u (uids l) -> assoc uid_eqb u lb = Some cb ->
  Lands dp s u (assoc uid_eqb u la) e cb -> PeerStep ds u l (upd_uid u e l).
Proof.
  intros ds u e cb l [W1 W2] K P Hu B G. split; [| split; [| split; [| split]]].
  - split; [| rewrite uids_upd; auto]. apply upd_Forall; auto. simpl. destruct G as (cs & _ & _ & _ & _ & G). exact G.
  - split; [intros w Hw; rewrite uids_upd in Hw; apply K; auto |]. apply (Rest_same l); [apply K |]. intros t _. apply seqt_upd.
  - intros t cs Hs U. unfold proj. rewrite seqt_upd. apply (P t cs Hs U).
  - rewrite assoc_upd, uid_eqb_refl, B. apply assoc_Some_uids in Hu. destruct Hu as (x & Hx). rewrite Hx. exact G.
  - intros w Hw. rewrite assoc_upd. assert (X : uid_eqb w u = false) by (apply (eqb_neq uid_eqb uid_eqb_ok); auto).
    rewrite X. auto.
Qed.

Lemma PeerStep_trans : forall ds u l l1 l', (forall w, assoc uid_eqb w l1 = assoc uid_eqb w l) ->
  PeerStep ds u l1 l' -> PeerStep ds u l l'.
Proof.
  intros ds u l l1 l' H (P1 & P2 & P3 & P4 & P5). split; auto. split; auto. split; auto. split; auto.
  intros w Hw. rewrite P5; auto.
Qed.

Lemma peer_child : forall ds u ca cd l, assoc uid_eqb u la = Some ca -> assoc uid_eqb u ld = Some cd ->
  WellId s l -> Known l -> (forall w, In w (uids lb) -> In w (uids l)) -> Proj ds l -> assoc uid_eqb u l = Some ca ->
  exists l', add_peer (node_add f) s l (u, ca, cd) = Ok l' /\ PeerStep (ds ++ [u]) u l l'.
Proof.
  intros ds u ca cd l Ea Ed Wl Kl Hfull HP El.
  destruct (entry_ok a la u ca Va IA Ea) as (cs & Hs & Vca & Hua & Hka & Hta).
  assert (Id := Ed). apply (Index_assoc s _ ld u cd ID) in Id. assert (Htd := Index_tag s _ ld u cd ID Id).
  assert (Hcd : height cd <= f).
  { assert (X := height_kid cd d (Index_kid s _ ld u cd ID Id)). lia. }
  assert (Hul : In u (uids l)) by (eapply assoc_Some_In_uids; eauto).
  assert (Wc := wfs_child s _ cs W Hs).
  destruct (orderable_kid s a ca cs OA Hka Hs) as [_ Oca].
  assert (En := HE u). rewrite Ea, Ed in En. apply EntD_peer in En. destruct En as (cs' & Hs' & En).
  assert (cs' = cs) by congruence. subst cs'. clear Hs'.
  assert (Dt := nonroot_data s _ cs ca W Hs Vca).
  assert (Hgone : np_container cs && (match xkids ca with [] => true | _ => false end) = false).
  { destruct (np_container cs) eqn:N; auto. simpl. assert (X := np_kids cs ca Vca N). destruct (xkids ca); auto. contradiction. }
  assert (Plain : sty cs = TLeaf \/ sty cs = TContainer -> Proj (ds ++ [u]) l).
  { intro X. apply Proj_skip; auto. left. intros cs1 Hs1. rewrite Hta in Hs1. assert (cs1 = cs) by congruence. subst cs1.
    destruct (is_user_seq cs) eqn:U; auto. apply is_user_seq_iff in U. destruct U as [_ [U | U]], X as [X | X]; congruence. }
  unfold add_peer. rewrite Hs. cbn [bind].
  destruct En as [(Eb & Hop & HL) | [(Eb & HL & Hnp & Hop & HI) | (cb & Eb & En)]].
  - exists (del_uid u l). split; [| apply del_step; auto; intros ca0 E0; exists (op_of cd); congruence].
        destruct Hop as [Hop | Hop]; rewrite Hop; destruct (sty cs); simpl in Dt; try (destruct Dt; discriminate);
      rewrite ?Hgone; reflexivity.
  - exists (del_uid u l). split; [| apply del_step; auto; intros ca0 E0; exists (op_of cd); congruence].
        assert (Hty : sty cs = TContainer).
    { unfold np_container in Hnp. apply andb_true_iff in Hnp. destruct Hnp as [X _]. destruct (sty cs); auto; discriminate. }
    rewrite Hty, Hop.
    destruct (IHf (S dp) cs ca (Elem (xtag ca) None [] []) cd) as (la' & lb' & lr & R1 & R0 & R2 & R3 & R4); auto.
    { apply valid_validk. auto. }
    { apply validk_nil. }
    rewrite R1. cbn [bind]. simpl in R2. apply Index_nil_inv in R2. subst lb'.
    assert (lr = []).
    { destruct lr as [| [w x] lr]; auto. exfalso. destruct R4 as [R4 _]. specialize (R4 w). simpl in R4.
      rewrite uid_eqb_refl in R4. inversion R4 as [| | n0 s0 l1 l2 c0 HT HS |]; subst. destruct HS as (v & cb & _ & _ & X & _). destruct X. }
    subst lr. destruct ca as [t0 tx0 a0 k0]. simpl. rewrite Hnp. reflexivity.
  - destruct (entry_ok b lb u cb Vb IB Eb) as (cs' & Hs' & Vcb & Hub & Hkb & Htb).
    assert (Htt : xtag cd = xtag cb) by congruence.
    assert (cs' = cs) by congruence. subst cs'.
    destruct (orderable_kid s b cb cs OB Hkb Hs') as [_ Ocb].
    assert (Gl : leafish (sty cs) = true -> Lands dp s u (assoc uid_eqb u la) cb cb).
    { intro L. rewrite Ea. exists cs. repeat (split; auto). apply la_leaf; auto. apply Same_refl. auto. }
    destruct En as [(L & Hop & HB) | [(N & Hop & HB & HR) | (N & Hop & DP & HI)]].
    + specialize (Gl L). destruct (sty cs) eqn:Hty; try discriminate.
      * assert (E : set_text (xtext cd) ca = cb).
        { destruct HB as [HB _]. assert (Kb := leafish_kids cs cb Vcb). assert (Ka := leafish_kids cs ca Vca).
          rewrite Hty in *. destruct (valid_inv cs ca Vca) as (A1 & _). destruct (valid_inv cs cb Vcb) as (A2 & _).
          destruct ca, cb. simpl in *. rewrite Ka, Kb by auto. subst. f_equal; congruence. }
        exists (upd_uid u cb l). split; [| apply (upd_step _ u cb cb l); auto].
        rewrite E. destruct Hop as [Hop | Hop]; rewrite Hop; reflexivity.
      * assert (E : ca = cb).
        { apply (leafish_eq cs); auto; [rewrite Hty; auto | congruence |].
          rewrite (uid_leaflist s ca cs) in Hua by auto. rewrite (uid_leaflist s cb cs) in Hub by auto. congruence. }
        destruct (move_ok ds u ca cb cd cs l) as (l' & M1 & M2 & M3 & M4 & M5); auto.
        exists l'. split; [destruct Hop as [Hop | Hop]; rewrite Hop; exact M1 |].
        split; auto. split; auto. split; auto. split; [| auto]. rewrite M5, El, Eb, E. exact Gl.
    + assert (Hdel : del_attrib cd = cb) by (apply (Body_del cs); auto).
      assert (Gb : Lands dp s u (assoc uid_eqb u la) cb cb).
      { rewrite Ea. exists cs. repeat (split; auto). apply la_repl; auto. apply Same_refl. auto. }
      destruct (sty cs) eqn:Hty; try discriminate.
      * rewrite Hop, Hgone, Hdel. exists (upd_uid u cb l). split; auto. apply (upd_step _ u cb cb l); auto.
      * rewrite Hop. destruct (move_ok ds u ca cb cd cs l) as (l' & M1 & M2 & M3 & M4 & M5); auto.
        rewrite M1. cbn [bind]. rewrite Hdel. exists (upd_uid u cb l'). split; auto.
        apply (PeerStep_trans _ u l l'); auto. apply (upd_step _ u cb cb l'); auto.
        apply assoc_Some_uids. rewrite M5. eauto.
    + assert (Ia := Ea). apply (Index_assoc s _ la u ca IA) in Ia.
      assert (Ib := Eb). apply (Index_assoc s _ lb u cb IB) in Ib.
      destruct (rec_good cs cb cd ca u (xkids ca)) as (e & R & G & _); auto.
      { congruence. }
      { apply (valid_text cs ca Vca); intro X; rewrite X in N; discriminate. }
      { apply (valid_inv cs ca Vca). }
      { apply valid_validk. auto. }
      specialize (G DP). rewrite <- Ea in G.
      destruct (sty cs) eqn:Hty; try discriminate.
      * rewrite Hop, R. cbn [bind]. exists (upd_uid u e l). split; [| apply (upd_step _ u e cb l); auto].
        destruct (xkids e) eqn:Ek; auto. destruct (np_container cs) eqn:Np; auto. exfalso.
        destruct G as (c1 & G1 & G2 & _ & _ & G4).
        assert (c1 = cs).
        { rewrite <- (uid_tag s e u G4), Htb in G1. congruence. }
        subst c1. apply (np_kids cs e G2 Np). auto.
      * rewrite Hop. destruct (move_ok ds u ca cb cd cs l) as (l' & M1 & M2 & M3 & M4 & M5); auto.
        rewrite M1. cbn [bind]. rewrite R. cbn [bind]. exists (upd_uid u e l'). split; auto.
        apply (PeerStep_trans _ u l l'); auto. apply (upd_step _ u e cb l'); auto.
        apply assoc_Some_uids. rewrite M5. eauto.
Qed.

Lemma proj_among : forall t, proj t la = filter (among (seqt t lb)) (seqt t la).
Proof.
  intro t. apply filter_ext_in. intros w Hw. apply seqt_In in Hw. destruct Hw as [_ Hw].
  destruct (inb w) eqn:E; symmetry.
  - apply among_iff. apply seqt_In. split; auto. apply inb_iff. auto.
  - apply among_not. intro X. apply seqt_In in X. destruct X as [X _]. apply inb_iff in X. congruence.
Qed.

(** Where the entries end up *)
Lemma proj_end : forall t cs, schema_child s t = Ok cs -> is_user_seq cs = true ->
  fold_left (place (seqt t lb)) (filter inb (ft t (map (fun p => fst (fst p)) (both_in la ld))))
    (fold_left (place (seqt t lb)) (ft t (uids (only_in ld la))) (proj t la)) = replay (seqt t la) (seqt t lb).
Proof.
  intros t cs Hs U.
  assert (Hb : map (fun p => fst (fst p)) (both_in la ld) = filter (fun u => mem uid_eqb u (uids ld)) (uids la)).
  { clear. unfold both_in, uids. induction la as [| [w x] r IH]; simpl; auto. rewrite map_app, IH.
    destruct (assoc uid_eqb w ld) as [y |] eqn:E; simpl.
    - apply assoc_Some_In_uids in E. unfold uids in E. apply mem_iff in E. rewrite E. reflexivity.
    - apply assoc_None_uids in E. unfold uids in E. apply mem_false in E. rewrite E. reflexivity. }
  assert (Main : map fst (dseq t lb ld) = seqt t lb ->
     filter inb (ft t (map (fun p => fst (fst p)) (both_in la ld))) = filter (among (seqt t lb)) (seqt t la) /\
     ft t (uids (only_in ld la)) = filter (fun u => negb (among (seqt t la) u)) (seqt t lb)).
  { intro E1. split.
    - rewrite <- proj_among. unfold proj, ft, seqt. rewrite Hb. rewrite !filter_filter. apply filter_ext_in. intros w Hw.
      destruct (inb w) eqn:E; [| rewrite !andb_false_r; auto]. destruct (String.eqb (fst w) t) eqn:Et; [| rewrite ?andb_false_r; auto].
      rewrite !andb_true_r. apply mem_iff. apply inb_iff in E. apply String.eqb_eq in Et.
      assert (X : In w (seqt t lb)) by (apply seqt_In; auto). rewrite <- E1 in X. apply in_map_iff in X.
      destruct X as (x & Ex & X). apply filter_In in X. apply in_map_iff. exists x. tauto.
    - rewrite <- E1. unfold ft, uids, only_in, dseq. rewrite !filter_map. f_equal. rewrite !filter_filter.
      apply filter_ext_in. intros [w x] Hw. simpl.
      destruct (String.eqb (fst w) t) eqn:Et; [| rewrite andb_false_r; auto]. simpl. rewrite andb_true_r.
      assert (Hl : among (seqt t la) w = mem uid_eqb w (uids la)).
      { apply String.eqb_eq in Et. destruct (mem uid_eqb w (uids la)) eqn:M.
        - apply among_iff. apply seqt_In. split; auto. apply mem_iff. auto.
        - apply among_not. intro X. apply seqt_In in X. apply mem_false in M. tauto. }
      fold (uids la) (uids lb). rewrite Hl. destruct (mem uid_eqb w (uids la)) eqn:M; [rewrite andb_false_r; auto |]. simpl. rewrite andb_true_r.
      symmetry. apply mem_iff. destruct (new_child w x Hw) as (cb & _ & _ & Eb & _); [apply mem_false; auto |].
      eapply assoc_Some_In_uids; eauto. }
  assert (Fin : map fst (dseq t lb ld) = seqt t lb ->
     fold_left (place (seqt t lb)) (filter inb (ft t (map (fun p => fst (fst p)) (both_in la ld))))
       (fold_left (place (seqt t lb)) (ft t (uids (only_in ld la))) (proj t la)) = replay (seqt t la) (seqt t lb)).
  { intro E1. destruct (Main E1) as [M1 M2]. rewrite M1, M2, proj_among. reflexivity. }
  destruct (HO t cs Hs U) as [E1 _ | _ E2 _ | E1 E2]; auto.
  assert (X1 : ft t (uids (only_in ld la)) = []).
  { unfold ft. apply filter_none. intros w Hw. apply in_map_iff in Hw. destruct Hw as ([w' x] & E & Hx). simpl in E. subst w'.
    apply only_in_In in Hx. destruct Hx as [Hx _]. destruct (String.eqb (fst w) t) eqn:Et; auto. exfalso.
    apply String.eqb_eq in Et. assert (Z : In w (seqt t ld)); [| rewrite E1 in Z; destruct Z].
    apply seqt_In. split; auto. apply (in_map fst) in Hx. exact Hx. }
  assert (X2 : ft t (map (fun p => fst (fst p)) (both_in la ld)) = []).
  { rewrite Hb. unfold ft. apply filter_none. intros w Hw. apply filter_In in Hw. destruct Hw as [_ Hw]. apply mem_iff in Hw.
    destruct (String.eqb (fst w) t) eqn:Et; auto. exfalso.
    apply String.eqb_eq in Et. assert (Z : In w (seqt t ld)); [| rewrite E1 in Z; destruct Z]. apply seqt_In. auto. }
  rewrite X1, X2. simpl. unfold proj. rewrite E2. rewrite (kept_replay (seqt t lb) (seqt t lb)) by (try (apply seqt_NoDup; apply IB); intros u v X _ _; exact X).
  apply filter_all. intros w Hw. apply seqt_In in Hw. apply inb_iff. tauto.
Qed.

Lemma level_ok : exists lr, node_add (S f) s a d = Ok (set_kids (map snd lr) a) /\ WellId s lr /\ KL dp s la lb lr.
Proof.
  cbn [node_add]. rewrite (group_ok s _ _ la ld IA ID). cbn [bind in_1_not_2 in_2_not_1 in_1_and_2].
  rewrite (proj2 (index_ok s _ la) IA). cbn [bind].
  destruct loop1_end as (l1 & R1 & Wl1 & Kl1 & P1 & A1). rewrite R1. cbn [bind].
  destruct (foldM_inv (add_peer (node_add f) s) (Inv2 l1) (both_in la ld) l1) as (l2 & R2 & Wl2 & Kl2 & P2 & A2).
  { split; auto. split; auto. split; auto. intro u. reflexivity. }
  { intros done [[u ca] cd] r l Hsp (Wl & Kl & HP & HA).
    assert (Hin : In (u, ca, cd) (both_in la ld)) by (rewrite Hsp; apply in_or_app; right; left; auto).
    apply both_in_In in Hin. destruct Hin as [Ia Ed]. assert (Ea := Ia). apply (Index_assoc s _ la u ca IA) in Ea.
    assert (Hnd : ~ In u (map (fun p => fst (fst p)) done)).
    { assert (ND : NoDup (map (fun p => fst (fst p)) (both_in la ld))).
      { assert (ND : NoDup (uids la)) by apply IA. clear -ND. unfold both_in. induction la as [| [w x] r IH]; simpl; [constructor |].
        simpl in ND. inversion ND; subst. rewrite map_app. destruct (assoc uid_eqb w ld); simpl; auto.
        constructor; auto. intro X. apply H1. apply in_map_iff in X. destruct X as ([[w' y] z] & E & X). simpl in E. subst w'.
        apply in_flat_map in X. destruct X as ([v y'] & X1 & X2). simpl in X2. destruct (assoc uid_eqb v ld); [| destruct X2].
        destruct X2 as [X2 | []]. inversion X2; subst. apply (in_map fst) in X1. exact X1. }
      rewrite Hsp in ND. rewrite map_app in ND. simpl in ND. apply NoDup_remove_2 in ND.
      intro X. apply ND. apply in_or_app. auto. }
    assert (El : assoc uid_eqb u l = Some ca).
    { specialize (HA u). rewrite (proj2 (mem_false u _) Hnd) in HA. specialize (A1 u).
      assert (X : mem uid_eqb u (uids la) = true) by (apply mem_iff; eapply assoc_Some_In_uids; eauto).
      rewrite X in A1. congruence. }
    assert (Hfull : forall w, In w (uids lb) -> In w (uids l)).
    { intros w Hw. apply assoc_Some_uids in Hw. destruct Hw as (cb & Hcb). specialize (HA w). specialize (A1 w).
      rewrite Hcb in HA, A1. destruct (mem uid_eqb w (map (fun p => fst (fst p)) done)).
      - destruct (assoc uid_eqb w l) eqn:X; [| contradiction]. eapply assoc_Some_In_uids; eauto.
      - destruct (assoc uid_eqb w l1) eqn:X; [eapply assoc_Some_In_uids; eauto |].
        destruct (mem uid_eqb w (uids la)) eqn:M; [| contradiction].
        apply mem_iff in M. apply assoc_Some_uids in M. destruct M as (y & M). congruence. }
    destruct (peer_child _ u ca cd l Ea Ed Wl Kl Hfull HP El) as (l' & S1 & S2 & S3 & S4 & S5 & S6).
    exists l'. split; auto. split; auto. split; auto. split; [rewrite map_app; exact S4 |]. intro w. rewrite map_app. simpl.
    destruct (uid_eqb w u) eqn:E.
    - apply uid_eqb_ok in E. subst w.
      assert (X : mem uid_eqb u (map (fun p => fst (fst p)) done ++ [u]) = true) by (apply mem_iff; apply in_or_app; right; left; auto).
      rewrite X. exact S5.
    - assert (Nw : w <> u) by (apply (eqb_neq uid_eqb uid_eqb_ok); auto). rewrite (S6 w Nw). specialize (HA w).
      assert (X : mem uid_eqb w (map (fun p => fst (fst p)) done ++ [u]) = mem uid_eqb w (map (fun p => fst (fst p)) done)).
      { destruct (mem uid_eqb w (map (fun p => fst (fst p)) done)) eqn:M.
        - apply mem_iff. apply mem_iff in M. apply in_or_app. auto.
        - apply mem_false. apply mem_false in M. intro Y. apply in_app_or in Y. destruct Y as [Y | [Y | []]]; auto. }
      rewrite X. exact HA. }
  exists l2. rewrite R2. cbn [bind]. split; auto. split; auto.
  assert (HM : forall u, Match u (assoc uid_eqb u l2) (assoc uid_eqb u lb)).
  { intro u. specialize (A2 u). destruct (mem uid_eqb u (map (fun p => fst (fst p)) (both_in la ld))) eqn:M; auto.
    rewrite A2. specialize (A1 u). destruct (mem uid_eqb u (uids la)) eqn:Ma.
    2:{ apply mem_false in Ma. assert (An := assoc_not_In u la Ma).
        unfold Match. destruct (assoc uid_eqb u l1), (assoc uid_eqb u lb); rewrite ?An; auto; try contradiction. intros; discriminate. }
    rewrite A1. apply mem_iff in Ma. apply assoc_Some_uids in Ma. destruct Ma as (ca & Ea).
    assert (Ed : assoc uid_eqb u ld = None).
    { destruct (assoc uid_eqb u ld) as [cd |] eqn:Ed; auto. exfalso. apply mem_false in M. apply M.
      apply in_map_iff. exists (u, ca, cd). split; auto. apply both_in_In. split; auto.
      apply (Index_assoc s _ la u ca IA). auto. }
    assert (En := HE u). rewrite Ea, Ed in En. rewrite Ea.
    destruct (assoc uid_eqb u lb) as [cb |] eqn:Eb; simpl.
    - destruct (entry_ok a la u ca Va IA Ea) as (cs & Hs & Vca & Hua & Hka & Hta).
      destruct (entry_ok b lb u cb Vb IB Eb) as (cs' & Hs' & Vcb & Hub & Hkb & Htb).
      assert (cs' = cs) by congruence. subst cs'.
      inversion En as [| ? ? ? ? ? ? c1 H1 H2 | | | | | | | | |]; subst. assert (c1 = cs) by congruence. subst c1.
      rewrite Ea. exists cs. repeat (split; auto). apply la_same. auto.
    - inversion En as [| | ? ? ? ? ? HT H1 | | | | | | | |]; subst. auto. }
  split.
  - intro u. specialize (HM u). unfold Match in HM.
    destruct (assoc uid_eqb u l2) as [e |] eqn:E2, (assoc uid_eqb u lb) as [cb |] eqn:Eb; try contradiction.
    + destruct HM as (cs & G1 & G2 & G3 & G4 & _). apply (le_to dp s la lb _ e cb cs); auto.
    + destruct HM as (G1 & G2 & G3). rewrite G1. apply le_stay; auto.
    + destruct (assoc uid_eqb u la) as [ca |]; [| apply le_none]. destruct (HM ca eq_refl) as (op & G). apply (le_gone dp s la lb ca op G).
  - split; [| apply Kl2]. intros t cs Hs U. rewrite <- (proj_end t cs Hs U), <- (P2 t cs Hs U). reflexivity.
Qed.
End Level.

Theorem add_ok : forall f, AddOK f.
Proof.
  intro f. induction f as [| f IH]; intros n s a b d Hh W Va Vb OA OB HI.
  - exfalso. destruct d. simpl in Hh. lia.
  - inversion HI as [? ? ? ? ? la lb ld IA IB ID HE HO]; subst.
    destruct (level_ok f n s a b d la lb ld IH Hh W Va Vb OA OB IA IB ID HE HO) as (lr & R1 & R2 & R3).
    exists la, lb, lr. auto.
Qed.
End Late.
