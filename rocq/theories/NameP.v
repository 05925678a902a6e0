(** Naming a sibling by the value and key attributes. *)
From Coq Require Import String Ascii List Bool Arith ZArith Lia Permutation.
From Verif Require Import Base BaseP XmlM CalcM CalcP NetconfM ListP DataSpec DataP DeltaSpec DeltaR.
Import ListNotations.
Open Scope string_scope.
Open Scope list_scope.

Lemma split_at_ok : forall c a r, has_char c a = false ->
  split_at c (a ++ String c r)%string = Some (a, r).
Proof.
  intros c a r. induction a as [| d a IH]; simpl; intro H.
  - rewrite Ascii.eqb_refl. reflexivity.
  - apply orb_false_iff in H. destruct H as [H1 H2]. rewrite H1. rewrite IH; auto.
Qed.

Lemma parse_pstr : forall keys vs fuel,
  length keys = length vs ->
  Forall (fun k => has_char "=" k = false) keys -> Forall (fun v => has_char "'" v = false) vs ->
  String.length (pstr keys vs) <= fuel ->
  parse_preds fuel (pstr keys vs) = Some (combine keys vs).
Proof.
  intro keys. induction keys as [| k keys IH]; intros vs fuel HL HK HV HF.
  - simpl. destruct fuel; reflexivity.
  - destruct vs as [| v vs]; [discriminate |].
    inversion HK as [| ? ? Hk HK']; subst. inversion HV as [| ? ? Hv HV']; subst.
    simpl pstr in *. simpl in HL. destruct fuel as [| fuel]; [simpl in HF; lia |].
    change ("[" ++ k ++ "='" ++ v ++ "']" ++ pstr keys vs)%string
      with (String "[" (k ++ String "=" (String "'" (v ++ String "'" (String "]" (pstr keys vs))))))%string in *.
    cbn [parse_preds].
    rewrite (split_at_ok "=" k _ Hk). rewrite (split_at_ok "'" v _ Hv).
    rewrite IH; auto.
    simpl in HF. clear -HF.
    assert (G : forall a b, String.length (a ++ b)%string = String.length a + String.length b).
    { induction a; intro b; simpl; auto. }
    rewrite G in HF. simpl in HF. rewrite G in HF. simpl in HF. lia.
Qed.

(** ** Keys *)
Lemma wfs_keys : forall cs, wfs cs = true -> sty cs = TList ->
  NoDup (s_keys (si cs)) /\
  forall k, In k (s_keys (si cs)) -> has_char "=" k = false /\
    exists kc, schema_child cs k = Ok kc /\ sty kc = TLeaf /\ s_is_key (si kc) = true.
Proof.
  intros [i ks] H Ht. unfold sty, si in Ht. cbn [wfs] in H. rewrite Ht in H. rewrite !andb_true_iff in H.
  destruct H as [[[H1 H2] _] _]. simpl. split.
  - clear -H1. induction (s_keys i) as [| k r IH]; [constructor |].
    simpl in H1. apply andb_true_iff in H1. destruct H1 as [H1 H2]. constructor; auto.
    intro Hin. apply negb_true_iff in H1.
    assert (X := proj1 (existsb_false _ r) H1 k Hin). simpl in X. rewrite String.eqb_refl in X. discriminate.
  - intros k Hk. rewrite forallb_forall in H2. specialize (H2 k Hk). apply andb_true_iff in H2.
    destruct H2 as [H2 H3]. apply negb_true_iff in H2. split; auto.
    destruct (schema_child (SNode i ks) k) as [kc |]; [| discriminate]. exists kc. split; auto.
    apply andb_true_iff in H3. destruct H3 as [H3 H4]. split; auto. destruct (sty kc); auto; discriminate.
Qed.

Lemma wfs_is_key : forall s t cs, wfs s = true -> schema_child s t = Ok cs -> s_is_key (si cs) = true ->
  sty s = TList /\ sty cs = TLeaf /\ In t (s_keys (si s)).
Proof.
  intros [i ks] t cs H Hs Hk. cbn [wfs] in H. rewrite !andb_true_iff in H. destruct H as [[_ H] _].
  apply schema_child_entry in Hs. destruct Hs as (e & He & E). apply schema_entry_In in He.
  destruct He as [He Ht]. rewrite forallb_forall in H. specialize (H e He). rewrite E in *. rewrite Hk in H.
  apply andb_true_iff in H. destruct H as [H _]. simpl in H. rewrite !andb_true_iff in H. destruct H as [[H1 H2] H3].
  split; [unfold sty; simpl; destruct (s_type i); auto; discriminate |].
  split; [destruct (sty cs); auto; discriminate |].
  apply existsb_exists in H3. destruct H3 as (k & Hin & E3). apply String.eqb_eq in E3. simpl. congruence.
Qed.

Lemma wfs_not_root : forall s t cs, wfs s = true -> schema_child s t = Ok cs -> sty cs <> TRoot.
Proof.
  intros [i ks] t cs H Hs. cbn [wfs] in H. rewrite !andb_true_iff in H. destruct H as [[_ H] _].
  apply schema_child_entry in Hs. destruct Hs as (e & He & E). apply schema_entry_In in He.
  destruct He as [He Ht]. rewrite forallb_forall in H. specialize (H e He). rewrite E in *.
  apply andb_true_iff in H. destruct H as [_ H]. intro X. rewrite X in H. discriminate.
Qed.

Lemma wfs_kid : forall s k, wfs s = true -> In k (skids s) -> wfs k = true.
Proof.
  intros [i ks] k H Hin. cbn [wfs] in H. rewrite !andb_true_iff in H. destruct H as [_ H].
  rewrite forallb_forall in H. apply H. auto.
Qed.

Lemma wfs_Through : forall k c, Through k c -> wfs k = true -> wfs c = true.
Proof. intros k c H. induction H; intro W; auto; apply IHThrough; eapply wfs_kid; eauto. Qed.

Lemma wfs_child : forall s t cs, wfs s = true -> schema_child s t = Ok cs -> wfs cs = true.
Proof.
  intros s t cs W H. apply schema_child_Defines in H. destruct H as (_ & k & Hin & HT).
  apply (wfs_Through k cs HT). eapply wfs_kid; eauto.
Qed.

(** The key tuple in terms of the children *)
Lemma key_tuple_Forall2 : forall cs x ts, key_tuple cs x = Ok ts <->
  Forall2 (fun k t => exists c, kids_tagged k (xkids x) = [c] /\ parse_text cs c = t) (s_keys (si cs)) ts.
Proof.
  intros cs x ts. unfold key_tuple. rewrite mapM_ok. unfold find_one_child. split; intro H.
  - eapply Forall2_impl; [| exact H]. intros k t G. simpl in G. apply bind_ok in G. destruct G as (c & G1 & G2).
    destruct (kids_tagged k (xkids x)) as [| c0 [| d r]]; try discriminate. inversion G1; subst.
    inversion G2. eauto.
  - eapply Forall2_impl; [| exact H]. intros k t (c & G1 & G2). simpl. rewrite G1. simpl. congruence.
Qed.

Lemma kids_tagged_find : forall k l c, kids_tagged k l = [c] -> find_kid k l = Some c.
Proof.
  intros k l c. unfold kids_tagged, find_kid. induction l as [| x r IH]; simpl; intro H; [discriminate |].
  destruct (String.eqb (xtag x) k); [inversion H; auto | auto].
Qed.

Lemma uid_list : forall s x cs, schema_child s (xtag x) = Ok cs -> sty cs = TList ->
  forall u, uid_of s x = Ok u <-> exists ts, key_tuple cs x = Ok ts /\ u = (xtag x, KTup ts).
Proof.
  intros s x cs Hs Ht u. unfold uid_of. rewrite Hs. simpl. rewrite Ht. rewrite bind_ok. split.
  - intros (ts & H1 & H2). inversion H2. eauto.
  - intros (ts & H1 & H2). subst. eauto.
Qed.

Lemma uid_leaflist : forall s x cs, schema_child s (xtag x) = Ok cs -> sty cs = TLeafList ->
  uid_of s x = Ok (xtag x, KText (xtext x)).
Proof.
  intros s x cs Hs Ht. unfold uid_of. rewrite Hs. simpl. rewrite Ht. rewrite parse_text_id by congruence. auto.
Qed.

Lemma uid_other : forall s x cs, schema_child s (xtag x) = Ok cs -> sty cs <> TLeafList -> sty cs <> TList ->
  uid_of s x = Ok (xtag x, KNone).
Proof.
  intros s x cs Hs H1 H2. unfold uid_of. rewrite Hs. simpl. destruct (sty cs); auto; contradiction.
Qed.

(** ** Finding the named sibling *)
Lemma find_unique : forall (p : ent -> bool) l v x, NoDup (uids l) -> In (v, x) l -> p (v, x) = true ->
  (forall e, In e l -> p e = true -> fst e = v) -> option_map fst (find p l) = Some v.
Proof.
  intros p l v x ND Hin Hp Hu. destruct (find p l) as [e |] eqn:E.
  - apply find_some in E. destruct E as [E1 E2]. simpl. f_equal. apply Hu; auto.
  - exfalso. assert (X := find_none p l E (v, x) Hin). congruence.
Qed.

Definition WellId (s : snode) (l : list ent) : Prop :=
  Forall (fun e => uid_of s (snd e) = Ok (fst e)) l /\ NoDup (uids l).

Lemma Index_WellId : forall s l es, Index s l es -> WellId s es.
Proof. intros s l es (_ & H1 & H2). split; auto. Qed.

Lemma WellId_Index : forall s l, WellId s l -> Index s (map snd l) l.
Proof. intros s l [H1 H2]. split; auto. Qed.

Lemma WellId_uid : forall s l u x, WellId s l -> In (u, x) l -> uid_of s x = Ok u.
Proof. intros s l u x [H _] Hin. rewrite Forall_forall in H. apply (H (u, x) Hin). Qed.

Lemma find_value_ok : forall s l t cs tx v, WellId s l -> schema_child s t = Ok cs -> sty cs = TLeafList ->
  In v (uids l) -> fst v = t -> snd v = KText (Some tx) -> find_value t tx l = Some v.
Proof.
  intros s l t cs tx v W Hs Ht Hv Hf Hk. unfold uids in Hv. apply in_map_iff in Hv.
  destruct Hv as ([v' x] & E & Hin). simpl in E. subst v'.
  assert (Hu := WellId_uid s l v x W Hin). assert (Htag := uid_tag s x v Hu).
  unfold find_value. apply (find_unique _ l v x); [apply W | exact Hin | |].
  - unfold has_tag. simpl.
    assert (Hx : xtag x = t) by congruence.
    rewrite (uid_leaflist s x cs) in Hu by (rewrite ?Hx; auto). inversion Hu; subst v. simpl in *.
    inversion Hk as [Htx]. rewrite Hf, String.eqb_refl. simpl. apply (eqb_refl ostr_eqb ostr_eqb_ok).
  - intros [w y] Hw Hp. unfold has_tag in Hp. simpl in *. apply andb_true_iff in Hp. destruct Hp as [P1 P2].
    apply String.eqb_eq in P1. apply ostr_eqb_ok in P2.
    assert (Hw' := WellId_uid s l w y W Hw). rewrite (uid_leaflist s y cs) in Hw' by (rewrite ?P1; auto).
    inversion Hw'; subst w. destruct v as [v1 v2]. simpl in *. congruence.
Qed.

Lemma combine_match : forall cs x ts vs,
  sty cs = TList -> key_tuple cs x = Ok (map Some ts) ->
  (matches_preds (combine (s_keys (si cs)) vs) x = true /\ length vs = length (s_keys (si cs)) <-> vs = ts).
Proof.
  intros cs x ts vs Ht H. apply key_tuple_Forall2 in H. unfold matches_preds.
  revert ts vs H. induction (s_keys (si cs)) as [| k ks IH]; intros ts vs H.
  - inversion H as [E |]. destruct ts; [| discriminate]. destruct vs; simpl; intuition; discriminate.
  - destruct ts as [| t ts]; [inversion H |]. simpl in H. inversion H as [| ? ? ? ? (c & Hc & Hp) HF]; subst.
    destruct vs as [| v vs]; [simpl; intuition; discriminate |].
    simpl. rewrite andb_true_iff. specialize (IH ts vs HF).
    assert (Hx : xtext c = Some t) by (rewrite parse_text_id in Hp; auto; congruence).
    unfold kids_tagged in Hc. apply filter_singleton in Hc. destruct Hc as (C1 & C2 & C3).
    assert (Hm : existsb (fun c0 => String.eqb (xtag c0) k && String.eqb (text_str c0) v) (xkids x) = true <-> v = t).
    { rewrite existsb_exists. split.
      - intros (c' & Hin & E). apply andb_true_iff in E. destruct E as [E1 E2].
        assert (c' = c) by auto. subst c'. unfold text_str in E2. rewrite Hx in E2. apply String.eqb_eq in E2. auto.
      - intro E. subst v. exists c. split; auto. rewrite C2. unfold text_str. rewrite Hx. simpl. apply String.eqb_refl. }
    split.
    + intros [[M1 M2] L]. f_equal; [apply Hm; auto |]. apply IH. split; auto.
    + intro E. inversion E; subst. destruct (proj2 IH eq_refl) as [M L]. split; [split |]; auto. apply Hm. auto.
Qed.

Lemma find_key_ok : forall s l t cs vs v, WellId s l -> wfs cs = true -> schema_child s t = Ok cs -> sty cs = TList ->
  In v (uids l) -> fst v = t -> snd v = KTup (map Some vs) -> Forall (fun x => has_char "'" x = false) vs ->
  (forall w, In w (uids l) -> fst w = t -> exists ws, snd w = KTup (map Some ws)) ->
  find_key t (pstr (s_keys (si cs)) vs) l = Ok (Some v).
Proof.
  intros s l t cs vs v W Wf Hs Ht Hv Hf Hk Hq Hall. unfold uids in Hv. apply in_map_iff in Hv.
  destruct Hv as ([v' x] & E & Hin). simpl in E. subst v'.
  assert (Hu := WellId_uid s l v x W Hin). assert (Htag := uid_tag s x v Hu).
  assert (Hx : schema_child s (xtag x) = Ok cs) by (rewrite <- Htag, Hf; auto).
  apply (uid_list s x cs Hx Ht) in Hu. destruct Hu as (ts & Hts & E). subst v. simpl in *. inversion Hk; subst ts.
  destruct (wfs_keys cs Wf Ht) as [_ Hkeys].
  assert (HL : length vs = length (s_keys (si cs))).
  { apply key_tuple_Forall2 in Hts. apply Forall2_len in Hts. rewrite map_length in Hts. auto. }
  unfold find_key. rewrite parse_pstr; auto.
  2:{ apply Forall_forall. intros k Hin'. apply Hkeys. auto. }
  f_equal. apply (find_unique _ l (xtag x, KTup (map Some vs)) x); [apply W | exact Hin | |].
  - unfold has_tag. simpl. rewrite Hf, String.eqb_refl. simpl.
    apply (combine_match cs x vs vs); eauto.
  - intros [w y] Hw Hp. unfold has_tag in Hp. simpl in *. apply andb_true_iff in Hp. destruct Hp as [P1 P2].
    apply String.eqb_eq in P1.
    assert (Hw' := WellId_uid s l w y W Hw). assert (Hwt := uid_tag s y w Hw').
    destruct (Hall w) as (ws & Ews); [apply (in_map fst) in Hw; exact Hw | congruence |].
    assert (Hy : schema_child s (xtag y) = Ok cs) by congruence.
    apply (uid_list s y cs Hy Ht) in Hw'. destruct Hw' as (ts & Hts' & E). subst w. simpl in *. inversion Ews; subst ts.
    assert (vs = ws) by (apply (combine_match cs y ws vs); eauto). subst. congruence.
Qed.

Lemma ref_sibling_ok : forall s l t cs cd v, WellId s l -> wfs cs = true -> schema_child s t = Ok cs ->
  is_user_seq cs = true -> xtag cd = t -> In v (uids l) -> fst v = t -> InsAttr cs (Some v) cd -> NamU cs v ->
  (forall w, In w (uids l) -> fst w = t -> sty cs = TList -> exists ws, snd w = KTup (map Some ws)) ->
  ref_sibling (sty cs) cd l = Ok v.
Proof.
  intros s l t cs cd v W Wf Hs Hus Hcd Hv Hf [_ HA] HN Hall. unfold NamU in HN. apply is_user_seq_iff in Hus. destruct Hus as [_ [Ht | Ht]].
  - rewrite Ht in *. destruct HN as (tx & E1). assert (E2 := HA tx E1). unfold ref_sibling. rewrite E2, Hcd.
    rewrite (find_value_ok s l t cs tx v); auto.
  - rewrite Ht in *. destruct HN as (vs & E1 & E2). assert (E3 := HA vs E1). unfold ref_sibling. rewrite E3, Hcd.
    rewrite (find_key_ok s l t cs vs v); auto.
Qed.
