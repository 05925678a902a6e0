(** The server of ServerSpec.v executes what node_sub produces and ends with the destination. *)
From Coq Require Import String Ascii List Bool Arith ZArith Lia Permutation.
From Verif Require Import Base BaseP XmlM CalcM CalcP NetconfM ListP DataSpec DataP DeltaSpec DeltaR NameP AddP AddStepP
  PlainP WorkP SubP RoundP EditSpec ServerSpec.
Import ListNotations.
Open Scope string_scope.
Open Scope list_scope.

Lemma F2_length : forall {A B} (R : A -> B -> Prop) l l', Forall2 R l l' -> length l = length l'.
Proof. intros A B R l l' H. induction H; simpl; auto. Qed.

(** ** Lookup *)
Lemma datas_Through : forall k c, In c (datas k) <-> Through k c.
Proof.
  intro k. induction k as [i ks IH] using snode_ind'. intro c. rewrite Forall_forall in IH. split.
  - intro H. cbn [datas] in H. destruct (s_type i) eqn:E;
      try (destruct H as [H | []]; subst c; apply th_here; unfold sty; simpl; rewrite E; discriminate).
    + apply in_flat_map in H. destruct H as (k & H1 & H2). apply (th_choice (SNode i ks) k c); auto. apply IH; auto.
    + apply in_flat_map in H. destruct H as (k & H1 & H2). apply (th_case (SNode i ks) k c); auto. apply IH; auto.
  - intro H. inversion H as [s0 N1 N2 | s0 k c0 E Hk HT | s0 k c0 E Hk HT]; subst.
    + cbn [datas]. unfold sty in N1, N2. simpl in N1, N2. destruct (s_type i); try (left; reflexivity); contradiction.
    + cbn [datas]. unfold sty in E. simpl in E. rewrite E. apply in_flat_map. exists k. split; auto. apply IH; auto.
    + cbn [datas]. unfold sty in E. simpl in E. rewrite E. apply in_flat_map. exists k. split; auto. apply IH; auto.
Qed.

Lemma defs_Defines : forall s c, In c (defs s) <-> Defines s (stag c) c.
Proof.
  intros s c. unfold defs, Defines. rewrite in_flat_map. split.
  - intros (k & H1 & H2). split; auto. exists k. split; auto. apply datas_Through. auto.
  - intros (_ & k & H1 & H2). exists k. split; auto. apply datas_Through. auto.
Qed.

Lemma lookup_ok : forall s t cs, schema_child s t = Ok cs -> lookup s t = Some cs.
Proof.
  intros s t cs H. assert (D := schema_child_Defines s t cs H). destruct D as [D1 D2].
  unfold lookup. destruct (find (fun k => String.eqb (stag k) t) (defs s)) as [c |] eqn:F.
  - apply find_some in F. destruct F as [F1 F2]. apply String.eqb_eq in F2. apply defs_Defines in F1. rewrite F2 in F1.
    f_equal. apply (Defines_schema_child s t); auto.
  - exfalso. assert (X : In cs (defs s)) by (apply defs_Defines; split; auto).
    assert (Y := find_none _ _ F cs X). simpl in Y. rewrite D1, String.eqb_refl in Y. discriminate.
Qed.

(** ** Identity *)
Lemma texts_one : forall k x c, kids_tagged k (xkids x) = [c] -> texts_of k x = [xtext c].
Proof. intros k x c H. unfold texts_of. unfold kids_tagged in H. rewrite H. reflexivity. Qed.

Lemma same_uid : forall s c y cs u v, schema_child s (xtag c) = Ok cs -> uid_of s c = Ok u -> uid_of s y = Ok v ->
  same_entry cs c y = uid_eqb u v.
Proof.
  intros s c y cs u v Hs Hu Hv. assert (Tu := uid_tag s c u Hu). assert (Tv := uid_tag s y v Hv).
  unfold same_entry, uid_eqb. rewrite Tu, Tv. destruct (String.eqb (xtag c) (xtag y)) eqn:E; [| reflexivity]. simpl.
  apply String.eqb_eq in E. assert (Hy : schema_child s (xtag y) = Ok cs) by congruence.
  destruct (sty cs) eqn:Ht;
    try (rewrite (uid_other s c cs) in Hu by (auto; congruence); rewrite (uid_other s y cs) in Hv by (auto; congruence);
         inversion Hu; inversion Hv; reflexivity).
  - rewrite (uid_leaflist s c cs) in Hu by auto. rewrite (uid_leaflist s y cs) in Hv by auto. inversion Hu; inversion Hv. reflexivity.
  - apply (uid_list s c cs Hs Ht) in Hu. apply (uid_list s y cs Hy Ht) in Hv.
    destruct Hu as (ts & H1 & E1). destruct Hv as (us & H2 & E2). subst u v. cbn [snd ukey_eqb].
    apply key_tuple_Forall2 in H1. apply key_tuple_Forall2 in H2. clear Tu Tv. revert us H2.
    induction H1 as [| k t ks ts (c1 & K1 & P1) H1 IH]; intros us H2; inversion H2 as [| ? ? ? ? (c2 & K2 & P2) H2']; subst; auto.
    cbn [forallb list_eqb]. rewrite (IH _ H2'). rewrite (texts_one k c c1 K1), (texts_one k y c2 K2).
    cbn [list_eqb]. rewrite andb_true_r. rewrite !parse_text_id by congruence. reflexivity.
Qed.

Section Same.
Variables (s cs : snode) (c : xml) (u : uid) (L : list ent).
Hypothesis Hs : schema_child s (xtag c) = Ok cs.
Hypothesis Hu : uid_of s c = Ok u.
Hypothesis HW : WellId s L.

Lemma same_in : forall e, In e L -> same_entry cs c (snd e) = has_uid u e.
Proof.
  intros [v y] H. simpl. unfold has_uid. simpl. apply (same_uid s); auto. apply (WellId_uid s L); auto.
Qed.
Lemma find_same : find (same_entry cs c) (map snd L) = assoc uid_eqb u L.
Proof.
  assert (H := same_in). clear HW. induction L as [| e r IH]; simpl; auto. rewrite (H e) by (left; auto). destruct e as [v y].
  unfold has_uid. simpl. destruct (uid_eqb u v); auto. apply IH. intros e He. apply H. right. auto.
Qed.
Lemma others_same : filter (fun y => negb (same_entry cs c y)) (map snd L) = map snd (del_uid u L).
Proof.
  assert (H := same_in). clear HW. unfold del_uid. induction L as [| e r IH]; simpl; auto. rewrite (H e) by (left; auto).
  destruct (has_uid u e); simpl; rewrite IH; auto; intros e' He'; apply H; right; auto.
Qed.
Lemma exists_same : existsb (same_entry cs c) (map snd L) = mem uid_eqb u (uids L).
Proof.
  assert (H := same_in). clear HW. induction L as [| e r IH]; simpl; auto. rewrite (H e) by (left; auto). unfold has_uid.
  rewrite IH; auto. intros e' He'. apply H. right. auto.
Qed.
Lemma map_same : forall n, map (fun y => if same_entry cs c y then n else y) (map snd L) = map snd (upd_uid u n L).
Proof.
  intro n. assert (H := same_in). clear HW. unfold upd_uid. induction L as [| e r IH]; simpl; auto. rewrite (H e) by (left; auto).
  rewrite IH by (intros e' He'; apply H; right; auto). destruct (has_uid u e); reflexivity.
Qed.
End Same.

Lemma plain_del : forall x, plain x = del_attrib x.
Proof.
  intro x. reflexivity.
Qed.

Lemma new_kids_copies : forall cs cd ks, sty cs = TList -> key_copies cs cd = Ok ks -> new_kids cs cd = ks.
Proof.
  intros cs cd ks Ht H. unfold new_kids. rewrite Ht. unfold key_copies in H. apply mapM_ok in H.
  induction H as [| k y l l' H HF IH]; auto. simpl. rewrite IH. unfold find_kid in H.
  destruct (find (fun c : xml => String.eqb (xtag c) k) (xkids cd)) as [kn |] eqn:F; [| discriminate].
  inversion H. rewrite plain_del. reflexivity.
Qed.

(** ** Named entries *)
Lemma pstr_inj : forall keys vs ws, Forall (fun k => has_char "=" k = false) keys ->
  length vs = length keys -> length ws = length keys ->
  Forall (fun v => has_char "'" v = false) vs -> Forall (fun v => has_char "'" v = false) ws ->
  pstr keys vs = pstr keys ws -> vs = ws.
Proof.
  intros keys vs ws HK L1 L2 F1 F2 E.
  assert (P1 := parse_pstr keys vs _ (eq_sym L1) HK F1 (le_n _)). assert (P2 := parse_pstr keys ws _ (eq_sym L2) HK F2 (le_n _)).
  rewrite E in P1. rewrite P1 in P2. inversion P2 as [C]. clear - C L1 L2. revert vs ws L1 L2 C.
  induction keys as [| k r IH]; intros [| v vs] [| w ws] L1 L2 C; simpl in *; try discriminate; auto.
  inversion C. f_equal. apply IH; auto.
Qed.

Lemma key_preds_ok : forall cs y ts, sty cs <> TContainer ->
  Forall2 (fun k t => exists c, kids_tagged k (xkids y) = [c] /\ parse_text cs c = t) (s_keys (si cs)) ts ->
  match key_preds (s_keys (si cs)) y with
  | Some p => exists ws, ts = map Some ws /\ Forall (fun v => has_char "'" v = false) ws /\ p = pstr (s_keys (si cs)) ws
  | None => forall ws, ts = map Some ws -> ~ Forall (fun v => has_char "'" v = false) ws
  end.
Proof.
  intros cs y ts NC H. induction H as [| k t ks ts (c & K & P) H IH]; simpl.
  - exists []. auto.
  - rewrite (texts_one k y c K). rewrite parse_text_id in P by auto. rewrite P. destruct t as [v |].
    + destruct (key_preds ks y) as [p |].
      * destruct IH as (ws & E1 & E2 & E3). subst. destruct (has_char "'" v) eqn:Ev.
        -- intros [| w ws'] E F; [discriminate |]. inversion E; subst. inversion F; subst. congruence.
        -- exists (v :: ws). split; auto.
      * intros [| w ws'] E F; [discriminate |]. inversion E; subst. inversion F; subst. apply (IH ws'); auto.
    + intros [| w ws'] E; discriminate.
Qed.

Lemma named_ok : forall s cs c v y w, wfs cs = true -> schema_child s (xtag c) = Ok cs -> is_user_seq cs = true ->
  fst v = xtag c -> (exists x, uid_of s x = Ok v) -> uid_of s y = Ok w -> InsAttr cs (Some v) c -> NamU cs v -> named cs c y = uid_eqb v w.
Proof.
  intros s cs c v y w W Hs U Tv (x & Hv) Hw IA HN. assert (Tw := uid_tag s y w Hw). assert (Tx := uid_tag s x v Hv).
  unfold named, uid_eqb. rewrite Tv, Tw. rewrite (String.eqb_sym (xtag c) (xtag y)).
  destruct (String.eqb (xtag y) (xtag c)) eqn:E; auto. simpl. apply String.eqb_eq in E.
  assert (Hy : schema_child s (xtag y) = Ok cs) by congruence. assert (Hx : schema_child s (xtag x) = Ok cs) by congruence.
  destruct IA as [_ IA]. unfold NamU in HN. apply is_user_seq_iff in U. destruct U as [_ U]. destruct U as [U | U]; rewrite U in *.
  - destruct HN as (tx & E1). assert (E2 := IA tx E1). rewrite E1, E2. rewrite (uid_leaflist s y cs) in Hw by auto. inversion Hw; subst w. cbn [snd ukey_eqb].
    destruct (xtext y); reflexivity.
  - destruct HN as (vs & E1 & E2). assert (E3 := IA vs E1). rewrite E1, E3.
    apply (uid_list s y cs Hy U) in Hw. destruct Hw as (ts & K & E4). subst w. cbn [snd ukey_eqb]. apply key_tuple_Forall2 in K.
    assert (LV : length vs = length (s_keys (si cs))).
    { apply (uid_list s x cs Hx U) in Hv. destruct Hv as (t2 & K2 & E5). subst v. simpl in E1. inversion E1; subst t2.
      apply key_tuple_Forall2 in K2. apply F2_length in K2. rewrite map_length in K2. auto. }
    assert (KP := key_preds_ok cs y ts ltac:(congruence) K).
    assert (LT := F2_length _ _ _ K).
    destruct (key_preds (s_keys (si cs)) y) as [p |].
    + destruct KP as (ws & F1 & F2 & F3). subst ts p. rewrite map_length in LT.
      destruct (String.eqb (pstr (s_keys (si cs)) vs) (pstr (s_keys (si cs)) ws)) eqn:Q.
      * apply String.eqb_eq in Q. destruct (wfs_keys cs W U) as [_ WK].
        assert (vs = ws).
        { apply (pstr_inj (s_keys (si cs))); auto. apply Forall_forall. intros k Hk. apply WK. auto. }
        subst ws. symmetry. apply (list_eqb_ok ostr_eqb ostr_eqb_ok). auto.
      * symmetry. apply (eqb_neq _ (list_eqb_ok ostr_eqb ostr_eqb_ok)). intro X.
        assert (X' : vs = ws).
        { clear -X. revert ws X. induction vs as [| a r IH]; intros [| b q] X; simpl in *; try discriminate; auto. inversion X. f_equal; auto. }
        subst. rewrite String.eqb_refl in Q. discriminate.
    + symmetry. apply (eqb_neq _ (list_eqb_ok ostr_eqb ostr_eqb_ok)). intro X. apply (KP vs); auto.
Qed.

Lemma insert_after_ok : forall s cs c v n u L, wfs cs = true -> schema_child s (xtag c) = Ok cs -> is_user_seq cs = true ->
  fst v = xtag c -> InsAttr cs (Some v) c -> NamU cs v -> WellId s L -> In v (uids L) ->
  insert_after (named cs c) n (map snd L) = Some (map snd (ins_after_first (has_uid v) (u, n) L)).
Proof.
  intros s cs c v n u L W Hs U Tv IA HN HW Hv.
  assert (Q : exists x, uid_of s x = Ok v).
  { apply in_map_iff in Hv. destruct Hv as ([v' x] & E & Hv). simpl in E. subst v'. exists x. apply (WellId_uid s L); auto. }
  assert (H : forall e, In e L -> named cs c (snd e) = has_uid v e).
  { intros [w y] He. simpl. unfold has_uid. simpl. apply (named_ok s); auto. apply (WellId_uid s L); auto. }
  clear HW Q. induction L as [| e r IH]; [destruct Hv |]. simpl. rewrite (H e) by (left; auto).
  destruct (has_uid v e) eqn:E; auto. rewrite IH; auto.
  - destruct Hv as [Hv | Hv]; auto. unfold has_uid in E. rewrite Hv, uid_eqb_refl in E. discriminate.
  - intros e' He'. apply H. right. auto.
Qed.

(** ** One step *)
Definition sstep (rec : snode -> xml -> list xml -> option (list xml)) (s : snode) (c : xml) (l : list xml) : option (list xml) :=
  match lookup s (xtag c) with
  | None => None
  | Some cs =>
      let there := find (same_entry cs c) l in
      let others := filter (fun y => negb (same_entry cs c y)) l in
      match edit_op c with
      | OpDelete => match there with Some _ => Some others | None => None end
      | OpRemove => Some others
      | OpCreate => match there with Some _ => None | None => put s cs c (plain c) l end
      | OpReplace => put s cs c (plain c) l
      | OpMerge =>
          if leafy cs then put s cs c (plain c) l
          else match rec cs c (match there with Some y => xkids y | None => new_kids cs c end) with
               | None => None
               | Some k => if vanishes cs k then Some others
                           else put s cs c (Elem (xtag c) None [] k) l
               end
      | OpUnknown => None
      end
  end.
Fixpoint sgo (s : snode) (ks l : list xml) : option (list xml) :=
  match ks with
  | [] => Some l
  | c :: r => match sstep serve s c l with None => None | Some l' => sgo s r l' end
  end.
Lemma serve_eq : forall s d l, serve s d l = sgo s (xkids d) l.
Proof.
  intros s [t tx a ks] l. simpl. revert l. induction ks as [| c r IH]; intro l; auto. cbn [sgo]. unfold sstep.
  destruct (lookup s (xtag c)) as [cs |]; auto.
  match goal with |- match ?x with _ => _ end = match ?y with _ => _ end => change y with x; destruct x; auto end.
Qed.

(** The condition under which a deletion is not refused *)
#[export] Instance srv_late : late :=
  Late (fun _ s _ lb ca op => op = OpRemove \/ forall v cb, In (v, cb) lb -> excludes s (xtag cb) (xtag ca) = false)
       True (fun _ _ _ _ _ _ => I) (fun _ s la ca o _ _ => or_intror (fun v cb (H : In (v, cb) []) => False_ind _ H)) (fun _ => True) (fun _ _ _ _ => True) (fun _ _ _ _ => True).

Definition ServeOK (d : xml) : Prop := forall n s a b, wfs s = true -> cases_ok s = true -> sty s <> TChoice -> validk s a -> validk s b -> one_case s b = true -> orderable s b = true ->
  IsD n s (xkids a) (xkids b) (xkids d) ->
  exists lr lb, serve s d (xkids a) = Some (map snd lr) /\ Index s (xkids b) lb /\ WellId s lr /\ KS s lr lb.

Lemma child_data : forall s t cs, schema_child s t = Ok cs -> sty cs <> TChoice.
Proof. intros s t cs H. apply schema_child_Defines in H. destruct H as (_ & k & _ & HT). clear -HT. induction HT; auto. Qed.

Lemma is_user_entries : forall cs, user_entries cs = is_user_seq cs.
Proof. intro cs. unfold user_entries, is_user_seq. destruct (sty cs); simpl; rewrite ?andb_false_r, ?andb_true_r; reflexivity. Qed.

Section Level.
Variables (dp : nat) (s : snode) (a b d : xml) (la lb ld : list ent).
Hypothesis W : wfs s = true.
Hypothesis CO : cases_ok s = true.
Hypothesis Va : validk s a.
Hypothesis Vb : validk s b.
Hypothesis OC : forall v cb v' cb', In (v, cb) lb -> In (v', cb') lb -> excludes s (xtag cb) (xtag cb') = false.
Hypothesis OK : forall c cs, In c (xkids b) -> schema_child s (xtag c) = Ok cs -> one_case cs c = true.
Hypothesis OO : orderable s b = true.
Hypothesis IA : Index s (xkids a) la.
Hypothesis IB : Index s (xkids b) lb.
Hypothesis ID : Index s (xkids d) ld.
Hypothesis HE : forall u, EntD dp s la lb (assoc uid_eqb u la) (assoc uid_eqb u lb) (assoc uid_eqb u ld).
Hypothesis HO : forall t cs, schema_child s t = Ok cs -> is_user_seq cs = true -> OrderOK t cs la lb ld.
Hypothesis REC : forall cd, In cd (xkids d) -> ServeOK cd.

Definition Ord (t : string) (cs : snode) (done L : list ent) : Prop :=
  (Chain cs None (dseq t lb ld) -> exists rest, seqt t L = uids (dseq t lb done) ++ rest) /\
  (seqt t la = [] -> Forall (fun e => get_attr insert_tag (snd e) = None) (dseq t lb ld) -> seqt t L = uids (dseq t lb done)) /\
  (seqt t ld = [] -> seqt t la = seqt t lb -> seqt t L = seqt t la).

Record Inv (done L : list ent) : Prop := {
  iv_id : WellId s L;
  iv_todo : forall u, ~ In u (uids done) -> assoc uid_eqb u L = assoc uid_eqb u la \/
    (assoc uid_eqb u L = None /\ exists ca v cb, assoc uid_eqb u la = Some ca /\ In (v, cb) lb /\ excludes s (xtag cb) (xtag ca) = true);
  iv_done : forall u, In u (uids done) ->
    match assoc uid_eqb u L, assoc uid_eqb u lb with
    | None, None => True
    | Some e, Some cb => Good s u e cb
    | _, _ => False
    end;
  iv_excl : forall v cb w, In v (uids done) -> In (v, cb) lb -> In w (uids L) -> excludes s (xtag cb) (fst w) = false;
  iv_ord : forall t cs, schema_child s t = Ok cs -> is_user_seq cs = true -> Ord t cs done L }.

Lemma inv_start : Inv [] la.
Proof.
  split.
  - apply (Index_WellId s (xkids a)). auto.
  - auto.
  - intros u [].
  - intros v cb w [].
  - intros t cs Hs U. unfold Ord. simpl. split; [eauto |]. split; auto.
Qed.

Lemma dseq_app : forall t x y, dseq t lb (x ++ y) = dseq t lb x ++ dseq t lb y.
Proof. intros. apply filter_app'. Qed.

Lemma dseq_In : forall t l e, In e (dseq t lb l) <-> In e l /\ fst (fst e) = t /\ In (fst e) (uids lb).
Proof.
  intros t l e. unfold dseq. rewrite filter_In, andb_true_iff, String.eqb_eq. rewrite (mem_In uid_eqb uid_eqb_ok). tauto.
Qed.

(** Facts about the node to be handled *)
Section Node.
Variables (done rest : list ent) (u : uid) (cd : xml).
Hypothesis SP : ld = done ++ (u, cd) :: rest.

Lemma u_new : ~ In u (uids done).
Proof.
  destruct ID as (_ & _ & ND). rewrite SP in ND. unfold uids in *. rewrite map_app in ND. simpl in ND.
  apply NoDup_remove_2 in ND. intro X. apply ND. apply in_or_app. auto.
Qed.
Lemma u_ld : assoc uid_eqb u ld = Some cd.
Proof. apply (Index_assoc s (xkids d) ld u cd ID). rewrite SP. apply in_or_app. right. left. auto. Qed.
Lemma u_tag : fst u = xtag cd.
Proof. apply (Index_tag s (xkids d) ld u cd ID). rewrite SP. apply in_or_app. right. left. auto. Qed.
Lemma u_uid : uid_of s cd = Ok u.
Proof. apply (Index_uid s (xkids d) ld u cd ID). rewrite SP. apply in_or_app. right. left. auto. Qed.

Lemma uids_snoc : forall w, In w (uids (done ++ [(u, cd)])) <-> In w (uids done) \/ w = u.
Proof. intro w. unfold uids. rewrite map_app, in_app_iff. simpl. intuition. Qed.

Lemma dseq_done_not : forall t, ~ In u (uids (dseq t lb done)).
Proof.
  intros t X. apply u_new. apply in_map_iff in X. destruct X as (e & E & X). apply dseq_In in X. rewrite <- E. apply in_map. tauto.
Qed.

(** Deletion *)
Lemma filter_keep : forall l, ~ In u l -> filter (fun v => negb (uid_eqb u v)) l = l.
Proof.
  induction l as [| x r IH]; simpl; intro H; auto. destruct (uid_eqb u x) eqn:E.
  - apply uid_eqb_ok in E. subst. exfalso. apply H. auto.
  - simpl. f_equal. apply IH. tauto.
Qed.

Lemma inv_del : forall L, Inv done L -> assoc uid_eqb u lb = None -> Inv (done ++ [(u, cd)]) (del_uid u L).
Proof.
  intros L [HW HT HD HX HR] Hb.
  assert (DS : forall t, dseq t lb (done ++ [(u, cd)]) = dseq t lb done).
  { intro t. rewrite dseq_app. unfold dseq at 2. simpl. assert (X : mem uid_eqb u (uids lb) = false).
    { apply (mem_not_In uid_eqb uid_eqb_ok). apply assoc_None_uids. auto. }
    rewrite X, andb_false_r. apply app_nil_r. }
  split.
  - destruct HW as [W1 W2]. split; [apply filter_Forall; auto |]. rewrite uids_del. apply NoDup_filter. auto.
  - intros w Hw. rewrite assoc_del. destruct (uid_eqb w u) eqn:E.
    + apply uid_eqb_ok in E. exfalso. apply Hw. apply uids_snoc. auto.
    + apply HT. intro X. apply Hw. apply uids_snoc. auto.
  - intros w Hw. rewrite assoc_del. destruct (uid_eqb w u) eqn:E.
    + apply uid_eqb_ok in E. subst. rewrite Hb. auto.
    + apply HD. apply uids_snoc in Hw. destruct Hw as [Hw | Hw]; auto. subst. rewrite uid_eqb_refl in E. discriminate.
  - intros v cb w Hv Hvb Hw. rewrite uids_del in Hw. apply filter_In in Hw. destruct Hw as [Hw _].
    apply uids_snoc in Hv. destruct Hv as [Hv | Hv]; [eapply HX; eauto |]. subst v.
    apply (Index_assoc s (xkids b) lb u cb IB) in Hvb. congruence.
  - intros t cs Hs U. destruct (HR t cs Hs U) as (R1 & R2 & R3). unfold Ord. rewrite DS, seqt_del. split; [| split].
    + intro C. destruct (R1 C) as (rs & E). rewrite E, filter_app', (filter_keep _ (dseq_done_not t)). eauto.
    + intros H1 H2. rewrite (R2 H1 H2). apply filter_keep. apply dseq_done_not.
    + intros H1 H2. rewrite (R3 H1 H2). apply filter_keep. intro X. apply seqt_In in X. destruct X as [_ X].
      assert (Y : In u (seqt t ld)). { apply seqt_In. split; auto. apply (assoc_Some_In_uids u ld cd u_ld). }
      rewrite H1 in Y. destruct Y.
Qed.

(** A node of the destination is put in its place *)
Definition keep_tag (e : ent) : bool := negb (excludes s (xtag cd) (fst (fst e))).
Definition kept (L : list ent) : list ent := filter keep_tag L.

Lemma kept_snd : forall L, WellId s L ->
  filter (fun y => negb (excludes s (xtag cd) (xtag y))) (map snd L) = map snd (kept L).
Proof.
  intros L HW. assert (H : forall e, In e L -> fst (fst e) = xtag (snd e)).
  { intros [v y] He. apply (uid_tag s). apply (WellId_uid s L); auto. }
  clear HW. unfold kept, keep_tag. induction L as [| e r IH]; simpl; auto. rewrite (H e) by (left; auto).
  destruct (negb (excludes s (xtag cd) (xtag (snd e)))); simpl; rewrite IH; auto; intros e' He'; apply H; right; auto.
Qed.
Lemma kept_assoc : forall L w, assoc uid_eqb w (kept L) = if excludes s (xtag cd) (fst w) then None else assoc uid_eqb w L.
Proof.
  intros L w. unfold kept. induction L as [| [v y] r IH]; simpl.
  - destruct (excludes s (xtag cd) (fst w)); auto.
  - unfold keep_tag at 1. simpl. destruct (uid_eqb w v) eqn:E.
    + assert (E' := E). apply uid_eqb_ok in E'. subst v. destruct (excludes s (xtag cd) (fst w)) eqn:X; simpl; [rewrite IH; auto |].
      rewrite E. auto.
    + destruct (excludes s (xtag cd) (fst v)); simpl; auto. rewrite E. auto.
Qed.
Lemma kept_seqt : forall L t, seqt t (kept L) = if excludes s (xtag cd) t then [] else seqt t L.
Proof.
  intros L t. unfold seqt, kept, keep_tag. induction L as [| [v y] r IH]; simpl.
  - destruct (excludes s (xtag cd) t); auto.
  - destruct (String.eqb (fst v) t) eqn:E.
    + apply String.eqb_eq in E. rewrite E. destruct (excludes s (xtag cd) t) eqn:X; simpl; auto.
      rewrite E, String.eqb_refl. rewrite IH. auto.
    + destruct (excludes s (xtag cd) (fst v)); simpl; auto. rewrite E. auto.
Qed.
Lemma kept_WellId : forall L, WellId s L -> WellId s (kept L).
Proof.
  intros L [W1 W2]. split; [apply filter_Forall; auto |]. unfold kept, uids in *. clear W1. induction L as [| e r IH]; simpl; auto.
  inversion W2; subst. destruct (keep_tag e); simpl; auto. constructor; auto. intro X. apply H1.
  apply in_map_iff in X. destruct X as (e' & E & X). apply filter_In in X. rewrite <- E. apply in_map. tauto.
Qed.

Section Put.
Variables (cb : xml) (cs : snode).
Hypothesis Hb : assoc uid_eqb u lb = Some cb.
Hypothesis Hcs : schema_child s (xtag cd) = Ok cs.

Lemma u_lb : In (u, cb) lb.
Proof. apply (Index_assoc s (xkids b) lb u cb IB). auto. Qed.
Lemma cb_tag : xtag cb = xtag cd.
Proof. rewrite <- u_tag. symmetry. apply (Index_tag s (xkids b) lb u cb IB u_lb). Qed.
Lemma not_self : forall v c, In (v, c) lb -> excludes s (xtag cd) (fst v) = false.
Proof. intros v c H. rewrite (Index_tag s (xkids b) lb v c IB H). rewrite <- cb_tag. apply (OC u cb v c u_lb H). Qed.
Lemma dseq_snoc : dseq (fst u) lb (done ++ [(u, cd)]) = dseq (fst u) lb done ++ [(u, cd)].
Proof.
  rewrite dseq_app. f_equal. unfold dseq. simpl. rewrite String.eqb_refl. simpl.
  assert (X : mem uid_eqb u (uids lb) = true) by (apply (mem_In uid_eqb uid_eqb_ok); apply assoc_Some_uids; eauto). rewrite X. auto.
Qed.
Lemma dseq_snoc_other : forall t, t <> fst u -> dseq t lb (done ++ [(u, cd)]) = dseq t lb done.
Proof.
  intros t N. rewrite dseq_app. unfold dseq at 2. simpl. assert (X : String.eqb (fst u) t = false) by (apply String.eqb_neq; auto).
  rewrite X. simpl. apply app_nil_r.
Qed.
Lemma dseq_u : forall P : ent -> Prop, Forall P (dseq (fst u) lb ld) -> P (u, cd).
Proof.
  intros P H. rewrite Forall_forall in H. apply H. apply dseq_In. split; [rewrite SP; apply in_or_app; right; left; auto |].
  split; auto. apply assoc_Some_uids; eauto.
Qed.
Lemma chain_u : Chain cs None (dseq (fst u) lb ld) ->
  exists prev, InsAttr cs prev cd /\ match prev with
    | None => dseq (fst u) lb done = []
    | Some v => exists p, uids (dseq (fst u) lb done) = p ++ [v]
    end.
Proof.
  rewrite SP. rewrite dseq_app. cbn [app]. assert (E : dseq (fst u) lb ((u, cd) :: rest) = (u, cd) :: dseq (fst u) lb rest).
  { unfold dseq. simpl. rewrite String.eqb_refl. simpl.
    assert (X : mem uid_eqb u (uids lb) = true) by (apply (mem_In uid_eqb uid_eqb_ok); apply assoc_Some_uids; eauto). rewrite X. auto. }
  rewrite E. generalize (dseq (fst u) lb done) as x. generalize (dseq (fst u) lb rest) as y. intros y x C.
  assert (G : forall prev, Chain cs prev (x ++ (u, cd) :: y) -> x = [] /\ InsAttr cs prev cd \/ exists v p, uids x = p ++ [v] /\ InsAttr cs (Some v) cd).
  { clear. induction x as [| e r IH]; intros prev C; simpl in C.
    - left. split; auto. apply C.
    - right. destruct C as [_ C]. destruct (IH _ C) as [[E H] | (v & p & E & H)].
      + subst. exists (fst e), []. auto.
      + exists v, (fst e :: p). split; auto. simpl. rewrite E. auto. }
  destruct (G None C) as [[E1 H] | (v & p & E1 & H)]; [exists None | exists (Some v)]; eauto.
Qed.

Lemma inv_put : forall L L' n, Inv done L -> Good s u n cb -> WellId s L' ->
  (forall w, assoc uid_eqb w L' = if uid_eqb w u then Some n else assoc uid_eqb w (kept L)) ->
  (forall t, t <> fst u -> seqt t L' = seqt t (kept L)) ->
  (is_user_seq cs = true -> Ord (fst u) cs (done ++ [(u, cd)]) L') ->
  Inv (done ++ [(u, cd)]) L'.
Proof.
  intros L L' n [HW HT HD HX HR] HG HW' HA HS HU. split; auto.
  - intros w Hw. rewrite HA. assert (N : uid_eqb w u = false).
    { apply (eqb_neq uid_eqb uid_eqb_ok). intro X. apply Hw. apply uids_snoc. auto. }
    assert (Hw' : ~ In w (uids done)) by (intro X; apply Hw; apply uids_snoc; auto).
    rewrite N, kept_assoc. destruct (excludes s (xtag cd) (fst w)) eqn:X; [| apply HT; auto].
    destruct (assoc uid_eqb w la) as [ca |] eqn:A; [right | left; auto]. split; auto.
    exists ca, u, cb. split; auto. split; [apply u_lb |]. rewrite cb_tag.
    apply (Index_assoc s (xkids a) la w ca IA) in A. rewrite <- (Index_tag s (xkids a) la w ca IA A). auto.
  - intros w Hw. rewrite HA. destruct (uid_eqb w u) eqn:E.
    + apply uid_eqb_ok in E. subst w. rewrite Hb. auto.
    + assert (Hw' : In w (uids done)).
      { apply uids_snoc in Hw. destruct Hw as [Hw | Hw]; auto. subst. rewrite uid_eqb_refl in E. discriminate. }
      specialize (HD w Hw'). rewrite kept_assoc. destruct (excludes s (xtag cd) (fst w)) eqn:X; auto.
      destruct (assoc uid_eqb w lb) as [c |] eqn:A; auto.
      * apply (Index_assoc s (xkids b) lb w c IB) in A. rewrite (not_self w c A) in X. discriminate.
  - intros v c w Hv Hc Hw. assert (HX2 : In w (uids L') -> w = u \/ (In w (uids L) /\ excludes s (xtag cd) (fst w) = false)).
    { intro Y. apply assoc_Some_uids in Y. destruct Y as (y & Y). rewrite HA in Y. destruct (uid_eqb w u) eqn:E; [left; apply uid_eqb_ok; auto |].
      right. rewrite kept_assoc in Y. destruct (excludes s (xtag cd) (fst w)); [discriminate |]. split; auto. apply assoc_Some_uids. eauto. }
    destruct (HX2 Hw) as [E | [H1 H2]].
    + subst w. rewrite u_tag, <- cb_tag. apply (OC v c u cb Hc u_lb).
    + apply uids_snoc in Hv. destruct Hv as [Hv | Hv]; [eapply HX; eauto |]. subst v.
      apply (Index_assoc s (xkids b) lb u c IB) in Hc. assert (c = cb) by congruence. subst c. rewrite cb_tag. auto.
  - intros t cs' Hs U. destruct (string_dec t (fst u)) as [E | N].
    + subst t. rewrite u_tag in Hs. assert (cs' = cs) by congruence. subst cs'. auto.
    + destruct (HR t cs' Hs U) as (R1 & R2 & R3). unfold Ord. rewrite (dseq_snoc_other t N), (HS t N), kept_seqt.
      destruct (excludes s (xtag cd) t) eqn:X; auto.
      assert (Z : seqt t lb = []).
      { destruct (seqt t lb) as [| w r] eqn:E; auto. assert (Y : In w (seqt t lb)) by (rewrite E; left; auto).
        apply seqt_In in Y. destruct Y as [Y T]. apply in_map_iff in Y. destruct Y as ([w' c] & E' & Y). simpl in E'. subst w'.
        rewrite <- T in X. rewrite (not_self w c Y) in X. discriminate. }
      assert (Z' : dseq t lb done = []).
      { destruct (dseq t lb done) as [| e r] eqn:E; auto. assert (Y : In e (dseq t lb done)) by (rewrite E; left; auto).
        apply dseq_In in Y. destruct Y as (_ & Y1 & Y2). assert (Y : In (fst e) (seqt t lb)) by (apply seqt_In; auto). rewrite Z in Y. destruct Y. }
      rewrite Z'. simpl. split; [eauto |]. split; auto. intros _ Q. rewrite Q. auto.
Qed.

Lemma uids_snd : forall (x : list ent), map fst x = uids x. Proof. reflexivity. Qed.

Theorem put_ok : forall L n, Inv done L -> Good s u n cb ->
  exists L', put s cs cd n (map snd L) = Some (map snd L') /\ Inv (done ++ [(u, cd)]) L'.
Proof.
  intros L n HI HG. assert (HW := iv_id _ _ HI). assert (Wk := kept_WellId L HW).
  assert (Wcs : wfs cs = true) by (apply (wfs_child s (xtag cd)); auto).
  assert (Un : uid_of s n = Ok u) by (destruct HG as (? & _ & _ & _ & _ & X); auto).
  unfold put. rewrite (kept_snd L HW). unfold place. rewrite is_user_entries.
  assert (NOATTR : (if is_user_seq cs then get_attr insert_tag cd else None) = None ->
            (is_user_seq cs = true -> seqt (fst u) la = [] /\ Forall (fun e => get_attr insert_tag (snd e) = None) (dseq (fst u) lb ld)) ->
            exists L', (if existsb (same_entry cs cd) (map snd (kept L)) then Some (map (fun y => if same_entry cs cd y then n else y) (map snd (kept L)))
                        else Some (map snd (kept L) ++ [n])) = Some (map snd L') /\ Inv (done ++ [(u, cd)]) L').
  { intros NA UP. rewrite (exists_same s cs cd u (kept L) Hcs u_uid Wk). destruct (mem uid_eqb u (uids (kept L))) eqn:M.
    - rewrite (map_same s cs cd u (kept L) Hcs u_uid Wk). exists (upd_uid u n (kept L)). split; auto.
      apply (mem_In uid_eqb uid_eqb_ok) in M. assert (M' := M). apply assoc_Some_uids in M'. destruct M' as (y & M').
      apply (inv_put L _ n); auto.
      + destruct Wk as [W1 W2]. split; [apply upd_Forall; auto | rewrite uids_upd; auto].
      + intro w. rewrite assoc_upd. destruct (uid_eqb w u) eqn:E; auto. apply uid_eqb_ok in E. subst. rewrite M'. auto.
      + intros t _. apply seqt_upd.
      + intro U. exfalso. destruct (UP U) as [U1 _].
        assert (X : assoc uid_eqb u (kept L) = assoc uid_eqb u L).
        { rewrite kept_assoc, (not_self u cb u_lb). auto. }
        destruct (iv_todo _ _ HI u u_new) as [Y | (Y & _)]; [| congruence].
        assert (Z : In u (uids la)) by (apply assoc_Some_uids; exists y; congruence).
        assert (Z' : In u (seqt (fst u) la)) by (apply seqt_In; auto). rewrite U1 in Z'. destruct Z'.
    - apply (mem_not_In uid_eqb uid_eqb_ok) in M. exists (kept L ++ [(u, n)]). split; [rewrite map_app; auto |].
      assert (HN := app_Ins (u, n) (kept L)).
      apply (inv_put L _ n); auto.
      + destruct Wk as [W1 W2]. split; [apply (Ins_Forall _ (u, n) (kept L)); auto |].
        apply (Ins_NoDup u (uids (kept L))); auto. apply (Ins_map fst (u, n)). auto.
      + intro w. exact (assoc_Ins w (u, n) (kept L) _ HN M).
      + intros t N. apply (seqt_Ins_other t (u, n) (kept L)); auto.
      + intro U. destruct (UP U) as [U1 U2]. unfold Ord.
        assert (E : seqt (fst u) (kept L ++ [(u, n)]) = uids (dseq (fst u) lb (done ++ [(u, cd)]))).
        { rewrite dseq_snoc. unfold seqt, uids. rewrite !map_app, filter_app'. simpl. rewrite String.eqb_refl. f_equal.
          fold (uids (kept L)). change (seqt (fst u) (kept L) = uids (dseq (fst u) lb done)). rewrite kept_seqt, (not_self u cb u_lb).
          assert (Hs' : schema_child s (fst u) = Ok cs) by (rewrite u_tag; auto).
          destruct (iv_ord _ _ HI (fst u) cs Hs' U) as (_ & R2 & _). auto. }
        rewrite E. split; [exists []; rewrite app_nil_r; auto |]. split; auto.
        intros Q _. exfalso. assert (Y : In u (seqt (fst u) ld)) by (apply seqt_In; split; auto; apply (assoc_Some_In_uids u ld cd u_ld)).
        rewrite Q in Y. destruct Y. }
  destruct (is_user_seq cs) eqn:U; [| apply NOATTR; auto; discriminate].
  assert (Hs' : schema_child s (fst u) = Ok cs) by (rewrite u_tag; auto).
  assert (INld : In u (seqt (fst u) ld)) by (apply seqt_In; split; auto; apply (assoc_Some_In_uids u ld cd u_ld)).
  assert (Wd : WellId s (del_uid u (kept L))).
  { destruct Wk as [W1 W2]. split; [apply filter_Forall; auto |]. rewrite uids_del. apply NoDup_filter. auto. }
  assert (ND : ~ In u (uids (del_uid u (kept L)))).
  { rewrite uids_del. rewrite filter_In. rewrite uid_eqb_refl. intros [_ X]. discriminate. }
  (* placement in a list that does not have the node any more *)
  assert (PLACE : forall L', Ins (u, n) (del_uid u (kept L)) L' ->
            (forall rs, seqt (fst u) L = uids (dseq (fst u) lb done) ++ rs -> exists rs', seqt (fst u) L' = uids (dseq (fst u) lb done ++ [(u, cd)]) ++ rs') ->
            ~ get_attr insert_tag cd = None -> Chain cs None (dseq (fst u) lb ld) -> Inv (done ++ [(u, cd)]) L').
  { intros L' HN HS NA C. apply (inv_put L _ n); auto.
    - destruct Wd as [W1 W2]. split; [apply (Ins_Forall _ (u, n) (del_uid u (kept L))); auto |].
      apply (Ins_NoDup u (uids (del_uid u (kept L)))); auto. apply (Ins_map fst (u, n)). auto.
    - intro w. rewrite (assoc_Ins w (u, n) _ _ HN ND). simpl. destruct (uid_eqb w u) eqn:E; auto. rewrite assoc_del, E. auto.
    - intros t N. rewrite (seqt_Ins_other t (u, n) _ _ HN) by auto. rewrite seqt_del. apply filter_keep. intro X. apply seqt_In in X. destruct X as [_ X]. apply N. auto.
    - intros _. unfold Ord. rewrite dseq_snoc. destruct (iv_ord _ _ HI (fst u) cs Hs' U) as (R1 & _ & _).
      split; [intros _; destruct (R1 C) as (rs & E); apply (HS rs E) |]. split.
      + intros _ X. apply dseq_u in X. simpl in X. contradiction.
      + intros X. rewrite X in INld. destruct INld. }
  destruct (HO (fst u) cs Hs' U) as [OC1 C | OP1 OP2 OP3 | OS1 OS2].
  - destruct (chain_u C) as ([v |] & IAt & PR).
    + destruct PR as (p & PR). assert (IAt' := IAt). destruct IAt' as [IA1 _]. rewrite IA1.
      rewrite (others_same s cs cd u (kept L) Hcs u_uid Wk).
      assert (Vd : In v (uids (dseq (fst u) lb done))) by (rewrite PR; apply in_or_app; right; left; auto).
      assert (Vi : In v (uids done) /\ fst v = fst u /\ In v (uids lb)).
      { apply in_map_iff in Vd. destruct Vd as (e & E & Vd). apply dseq_In in Vd. rewrite <- E. split; [apply in_map; tauto | tauto]. }
      destruct Vi as (V1 & V2 & V3).
      assert (VL : In v (uids (del_uid u (kept L)))).
      { apply assoc_Some_uids. rewrite assoc_del. assert (X : uid_eqb v u = false).
        { apply (eqb_neq uid_eqb uid_eqb_ok). intro E. subst. apply u_new. auto. }
        rewrite X. rewrite kept_assoc, V2, (not_self u cb u_lb). assert (Y := iv_done _ _ HI v V1).
        apply assoc_Some_uids in V3. destruct V3 as (vb & V3). rewrite V3 in Y. destruct (assoc uid_eqb v L) as [e |]; [eauto | contradiction]. }
      rewrite (insert_after_ok s cs cd v n u (del_uid u (kept L))); auto; [| rewrite V2; apply u_tag | apply (orderable_NamU s b lb v cs OO IB V3); auto; rewrite V2, u_tag; auto].
      eexists. split; [reflexivity |]. apply PLACE; auto; [apply ins_after_first_Ins | | congruence].
      intros rs E. exists (filter (fun w => negb (uid_eqb u w)) rs). unfold seqt, uids.
      rewrite (ins_after_first_map fst (has_uid v) (uid_eqb v) (u, n)) by (intros [x1 x2] _; reflexivity).
      cbn [fst]. rewrite (ins_after_first_filter (uid_eqb v)).
      * fold (uids (del_uid u (kept L))). change (filter (fun w => String.eqb (fst w) (fst u)) (uids (del_uid u (kept L)))) with (seqt (fst u) (del_uid u (kept L))).
        rewrite seqt_del, kept_seqt, (not_self u cb u_lb), E, filter_app', (filter_keep _ (dseq_done_not (fst u))), PR.
        change (map fst (dseq (fst u) lb done ++ [(u, cd)])) with (uids (dseq (fst u) lb done ++ [(u, cd)])).
        assert (EA : uids (dseq (fst u) lb done ++ [(u, cd)]) = p ++ [v; u]).
        { etransitivity; [apply map_app |]. etransitivity; [exact (f_equal (fun z => z ++ [u]) PR) |]. rewrite <- app_assoc. reflexivity. }
        rewrite EA. rewrite <- !app_assoc. simpl. rewrite ins_after_first_split; auto.
        assert (N2 := seqt_NoDup (fst u) L (proj2 HW)). rewrite E, PR in N2. rewrite <- app_assoc in N2. simpl in N2. apply NoDup_remove_2 in N2. intro X. apply N2. apply in_or_app. auto.
      * intros x _ X. apply uid_eqb_ok in X. subst x. apply String.eqb_eq. auto.
      * apply String.eqb_refl.
      * apply existsb_exists. exists v. split; auto. apply uid_eqb_refl.
    + simpl in IAt. rewrite IAt. rewrite (others_same s cs cd u (kept L) Hcs u_uid Wk).
      exists ((u, n) :: del_uid u (kept L)). split; [reflexivity |]. apply PLACE; auto; [exists [], (del_uid u (kept L)); auto | | congruence].
      intros rs E. rewrite PR in *. simpl in E. exists (filter (fun w => negb (uid_eqb u w)) rs). unfold seqt, uids. simpl. rewrite String.eqb_refl. f_equal.
      change (seqt (fst u) (del_uid u (kept L)) = filter (fun w => negb (uid_eqb u w)) rs). rewrite seqt_del, kept_seqt, (not_self u cb u_lb), E. auto.
  - assert (NA : get_attr insert_tag cd = None) by (apply (dseq_u (fun e => get_attr insert_tag (snd e) = None)); auto).
    rewrite NA. apply NOATTR; auto.
  - rewrite OS1 in INld. destruct INld.
Qed.
End Put.

Lemma edit_op_of : forall c, edit_op c = op_of c.
Proof. reflexivity. Qed.
Lemma leafy_leafish : forall cs, leafy cs = leafish (sty cs).
Proof. intro cs. unfold leafy. destruct (sty cs); reflexivity. Qed.
Lemma vanishes_np : forall cs k, vanishes cs k = np_container cs && match k with [] => true | _ => false end.
Proof. intros cs k. unfold vanishes, np_container. destruct (sty cs), k; simpl; rewrite ?andb_true_r, ?andb_false_r; reflexivity. Qed.

Lemma cases_child : forall x t cs, cases_ok x = true -> schema_child x t = Ok cs -> cases_ok cs = true.
Proof.
  intros x t cs H Hs. apply schema_child_Defines in Hs. destruct Hs as (_ & k & Hin & HT).
  assert (K : forall y k, cases_ok y = true -> In k (skids y) -> cases_ok k = true).
  { intros [i ks] k0 Hy Hk. cbn [cases_ok] in Hy. apply andb_true_iff in Hy. destruct Hy as [_ Hy]. rewrite forallb_forall in Hy. auto. }
  assert (C := K x k H Hin). clear Hin H. induction HT; auto; apply IHHT; eapply K; eauto.
Qed.

Theorem step_ok : forall L, Inv done L ->
  exists L', sstep serve s cd (map snd L) = Some (map snd L') /\ Inv (done ++ [(u, cd)]) L'.
Proof.
  intros L HI. assert (HW := iv_id _ _ HI). destruct (uid_schema s cd u u_uid) as (cs & Hcs).
  assert (Wcs : wfs cs = true) by (apply (wfs_child s (xtag cd)); auto).
  assert (Ccs : cases_ok cs = true) by (apply (cases_child s (xtag cd)); auto).
  assert (Dcs : sty cs <> TChoice) by (apply (child_data s (xtag cd)); auto).
  unfold sstep. rewrite (lookup_ok s _ cs Hcs). cbn zeta.
  rewrite (find_same s cs cd u L Hcs u_uid HW), (others_same s cs cd u L Hcs u_uid HW), edit_op_of, leafy_leafish.
  assert (EN := HE u). rewrite u_ld in EN.
  assert (INd : In cd (xkids d)).
  { apply (Index_kid s _ ld u cd ID). rewrite SP. apply in_or_app. right. left. auto. }
  assert (RC := REC cd INd).
  (* the node in the source *)
  assert (FA : forall ca, assoc uid_eqb u la = Some ca -> xtag ca = xtag cd /\ schema_child s (xtag ca) = Ok cs /\ valid cs ca = true).
  { intros ca A. apply (Index_assoc s (xkids a) la u ca IA) in A. assert (T := Index_tag s (xkids a) la u ca IA A). rewrite u_tag in T.
    split; auto. rewrite <- T. split; auto. destruct Va as [_ V]. destruct (V ca (Index_kid s _ la u ca IA A)) as (c' & E & V').
    rewrite <- T in E. assert (c' = cs) by congruence. subst. auto. }
  (* the node in the destination *)
  assert (FB : forall cb, assoc uid_eqb u lb = Some cb -> xtag cb = xtag cd /\ schema_child s (xtag cb) = Ok cs /\ valid cs cb = true /\
            uid_of s cb = Ok u /\ one_case cs cb = true /\ orderable cs cb = true).
  { intros cb A. apply (Index_assoc s (xkids b) lb u cb IB) in A. assert (T := Index_tag s (xkids b) lb u cb IB A). rewrite u_tag in T.
    assert (Hk := Index_kid s _ lb u cb IB A).
    split; auto. rewrite <- T. split; auto. destruct Vb as [_ V]. destruct (V cb Hk) as (c' & E & V').
    rewrite <- T in E. assert (c' = cs) by congruence. subst. split; auto. split; [apply (Index_uid s (xkids b) lb); auto |].
    split; [apply OK; auto; congruence |]. apply (orderable_kid s b cb cs OO Hk). congruence. }
  (* a copy of the node of the destination *)
  assert (COPY : forall cb, assoc uid_eqb u lb = Some cb -> Body cd cb ->
            exists L', put s cs cd (plain cd) (map snd L) = Some (map snd L') /\ Inv (done ++ [(u, cd)]) L').
  { intros cb A B. destruct (FB cb A) as (T & S1 & V & U1 & _). apply (put_ok cb cs A Hcs L); auto.
    rewrite plain_del. rewrite (Body_del cs cd cb); auto. apply (Good_refl s u cb cs); auto. }
  (* a node that is merged *)
  assert (MERGE : forall cb k0, assoc uid_eqb u lb = Some cb -> nodeish (sty cs) = true -> validk cs (Elem (xtag cd) None [] k0) ->
            IsD (S dp) cs k0 (xkids cb) (xkids cd) ->
            exists L', match serve cs cd k0 with
                       | None => None
                       | Some k => if vanishes cs k then Some (map snd (del_uid u L)) else put s cs cd (Elem (xtag cd) None [] k) (map snd L)
                       end = Some (map snd L') /\ Inv (done ++ [(u, cd)]) L').
  { intros cb k0 A N V0 HD. destruct (FB cb A) as (T & S1 & V & U1 & O1 & O2).
    destruct (RC (S dp) cs (Elem (xtag cd) None [] k0) cb Wcs Ccs Dcs V0 (valid_validk cs cb V) O1 O2 HD) as (lr & lc & R1 & R2 & R3 & R4).
    cbn [xkids] in R1. rewrite R1.
    destruct (KS_good cs cb (Elem (xtag cd) None [] (map snd lr)) lr lc N V R2) as [G1 G2]; auto.
    { apply WellId_Index. auto. }
    rewrite vanishes_np.
    assert (NV : np_container cs && match map snd lr with [] => true | _ => false end = false).
    { destruct (np_container cs) eqn:NP; auto. assert (X := np_kids cs _ G1 NP). cbn [xkids] in X. destruct (map snd lr); [contradiction | auto]. }
    rewrite NV. apply (put_ok cb cs A Hcs L); auto.
    exists cs. cbn [xtag]. split; auto. split; auto. split; auto. split; auto. apply (Same_uid s _ cb cs); auto. }
  assert (NLEAF : nodeish (sty cs) = true -> leafish (sty cs) = false) by (destruct (sty cs); simpl; auto; discriminate).
  assert (TODO := iv_todo _ _ HI u u_new).
  destruct (assoc uid_eqb u la) as [ca |] eqn:A.
  - destruct (FA ca eq_refl) as (Ta & Sa & Vca).
    (* still there, unless a node of another case was put *)
    assert (THERE : (forall v cb, In (v, cb) lb -> excludes s (xtag cb) (xtag ca) = false) -> assoc uid_eqb u L = Some ca).
    { intro N. destruct TODO as [X | (_ & ca' & v & cb & E1 & E2 & E3)]; auto. inversion E1; subst ca'. rewrite (N v cb E2) in E3. discriminate. }
    assert (STAY : forall cb, assoc uid_eqb u lb = Some cb -> assoc uid_eqb u L = Some ca).
    { intros cb B. apply THERE. intros v cb' Hv. destruct (FB cb B) as (T & _). rewrite Ta, <- T. apply (OC v cb' u cb Hv).
      apply (Index_assoc s (xkids b) lb u cb IB). auto. }
    remember (assoc uid_eqb u lb) as ob eqn:B. symmetry in B.
    inversion EN as [| | | | | | n0 s0 l1 l2 c1 c2 cs1 S1 O1 K1 D1 D2 | n0 s0 l1 l2 c1 c2 cs1 S1 N1 O1 K1 D1
      | n0 s0 l1 l2 c1 c2 c3 cs1 S1 N1 O1 B1 | n0 s0 l1 l2 c1 c2 c3 cs1 S1 N1 O1 B1 _ | n0 s0 l1 l2 c1 c2 c3 cs1 S1 N1 O1 _ D1]; subst n0 s0 l1 l2 c1.
    + (* deleted *) subst c2. destruct O1 as [O1 | O1]; rewrite O1.
      * destruct K1 as [K1 | K1]; [congruence |]. rewrite (THERE K1). eexists. split; [reflexivity |]. apply inv_del; auto; congruence.
      * eexists. split; [reflexivity |]. apply inv_del; auto; congruence.
    + (* emptied *) subst c2. assert (cs1 = cs) by congruence. subst cs1. rewrite O1. destruct K1 as [K1 | K1]; [discriminate |]. rewrite (THERE K1).
      assert (NL : leafish (sty cs) = false).
      { unfold np_container in N1. destruct (sty cs); auto; discriminate. }
      rewrite NL. destruct (RC (S dp) cs ca (Elem (xtag cd) None [] []) Wcs Ccs Dcs (valid_validk cs ca Vca) (validk_nil _ _ _ _) eq_refl eq_refl D1) as (lr & lc & R1 & R2 & R3 & R4).
      rewrite R1. apply Index_nil_inv in R2. subst lc.
      assert (lr = []).
      { destruct R4 as [R4 _]. destruct lr as [| [w y] r]; auto. specialize (R4 w). simpl in R4. rewrite uid_eqb_refl in R4. contradiction. }
      subst lr. rewrite vanishes_np, N1. eexists. split; [reflexivity |]. apply inv_del; auto; congruence.
    + (* leaf *) subst c3. assert (cs1 = cs) by congruence. subst cs1. destruct O1 as [O1 | O1]; rewrite O1; rewrite ?N1; apply (COPY c2); congruence.
    + subst c3. rewrite O1. apply (COPY c2); congruence.
    + (* merged *) subst c3. assert (cs1 = cs) by congruence. subst cs1. rewrite O1, (NLEAF N1), (STAY c2) by congruence.
      apply (MERGE c2 (xkids ca)); auto; try congruence. destruct (valid_validk cs ca Vca) as [X1 X2]. split; auto.
  - assert (NO : assoc uid_eqb u L = None).
    { destruct TODO as [X | (X & _)]; auto. }
    rewrite NO. remember (assoc uid_eqb u lb) as ob eqn:B. symmetry in B.
    destruct (EntD_new dp s la lb ob cd EN) as (cb & cs1 & E & S1 & H). rewrite E in *.
    destruct (FB cb ltac:(congruence)) as (T & S2 & V & U1 & O1). assert (cs1 = cs) by congruence. subst cs1.
    destruct H as [[O BD] | [(Ty & O & HD) | (Ty & O & ks & HK & HD)]].
    + destruct O as [O | [O | [O Lf]]]; rewrite O; rewrite ?Lf; apply (COPY cb); congruence.
    + rewrite O, Ty. cbn [leafish]. assert (NK : new_kids cs cd = []) by (unfold new_kids; rewrite Ty; auto). rewrite NK.
      apply (MERGE cb []); [congruence | rewrite Ty; auto | apply validk_nil | exact HD].
    + rewrite O, Ty. cbn [leafish]. rewrite (new_kids_copies cs cd ks Ty HK).
      apply (MERGE cb ks); [congruence | rewrite Ty; auto | | exact HD].
      assert (KI := key_copies_in (S dp) s cs cb cd ks u Wcs S2 Ty V U1 HK HD). split.
      * inversion HD; subst. cbn [xkids]. eauto.
      * cbn [xkids]. intros k Hk. destruct (KI k Hk) as [K1 _]. destruct (valid_inv cs cb V) as (_ & _ & KB). auto.
Qed.
End Node.

Lemma loop_ok : forall rest done L, ld = done ++ rest -> Inv done L ->
  exists L', sgo s (map snd rest) (map snd L) = Some (map snd L') /\ Inv ld L'.
Proof.
  intro rest. induction rest as [| [u cd] r IH]; intros done L SP HI.
  - rewrite app_nil_r in SP. subst done. exists L. auto.
  - destruct (step_ok done r u cd SP L HI) as (L1 & S1 & I1). destruct (IH (done ++ [(u, cd)]) L1) as (L2 & S2 & I2); auto.
    { rewrite <- app_assoc. auto. }
    exists L2. split; auto. cbn [map sgo snd]. rewrite S1. auto.
Qed.

(** What the server excludes covers what node_sub leaves to it *)
Hypothesis SUP : forall ca, Suppressed s la lb ca -> exists v cb, In (v, cb) lb /\ ~ In v (uids la) /\ excludes s (xtag cb) (xtag ca) = true.

Lemma inv_end : forall L, Inv ld L -> KS s L lb.
Proof.
  intros L [HW HT HD HX HR].
  assert (HK : forall u, match assoc uid_eqb u L, assoc uid_eqb u lb with
             | None, None => True | Some e, Some cb => Good s u e cb | _, _ => False end).
  { intro u. destruct (assoc uid_eqb u ld) as [cd |] eqn:D.
    - apply HD. apply assoc_Some_uids. eauto.
    - assert (EN := HE u). rewrite D in EN. assert (ND : ~ In u (uids ld)) by (apply assoc_None_uids; auto).
      specialize (HT u ND).
      remember (assoc uid_eqb u la) as oa eqn:A. remember (assoc uid_eqb u lb) as ob eqn:B. symmetry in A, B.
      inversion EN as [n0 s0 l1 l2 | n0 s0 l1 l2 ca cb cs S1 S2 | n0 s0 l1 l2 ca _ S1 | | | | | | | |]; subst n0 s0 l1 l2.
      + assert (E1 : oa = None) by congruence. destruct HT as [X | (X & _)]; rewrite X, ?E1; auto.
      + assert (A' : In (u, ca) la) by (apply (Index_assoc s (xkids a) la); auto; congruence).
        assert (B' : In (u, cb) lb) by (apply (Index_assoc s (xkids b) lb); auto; congruence).
        assert (Ta := Index_tag s (xkids a) la u ca IA A'). assert (Tb := Index_tag s (xkids b) lb u cb IB B').
        destruct HT as [X | (_ & ca' & v & cb' & E1 & E2 & E3)].
        * assert (E0 : oa = Some ca) by congruence. rewrite X, E0. exists cs. split; auto.
          destruct Va as [_ V1]. destruct (V1 ca (Index_kid s _ la u ca IA A')) as (c1 & Q1 & Q2).
          destruct Vb as [_ V2]. destruct (V2 cb (Index_kid s _ lb u cb IB B')) as (c2 & Q3 & Q4).
          assert (c1 = cs) by congruence. rewrite <- Tb, Ta in Q3. assert (c2 = cs) by congruence. subst c1 c2.
          split; auto. split; auto. split; auto. apply (Index_uid s (xkids a) la); auto.
        * exfalso. assert (ca' = ca) by congruence. subst ca'. rewrite <- Ta, Tb in E3. rewrite (OC v cb' u cb E2 B') in E3. discriminate.
      + destruct (SUP ca S1) as (v & cb & V1 & V2 & V3).
        assert (DV : In v (uids ld)).
        { destruct (assoc uid_eqb v ld) as [y |] eqn:Y; [apply assoc_Some_uids; eauto |]. exfalso. assert (EV := HE v). rewrite Y in EV.
          apply (Index_assoc s (xkids b) lb v cb IB) in V1. apply assoc_None_uids in V2. rewrite V1, V2 in EV. inversion EV. }
        destruct (assoc uid_eqb u L) as [e |] eqn:EL; auto. exfalso.
        assert (UL : In u (uids L)) by (apply assoc_Some_uids; eauto). assert (Z := HX v cb u DV V1 UL).
        assert (A' : In (u, ca) la) by (apply (Index_assoc s (xkids a) la); auto; congruence).
        rewrite (Index_tag s (xkids a) la u ca IA A') in Z. congruence. }
  split; auto. intros t cs Hs U. destruct (HR t cs Hs U) as (R1 & R2 & R3).
  destruct (HO t cs Hs U) as [OC1 C | OP1 OP2 OP3 | OS1 OS2].
  - destruct (R1 C) as (rs & E). change (uids (dseq t lb ld) = seqt t lb) in OC1. rewrite OC1 in E.
    assert (rs = []).
    { destruct rs as [| w r]; auto. exfalso. assert (Iw : In w (seqt t L)) by (rewrite E; apply in_or_app; right; left; auto).
      apply seqt_In in Iw. destruct Iw as [Iw T]. specialize (HK w). apply assoc_Some_uids in Iw. destruct Iw as (y & Iw). rewrite Iw in HK.
      destruct (assoc uid_eqb w lb) as [c |] eqn:Y; [| contradiction].
      assert (Z : In w (seqt t lb)) by (apply seqt_In; split; auto; apply assoc_Some_uids; eauto).
      assert (N := seqt_NoDup t L (proj2 HW)). rewrite E in N. apply NoDup_remove_2 in N. apply N. apply in_or_app. auto. }
    subst rs. rewrite app_nil_r in E. auto.
  - rewrite (R2 OP1 OP3). exact OP2.
  - rewrite (R3 OS1 OS2). auto.
Qed.
End Level.

(** ** Exclusion *)
Lemma cases_kid : forall s k, cases_ok s = true -> In k (skids s) -> cases_ok k = true /\ (sty k = TCase -> sty s = TChoice).
Proof.
  intros [i ks] k H Hk. cbn [cases_ok] in H. apply andb_true_iff in H. destruct H as [H1 H2]. rewrite forallb_forall in *.
  split; auto. intro T. specialize (H1 k Hk). unfold is_case in H1. rewrite T in H1. simpl in H1. unfold is_choice in H1.
  destruct (sty (SNode i ks)); auto; discriminate.
Qed.

Lemma Locus_cases : forall s p k, Locus s p k -> cases_ok s = true -> cases_ok k = true.
Proof.
  intros s p k H C. induction H as [i c H | p k i c H IH T N].
  - apply (cases_kid s c C). eapply nth_error_In; eauto.
  - apply (cases_kid k c IH). eapply nth_error_In; eauto.
Qed.

Lemma Locus_fun : forall s p k, Locus s p k -> forall k', Locus s p k' -> k = k'.
Proof.
  intros s p k H. induction H as [i c H | p k i c H IH T N]; intros k' H'.
  - inversion H' as [? ? N' | ? ? ? ? N' ? ?]; subst; [congruence |]. inversion N'.
  - inversion H' as [? ? N' | ? k2 ? ? L' ? N']; subst; [inversion H |]. assert (k = k2) by auto. subst. congruence.
Qed.

Lemma excl_up : forall s p k t t', Locus s p k -> excl t t' k = true -> excludes s t t' = true.
Proof.
  intros s p k t t' H. induction H as [i c H | p k i c H IH T N]; intro E.
  - apply existsb_exists. exists c. split; auto. eapply nth_error_In; eauto.
  - apply IH. destruct k as [ki kk]. apply nth_error_In in N. simpl in N.
    assert (X : existsb (excl t t') kk = true) by (apply existsb_exists; eauto).
    cbn [excl]. unfold sty in T. simpl in T. destruct T as [T | T]; rewrite T; rewrite X, ?orb_true_r; auto.
Qed.

Lemma apart_iff : forall t t' l, apart t t' l = true <->
  exists m n k k', m <> n /\ nth_error l m = Some k /\ nth_error l n = Some k' /\ has t k = true /\ has t' k' = true.
Proof.
  intros t t' l. induction l as [| x r IH]; cbn [apart].
  - split; [discriminate |]. intros ([| m] & n & k & k' & _ & H & _); discriminate.
  - rewrite !orb_true_iff, !andb_true_iff, IH, !existsb_exists. split.
    + intros [[[H1 (k' & H2 & H3)] | [H1 (k & H2 & H3)]] | (m & n & k & k' & H1 & H2 & H3 & H4 & H5)].
      * apply In_nth_error in H2. destruct H2 as (n & H2). exists 0, (S n), x, k'. repeat split; auto.
      * apply In_nth_error in H2. destruct H2 as (n & H2). exists (S n), 0, k, x. repeat split; auto.
      * exists (S m), (S n), k, k'. repeat split; auto.
    + intros (m & n & k & k' & H1 & H2 & H3 & H4 & H5). destruct m as [| m], n as [| n]; simpl in *.
      * contradiction.
      * inversion H2; subst. left. left. split; auto. exists k'. split; auto. eapply nth_error_In; eauto.
      * inversion H3; subst. left. right. split; auto. exists k. split; auto. eapply nth_error_In; eauto.
      * right. exists m, n, k, k'. repeat split; auto.
Qed.

Lemma entry_data : forall s t e, schema_entry s t = Ok e -> sty (ce_node e) <> TChoice /\ sty (ce_node e) <> TCase.
Proof.
  intros s t e H. assert (D : schema_child s t = Ok (ce_node e)) by (apply schema_child_entry; eauto).
  apply schema_child_Defines in D. destruct D as (_ & k & _ & HT). clear -HT. induction HT; auto.
Qed.

Lemma has_case : forall s t e i m q kk, schema_entry s t = Ok e -> ce_pos e = i :: m :: q -> Locus s (m :: q) kk -> has t kk = true.
Proof.
  intros s t e i m q kk He P L. destruct (entry_Locus s t e He) as [L1 _]. rewrite P in L1.
  inversion L1 as [| ? k ? ? L2 T N]; subst. assert (k = kk) by (eapply Locus_fun; eauto). subst k.
  unfold has. apply existsb_exists. exists (ce_node e). split.
  - apply datas_Through. destruct (entry_data s t e He) as [D1 D2]. apply nth_error_In in N.
    destruct T as [T | T]; [eapply th_choice | eapply th_case]; eauto; apply th_here; auto.
  - apply schema_entry_In in He. destruct He as [_ He]. rewrite He. apply String.eqb_refl.
Qed.

Lemma cases_exclude : forall s t t' e e', cases_ok s = true -> sty s <> TChoice -> schema_entry s t = Ok e -> schema_entry s t' = Ok e' ->
  ce_case e = true -> ce_case e' = true -> choice_pos e = choice_pos e' -> case_pos e <> case_pos e' -> excludes s t t' = true.
Proof.
  intros s t t' e e' C NC H1 H2 K1 K2 P N.
  destruct (entry_Locus s t e H1) as [_ Q1]. destruct (Q1 K1) as (i & m & q & kk & E1 & L1 & T1).
  destruct (entry_Locus s t' e' H2) as [_ Q2]. destruct (Q2 K2) as (j & n & q' & kk' & E2 & L2 & T2).
  unfold choice_pos, case_pos in P, N. rewrite E1, E2 in P, N. simpl in P, N. subst q'.
  assert (A1 := has_case s t e i m q kk H1 E1 L1). assert (A2 := has_case s t' e' j n q kk' H2 E2 L2).
  inversion L1 as [? ? N1 | ? k ? ? L3 T3 N1]; subst.
  { exfalso. destruct (cases_kid s kk C (nth_error_In _ _ N1)) as [_ X]. auto. }
  inversion L2 as [? ? N2 | ? k' ? ? L4 T4 N2]; subst; [inversion L3 |].
  assert (k' = k) by (eapply Locus_fun; eauto). subst k'.
  assert (Ck := Locus_cases s q k L3 C). destruct (cases_kid k kk Ck (nth_error_In _ _ N1)) as [_ X]. specialize (X T1).
  apply (excl_up s q k t t' L3). destruct k as [ki ks]. cbn [excl]. unfold sty in X. simpl in X. rewrite X.
  apply orb_true_iff. left. apply apart_iff. exists m, n, kk, kk'. repeat split; auto. congruence.
Qed.

(** ** Execution of a delta *)
Lemma one_case_inv : forall s x, one_case s x = true ->
  (forall c c', In c (xkids x) -> In c' (xkids x) -> excludes s (xtag c) (xtag c') = false) /\
  (forall c cs, In c (xkids x) -> schema_child s (xtag c) = Ok cs -> one_case cs c = true).
Proof.
  intros s [t tx a ks] H. cbn [one_case] in H. apply andb_true_iff in H. destruct H as [H1 H2]. cbn [xkids]. rewrite forallb_forall in *. split.
  - intros c c' Hc Hc'. specialize (H1 c Hc). rewrite forallb_forall in H1. apply negb_true_iff. auto.
  - intros c cs Hc Hs. specialize (H2 c Hc). rewrite (lookup_ok s _ cs Hs) in H2. auto.
Qed.

Theorem serve_ok : forall d, ServeOK d.
Proof.
  intro d. induction d as [t tx at_ ks IH] using xml_ind'. intros n s a b W C NC Va Vb O OO HD.
  set (d := Elem t tx at_ ks) in *. inversion HD as [n0 s0 ka kb kd la lb ld IA IB ID HE HO]; subst n0 s0 ka kb kd.
  destruct (one_case_inv s b O) as [O1 O2].
  assert (OC : forall v cb v' cb', In (v, cb) lb -> In (v', cb') lb -> excludes s (xtag cb) (xtag cb') = false).
  { intros v cb v' cb' H1 H2. apply O1; eapply Index_kid; eauto. }
  assert (REC : forall cd, In cd (xkids d) -> ServeOK cd) by (rewrite Forall_forall in IH; auto).
  destruct (loop_ok n s a b d la lb ld W C Va Vb OC O2 OO IA IB ID HE HO REC ld [] la eq_refl (inv_start s a la lb ld IA)) as (L & S1 & I1).
  exists L, lb. rewrite serve_eq. rewrite <- (proj1 IA), <- (proj1 ID). split; auto. split; auto. split; [apply (iv_id _ _ _ _ _ _ I1) |].
  apply (inv_end n s a b la lb ld); auto.
  intros ca (v & cb & ea & eb & S2 & S3 & S4 & S5 & S6 & S7 & S8 & S9). exists v, cb. split; auto. split; auto.
  apply (cases_exclude s (xtag cb) (xtag ca) eb ea); auto.
Qed.

(** ** When deletions are not refused *)
Lemma mk_del_remove : forall o cs c d, o_delete o = PDRemove -> mk_del o cs c = Ok d -> op_of d = OpRemove.
Proof.
  intros o cs c d O H. unfold mk_del in H. unfold del_op in H. rewrite O in H. rewrite andb_false_r in H.
  destruct (sty cs); try (inversion H; subst; reflexivity).
  apply bind_ok in H. destruct H as (ks & _ & H). inversion H; subst. reflexivity.
Qed.

Lemma flat_kid : forall s k, flat_choices s = true -> In k (skids s) -> flat_choices k = true.
Proof.
  intros [i ks] k H Hk. cbn [flat_choices] in H. rewrite !andb_true_iff in H. destruct H as [_ H]. rewrite forallb_forall in H. auto.
Qed.
Lemma flat_child : forall s t cs, flat_choices s = true -> schema_child s t = Ok cs -> flat_choices cs = true.
Proof.
  intros x t cs H Hs. apply schema_child_Defines in Hs. destruct Hs as (_ & k & Hin & HT).
  assert (C := flat_kid x k H Hin). clear Hin H. induction HT; auto; apply IHHT; eapply flat_kid; eauto.
Qed.
Lemma excl_data : forall t t' k, sty k <> TChoice -> sty k <> TCase -> excl t t' k = false.
Proof. intros t t' [i ks] N1 N2. unfold sty in *. simpl in *. destruct (s_type i); auto; contradiction. Qed.

Lemma entry_unique : forall s t e e', schema_entry s t = Ok e -> In e' (flat s) -> stag (ce_node e') = t -> e' = e.
Proof.
  intros s t e e' H H1 H2. unfold schema_entry in H.
  assert (G : In e' (filter (fun c => String.eqb (stag (ce_node c)) t) (flat s))) by (apply filter_In; split; auto; apply String.eqb_eq; auto).
  destruct (filter (fun c => String.eqb (stag (ce_node c)) t) (flat s)) as [| x [| y r]]; try discriminate.
  inversion H; subst. destruct G as [G | []]. auto.
Qed.

Lemma flat_excludes : forall s t t' e e', cases_ok s = true -> flat_choices s = true -> sty s <> TChoice ->
  schema_entry s t = Ok e -> schema_entry s t' = Ok e' -> excludes s t t' = true ->
  ce_case e = true /\ ce_case e' = true /\ choice_pos e = choice_pos e' /\ case_pos e <> case_pos e'.
Proof.
  intros s t t' e e' C F NC H1 H2 X. apply existsb_exists in X. destruct X as (k & Hk & X).
  assert (Fk := flat_kid s k F Hk). destruct (cases_kid s k C Hk) as [Ck NCk].
  destruct (sty k) eqn:Tk; try (rewrite excl_data in X by congruence; discriminate).
  2:{ exfalso. auto. }
  apply In_nth_error in Hk. destruct Hk as (p & Hk).
  destruct k as [ki ks]. cbn [excl] in X. unfold sty in Tk. simpl in Tk. rewrite Tk in X.
  cbn [flat_choices] in Fk. rewrite !andb_true_iff in Fk. destruct Fk as [[F1 _] F3].
  assert (IC : is_choice (SNode ki ks) = true) by (unfold is_choice, sty; simpl; rewrite Tk; auto). rewrite IC in F1. simpl in F1.
  rewrite forallb_forall in F1, F3.
  assert (CASE : forall c, In c ks -> sty c = TCase /\ forall x, In x (skids c) -> sty x <> TChoice /\ sty x <> TCase).
  { intros c Hc. assert (T := F1 c Hc). unfold is_case in T. assert (Tc : sty c = TCase) by (destruct (sty c); auto; discriminate). split; auto.
    intros x Hx. assert (Fc := F3 c Hc). assert (Cc := proj1 (cases_kid (SNode ki ks) c Ck Hc)). split.
    - intro Tx. destruct c as [ci cc]. cbn [flat_choices] in Fc. rewrite !andb_true_iff in Fc. destruct Fc as [[_ Fc] _].
      unfold is_case in Fc. rewrite T in Fc. simpl in Fc. rewrite forallb_forall in Fc. specialize (Fc x Hx). unfold is_choice in Fc. rewrite Tx in Fc. discriminate.
    - intro Tx. destruct (cases_kid c x Cc Hx) as [_ Y]. specialize (Y Tx). congruence. }
  assert (NE : existsb (excl t t') ks = false).
  { destruct (existsb (excl t t') ks) eqn:E; auto. apply existsb_exists in E. destruct E as (c & Hc & E). destruct (CASE c Hc) as [Tc Dc].
    destruct c as [ci cc]. cbn [excl] in E. unfold sty in Tc. simpl in Tc. rewrite Tc in E. apply existsb_exists in E. destruct E as (x & Hx & E).
    destruct (Dc x Hx) as [D1 D2]. rewrite (excl_data t t' x D1 D2) in E. discriminate. }
  rewrite NE, orb_false_r in X. apply apart_iff in X. destruct X as (m & n & c & c' & MN & N1 & N2 & A1 & A2).
  assert (ENT : forall tt m c, nth_error ks m = Some c -> has tt c = true ->
            exists i x, In (CEntry [i; m; p] true x) (flat s) /\ stag x = tt).
  { intros tt m0 c0 N A. destruct (CASE c0 (nth_error_In _ _ N)) as [Tc Dc]. unfold has in A. apply existsb_exists in A.
    destruct A as (x & Hx & E). apply String.eqb_eq in E. apply datas_Through in Hx.
    assert (Hc : In x (skids c0)).
    { inversion Hx as [? D1 D2 | ? y ? T1 Hy HT | ? y ? T1 Hy HT]; subst; try congruence.
      destruct (Dc y Hy) as [D1 D2]. inversion HT as [? | ? ? ? T2 | ? ? ? T2]; subst; auto; contradiction. }
    apply In_nth_error in Hc. destruct Hc as (i & Hc). exists i, x. split; auto.
    unfold flat. rewrite flat_list_go. apply flat_go_In. exists p, (SNode ki ks). split; auto. cbn [plus].
    rewrite flat_node_eq. assert (T1 : is_choice_or_case (sty (SNode ki ks)) = true) by (unfold sty; simpl; rewrite Tk; auto). rewrite T1.
    apply flat_go_In. exists m0, c0. split; auto. cbn [plus]. rewrite flat_node_eq. rewrite Tc. cbn [is_choice_or_case].
    apply flat_go_In. exists i, x. split; auto. cbn [plus]. rewrite flat_node_eq.
    destruct (Dc x (nth_error_In _ _ Hc)) as [D1 D2]. destruct (sty x); try contradiction; left; reflexivity. }
  destruct (ENT t m c N1 A1) as (i & x & E1 & E2). destruct (ENT t' n c' N2 A2) as (j & y & E3 & E4).
  apply (entry_unique s t e _ H1) in E1; auto. apply (entry_unique s t' e' _ H2) in E3; auto. subst e e'. simpl.
  unfold choice_pos, case_pos. simpl. repeat split; auto. intro Z. inversion Z. contradiction.
Qed.

Lemma flat_level : forall o s a b la lb, o_type o <> DReplace -> cases_ok s = true -> flat_choices s = true -> sty s <> TChoice ->
  validk s a -> validk s b -> one_case s a = true -> one_case s b = true -> Index s (xkids a) la -> Index s (xkids b) lb ->
  forall n, Lvl o n false s la lb.
Proof.
  intros o s a b la lb NT C F NC Va Vb Oa Ob IA IB n u ca cs d Hu Hn Hs AL Hd. right. intros v cb Hv.
  destruct AL as [AL | AL]; [discriminate |].
  destruct (excludes s (xtag cb) (xtag ca)) eqn:X; auto. exfalso.
  destruct (one_case_inv s a Oa) as [A1 _]. destruct (one_case_inv s b Ob) as [B1 _].
  assert (Kb := Index_kid s _ lb v cb IB Hv). assert (Ka := Index_kid s _ la u ca IA Hu).
  apply schema_child_entry in Hs. destruct Hs as (e & He & Ec).
  destruct Vb as [_ Vb]. destruct (Vb cb Kb) as (csb & Hb & _). apply schema_child_entry in Hb. destruct Hb as (eb & Heb & Ecb).
  destruct (flat_excludes s _ _ eb e C F NC Heb He X) as (X1 & X2 & X3 & X4).
  destruct AL as [(v' & cb' & H1 & H2) | AL].
  - assert (Y := B1 cb cb' Kb (Index_kid s _ lb v' cb' IB H1)). congruence.
  - destruct (AL e He X2) as [N | (eo & (v' & cb' & O1 & O2 & O3 & O4) & O5 & O6)].
    + assert (Vi : In v (uids la)).
      { destruct (mem uid_eqb v (uids la)) eqn:M; [apply (mem_In uid_eqb uid_eqb_ok); auto |]. apply (mem_not_In uid_eqb uid_eqb_ok) in M.
        exfalso. apply (N eb); auto. exists v, cb. auto. }
      apply in_map_iff in Vi. destruct Vi as ([v0 cv] & E & Vi). simpl in E. subst v0.
      assert (T : xtag cv = xtag cb) by (rewrite <- (Index_tag s _ la v cv IA Vi); apply (Index_tag s _ lb v cb IB Hv)).
      assert (Y := A1 cv ca (Index_kid s _ la v cv IA Vi) Ka). congruence.
    + assert (Y := B1 cb cb' Kb (Index_kid s _ lb v' cb' IB O1)).
      rewrite (cases_exclude s (xtag cb) (xtag cb') eb eo) in Y; auto; congruence.
Qed.

Theorem Lvls_switchable : forall a o n s b, wfs s = true -> cases_ok s = true -> sty s <> TChoice -> valid s a = true -> valid s b = true ->
  one_case s a = true -> one_case s b = true -> Switchable o s a b -> Lvls o n s (xkids a) (xkids b).
Proof.
  intro a. induction a as [t tx at_ ks IH] using xml_ind'. intros o n s b W C NC Va Vb Oa Ob SW.
  set (a := Elem t tx at_ ks) in *. change ks with (xkids a) in IH.
  destruct (valid_validk s a Va) as [(la & Ia) Ka]. destruct (valid_validk s b Vb) as [(lb & Ib) Kb].
  apply (lvls o n s _ _ la lb); auto; try (intros; exact I).
  - intros _. split; [| exact I]. destruct SW as [SW | [[S1 S2] | SW]].
    + intros u ca cs d _ _ _ _ Hd. left. eapply mk_del_remove; eauto.
    + apply (flat_level o s a b); auto; split; eauto.
    + intros u ca cs d Hu Hn Hs _ Hd. right. intros v cb Hv. apply (SW [] s a b (at_here s a) (at_here s b)).
      * eapply Index_kid; eauto.
      * eapply Index_kid; eauto.
  - intros [DR _]. split; [| intros; exact I]. destruct SW as [SW | [[S1 S2] | SW]]; [| contradiction |].
    + intros u ca cs d _ _ _ _ Hd. left. eapply mk_del_remove; eauto.
    + intros u ca cs d Hu Hn Hs _ Hd. right. intros v cb Hv. apply (SW [] s a b (at_here s a) (at_here s b)).
      * eapply Index_kid; eauto.
      * eapply Index_kid; eauto.
  - intros u ca cb cs H1 H2 Hs. rewrite Forall_forall in IH.
    assert (Ca := Index_kid s _ la u ca Ia H1). assert (Cb := Index_kid s _ lb u cb Ib H2).
    assert (Ua := Index_uid s _ la u ca Ia H1). assert (Ub := Index_uid s _ lb u cb Ib H2).
    destruct (Ka ca Ca) as (cs1 & E1 & V1). destruct (Kb cb Cb) as (cs2 & E2 & V2).
    assert (T : xtag cb = xtag ca).
    { rewrite <- (Index_tag s _ la u ca Ia H1). symmetry. apply (Index_tag s _ lb u cb Ib H2). }
    assert (cs1 = cs) by congruence. assert (cs2 = cs) by congruence. subst cs1 cs2.
    apply IH; auto.
    + eapply wfs_child; eauto.
    + eapply cases_child; eauto.
    + eapply child_data; eauto.
    + apply (proj2 (one_case_inv s a Oa)); auto.
    + apply (proj2 (one_case_inv s b Ob)); auto.
    + destruct SW as [SW | [[S1 S2] | SW]]; [left; auto | right; left; split; auto; eapply flat_child; eauto | right; right].
      apply (Everywhere_down _ s a b u ca cb cs SW); auto.
Qed.

Theorem served : forall o s a b, wfs s = true -> cases_ok s = true -> sty s = TRoot -> valid s a = true -> valid s b = true -> xtag a = xtag b ->
  orderable s a = true -> orderable s b = true -> one_case s a = true -> one_case s b = true -> RootKept o s a b -> Switchable o s a b ->
  exists d r, nc_sub o s b a = Ok d /\ serve s d (xkids a) = Some r /\ valid s (Elem (xtag b) None [] r) = true /\ Same s (Elem (xtag b) None [] r) b.
Proof.
  intros o s a b W C Rt Va Vb Et Oa Ob Ca Cb RK SW. assert (NC : sty s <> TChoice) by congruence.
  destruct (valid_inv s a Va) as (Aa & _ & Ka). destruct (valid_inv s b Vb) as (Ab & _ & Kb).
  assert (Tb : xtext b = None) by (apply (valid_text s b Vb); rewrite Rt; discriminate).
  destruct (nc_sub_late o s a b W (valid_validk s a Va) (valid_validk s b Vb) Ab Oa Ob RK (Lvls_switchable a o 0 s b W C NC Va Vb Ca Cb SW)) as (d & D1 & D2 & D3).
  destruct (serve_ok d 0 s a b W C NC (valid_validk s a Va) (valid_validk s b Vb) Cb Ob D3) as (lr & lb & R1 & R2 & R3 & R4).
  exists d, (map snd lr). split; auto. split; auto. set (r := Elem (xtag b) None [] (map snd lr)).
  assert (Ir : Index s (xkids r) lr) by (apply WellId_Index; auto). destruct R4 as [HKs HOs]. split.
  - apply (valid_root s r lr); auto. intros c Hc. destruct (Index_In s _ lr c Ir Hc) as (u & Hu). apply (Index_assoc s _ lr u c Ir) in Hu.
    specialize (HKs u). rewrite Hu in HKs. destruct (assoc uid_eqb u lb) as [cb |]; [| contradiction].
    destruct HKs as (cs & G1 & G2 & _). eauto.
  - apply (Same_intro s r b lr lb); auto. intro u. specialize (HKs u).
    destruct (assoc uid_eqb u lr) as [c |], (assoc uid_eqb u lb) as [c' |]; auto.
    destruct HKs as (cs & G1 & _ & _ & G2 & _). eauto.
Qed.
