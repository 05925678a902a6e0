(** Lemmas about CalcM.v: sibling identities, pairing, and the comparison. *)
From Coq Require Import String Ascii List Bool Arith ZArith Lia Permutation.
From Verif Require Import Base BaseP XmlM CalcM.
Import ListNotations.
Open Scope string_scope.
Open Scope list_scope.

(** ** Trees *)
Section XmlInd.
Variable P : xml -> Prop.
Hypothesis H : forall t tx a ks, Forall P ks -> P (Elem t tx a ks).
Fixpoint xml_ind' (x : xml) : P x :=
  match x with
  | Elem t tx a ks =>
      H t tx a ks ((fix go (l : list xml) : Forall P l :=
                      match l with
                      | [] => Forall_nil P
                      | c :: r => Forall_cons c (xml_ind' c) (go r)
                      end) ks)
  end.
End XmlInd.

Lemma height_kid : forall c x, In c (xkids x) -> height c < height x.
Proof.
  intros c [t tx a ks] H. simpl in *. apply le_n_S. induction ks as [| k r IH]; simpl in *; [tauto |].
  destruct H as [E | H].
  - subst. lia.
  - specialize (IH H). lia.
Qed.

(** ** Identities *)
Lemma ukey_eqb_ok : eqb_ok ukey_eqb.
Proof.
  intros [| a | a] [| b | b]; simpl; split; intro E; try discriminate; auto.
  - apply ostr_eqb_ok in E. congruence.
  - inversion E. apply ostr_eqb_ok. auto.
  - apply (list_eqb_ok ostr_eqb ostr_eqb_ok) in E. congruence.
  - inversion E. apply (list_eqb_ok ostr_eqb ostr_eqb_ok). auto.
Qed.

Lemma uid_eqb_ok : eqb_ok uid_eqb.
Proof.
  intros [t1 k1] [t2 k2]. unfold uid_eqb. simpl. rewrite andb_true_iff. split.
  - intros [H1 H2]. apply String.eqb_eq in H1. apply ukey_eqb_ok in H2. congruence.
  - intro E. inversion E. split; [apply String.eqb_refl | apply ukey_eqb_ok; auto].
Qed.

Lemma uid_eqb_refl : forall u, uid_eqb u u = true.
Proof. apply eqb_refl. apply uid_eqb_ok. Qed.

Lemma uid_dec : forall u v : uid, {u = v} + {u <> v}.
Proof. apply (eqb_dec uid_eqb uid_eqb_ok). Qed.

Lemma uid_tag : forall s x u, uid_of s x = Ok u -> fst u = xtag x.
Proof.
  intros s x u H. unfold uid_of in H. apply bind_ok in H. destruct H as (cs & _ & H).
  destruct (sty cs); try (inversion H; reflexivity).
  apply bind_ok in H. destruct H as (ks & _ & H). inversion H. reflexivity.
Qed.

Lemma uid_schema : forall s x u, uid_of s x = Ok u -> exists cs, schema_child s (xtag x) = Ok cs.
Proof.
  intros s x u H. unfold uid_of in H. apply bind_ok in H. destruct H as (cs & H & _). eauto.
Qed.

(** ** Indexing *)
Definition uids (l : list (uid * xml)) : list uid := map fst l.

Definition Index (s : snode) (l : list xml) (es : list (uid * xml)) : Prop :=
  map snd es = l /\ Forall (fun e => uid_of s (snd e) = Ok (fst e)) es /\ NoDup (uids es).

Lemma index_from_ok : forall s l seen es,
  index_from s seen l = Ok es <->
  map snd es = l /\ Forall (fun e => uid_of s (snd e) = Ok (fst e)) es /\ NoDup (uids es)
  /\ forall u, In u (uids es) -> ~ In u seen.
Proof.
  intros s l. induction l as [| c r IH]; intros seen es; simpl.
  - split.
    + intro H. inversion H; subst. simpl. repeat split; auto; constructor.
    + intros (H & _). destruct es; [reflexivity | discriminate].
  - split.
    + intro H. apply bind_ok in H. destruct H as (u & Hu & H).
      destruct (mem uid_eqb u seen) eqn:Hm; [discriminate |].
      apply bind_ok in H. destruct H as (es' & Hes & H). inversion H; subst.
      apply IH in Hes. destruct Hes as (H1 & H2 & H3 & H4). simpl.
      apply (mem_not_In uid_eqb uid_eqb_ok) in Hm.
      repeat split.
      * congruence.
      * constructor; auto.
      * constructor; auto. intro Hin. apply (H4 u); auto. left. auto.
      * intros v [E | Hv]; [congruence |]. intro Hs. apply (H4 v); auto. right. auto.
    + intros (H1 & H2 & H3 & H4). destruct es as [| [u c'] es]; [discriminate |].
      simpl in H1. inversion H1; subst. inversion H2 as [| ? ? Hu H2']; subst. simpl in Hu.
      rewrite Hu. simpl.
      assert (Hm : mem uid_eqb u seen = false).
      { apply (mem_not_In uid_eqb uid_eqb_ok). apply H4. left. auto. }
      rewrite Hm. simpl in H3. inversion H3 as [| ? ? Hn H3']; subst.
      assert (G : index_from s (u :: seen) (map snd es) = Ok es).
      { apply IH. repeat split; auto. intros v Hv [E | Hs].
        - subst. contradiction.
        - apply (H4 v); auto. right. auto. }
      rewrite G. reflexivity.
Qed.

Lemma index_ok : forall s l es, index_kids s l = Ok es <-> Index s l es.
Proof.
  intros s l es. unfold index_kids, Index. rewrite index_from_ok. split.
  - intros (H1 & H2 & H3 & _). auto.
  - intros (H1 & H2 & H3). repeat split; auto.
Qed.

Lemma Index_uid : forall s l es u c, Index s l es -> In (u, c) es -> uid_of s c = Ok u.
Proof.
  intros s l es u c (_ & H & _) Hin. rewrite Forall_forall in H. apply (H (u, c) Hin).
Qed.

Lemma Index_In : forall s l es c, Index s l es -> In c l -> exists u, In (u, c) es.
Proof.
  intros s l es c (H & _) Hin. subst. apply in_map_iff in Hin. destruct Hin as ([u c'] & E & Hin).
  simpl in E. subst. eauto.
Qed.

Lemma Index_kid : forall s l es u c, Index s l es -> In (u, c) es -> In c l.
Proof. intros s l es u c (H & _) Hin. subst. apply (in_map snd) in Hin. exact Hin. Qed.

Lemma Index_assoc : forall s l es u c, Index s l es -> (assoc uid_eqb u es = Some c <-> In (u, c) es).
Proof.
  intros s l es u c (_ & _ & H). split.
  - apply assoc_In. apply uid_eqb_ok.
  - apply assoc_NoDup; auto. apply uid_eqb_ok.
Qed.

Lemma Index_fun : forall s l e1 e2, Index s l e1 -> Index s l e2 -> e1 = e2.
Proof. intros s l e1 e2 H1 H2. apply index_ok in H1. apply index_ok in H2. congruence. Qed.

Lemma Index_nil : forall s, Index s [] [].
Proof. intro s. repeat split; constructor. Qed.

Lemma Index_nil_inv : forall s es, Index s [] es -> es = [].
Proof. intros s es (H & _). destruct es; [auto | discriminate]. Qed.

Lemma Index_tag : forall s l es u c, Index s l es -> In (u, c) es -> fst u = xtag c.
Proof. intros s l es u c H Hin. eapply uid_tag. eapply Index_uid; eauto. Qed.

Lemma Index_unique : forall s l es u c c', Index s l es -> In (u, c) es -> In (u, c') es -> c = c'.
Proof.
  intros s l es u c c' H H1 H2. apply (Index_assoc s l es u c H) in H1.
  apply (Index_assoc s l es u c' H) in H2. congruence.
Qed.

(** ** Grouping *)
Lemma filter_not_in_assoc : forall (la lb : list (uid * xml)),
  filter (fun u => negb (mem uid_eqb u (uids la))) (uids lb) =
  uids (filter (fun e => negb (mem uid_eqb (fst e) (uids la))) lb).
Proof. intros. unfold uids. rewrite filter_map. reflexivity. Qed.

Definition only_in (la lb : list (uid * xml)) : list (uid * xml) :=
  filter (fun e => negb (mem uid_eqb (fst e) (uids lb))) la.
Definition both_in (la lb : list (uid * xml)) : list (uid * xml * xml) :=
  flat_map (fun e => match assoc uid_eqb (fst e) lb with
                     | Some b => [(fst e, snd e, b)]
                     | None => []
                     end) la.

Lemma only_in_In : forall la lb u c,
  In (u, c) (only_in la lb) <-> In (u, c) la /\ ~ In u (uids lb).
Proof.
  intros la lb u c. unfold only_in. rewrite filter_In. simpl.
  rewrite negb_true_iff. rewrite (mem_not_In uid_eqb uid_eqb_ok). tauto.
Qed.

Lemma both_in_In : forall la lb u a b,
  In (u, a, b) (both_in la lb) <-> In (u, a) la /\ assoc uid_eqb u lb = Some b.
Proof.
  intros la lb u a b. unfold both_in. rewrite in_flat_map. split.
  - intros ([v c] & Hin & H). simpl in H. destruct (assoc uid_eqb v lb) as [b' |] eqn:E; simpl in H; [| tauto].
    destruct H as [H | []]. inversion H; subst. auto.
  - intros (Hin & H). exists (u, a). split; auto. simpl. rewrite H. left. auto.
Qed.

Lemma group_ok : forall s l1 l2 la lb,
  Index s l1 la -> Index s l2 lb ->
  group_kids s l1 l2 = Ok (Groups (only_in la lb) (only_in lb la) (both_in la lb)).
Proof.
  intros s l1 l2 la lb HA HB. unfold group_kids, pair_children.
  rewrite (proj2 (index_ok s l1 la) HA), (proj2 (index_ok s l2 lb) HB). simpl. f_equal.
  change (map fst la) with (uids la). change (map fst lb) with (uids lb).
  rewrite filter_not_in_assoc. fold (only_in lb la).
  rewrite map_app, fold_right_app.
  set (F := fun p g => match p with
        | (u, None, Some b) => Groups (in_1_not_2 g) ((u, b) :: in_2_not_1 g) (in_1_and_2 g)
        | (u, Some a, None) => Groups ((u, a) :: in_1_not_2 g) (in_2_not_1 g) (in_1_and_2 g)
        | (u, Some a, Some b) => Groups (in_1_not_2 g) (in_2_not_1 g) ((u, a, b) :: in_1_and_2 g)
        | (_, None, None) => g
        end).
  assert (G2 : forall l, (forall e, In e l -> In e lb /\ ~ In (fst e) (uids la)) ->
            fold_right F (Groups [] [] [])
              (map (fun u => (u, assoc uid_eqb u la, assoc uid_eqb u lb)) (uids l))
            = Groups [] l []).
  { induction l as [| [u c] r IH]; intro Hl; simpl; auto.
    rewrite IH by (intros e He; apply Hl; right; auto).
    destruct (Hl (u, c) (or_introl eq_refl)) as [Hin Hn]. simpl in Hn.
    apply (assoc_None uid_eqb uid_eqb_ok) in Hn. rewrite Hn.
    apply (Index_assoc s l2 lb u c HB) in Hin. rewrite Hin. reflexivity. }
  rewrite G2.
  2:{ intros [u c] He. apply only_in_In in He. exact He. }
  assert (G1 : forall l, (forall e, In e l -> In e la) ->
            fold_right F (Groups [] (only_in lb la) [])
              (map (fun u => (u, assoc uid_eqb u la, assoc uid_eqb u lb)) (uids l))
            = Groups (only_in l lb) (only_in lb la) (both_in l lb)).
  { induction l as [| [u c] r IH]; intro Hl; simpl; auto.
    rewrite IH by (intros e He; apply Hl; right; auto).
    assert (Hin : In (u, c) la) by (apply Hl; left; auto).
    apply (Index_assoc s l1 la u c HA) in Hin. rewrite Hin.
    unfold only_in at 3. simpl. fold (only_in r lb).
    destruct (assoc uid_eqb u lb) as [b |] eqn:E; simpl.
    - assert (Hm : mem uid_eqb u (uids lb) = true).
      { apply (mem_In uid_eqb uid_eqb_ok). apply (assoc_Some_In uid_eqb uid_eqb_ok). eauto. }
      rewrite Hm. reflexivity.
    - assert (Hm : mem uid_eqb u (uids lb) = false).
      { apply (mem_not_In uid_eqb uid_eqb_ok). apply (assoc_None uid_eqb uid_eqb_ok). auto. }
      rewrite Hm. reflexivity. }
  apply G1. auto.
Qed.

Lemma group_inv : forall s l1 l2 g, group_kids s l1 l2 = Ok g ->
  exists la lb, Index s l1 la /\ Index s l2 lb /\
    g = Groups (only_in la lb) (only_in lb la) (both_in la lb).
Proof.
  intros s l1 l2 g H. assert (H0 := H). unfold group_kids, pair_children in H0.
  apply bind_ok in H0. destruct H0 as (ps & H0 & _).
  apply bind_ok in H0. destruct H0 as (la & HA & H0).
  apply bind_ok in H0. destruct H0 as (lb & HB & _).
  apply index_ok in HA. apply index_ok in HB.
  exists la, lb. split; [| split]; auto. rewrite (group_ok s l1 l2 la lb HA HB) in H. congruence.
Qed.

(** ** Comparison *)
Definition seqt (t : string) (l : list (uid * xml)) : list uid :=
  filter (fun u => String.eqb (fst u) t) (uids l).

Definition le_kids (s : snode) (twos : list (uid * xml)) :=
  fix go (done : list uid) (l : list xml) {struct l} : res bool :=
     match l with
     | [] => Ok true
     | c :: r =>
         let! u := uid_of s c in
         match assoc uid_eqb u twos with
         | None => Ok false
         | Some c' =>
             let! cs := schema_child s (xtag c) in
             let ordered :=
               if is_user_seq cs then
                 match find (fun v => String.eqb (fst v) (xtag c)) done with
                 | None => true
                 | Some elder => mem uid_eqb elder (before_uid (xtag c) u (map fst twos))
                 end
               else true in
             if negb ordered then Ok false else
             let! b := node_le cs c c' in
             if b then go (u :: done) r else Ok false
         end
     end.

Lemma node_le_eq : forall s x y, node_le s x y =
  if negb (String.eqb (xtag x) (xtag y)) then Ok false else
  let! st := same_text s x y in
  if negb st then Ok false else
  if negb (attrs_sub (xattrs x) (xattrs y)) then Ok false else
  let! ones := index_kids s (xkids x) in
  let! twos := index_kids s (xkids y) in
  le_kids s twos [] (xkids x).
Proof. intros s [t tx a ks] y. reflexivity. Qed.

Lemma before_uid_spec : forall t u L e,
  NoDup L -> In u L -> fst u = t ->
  (In e (before_uid t u L) <-> before e u (filter (fun v => String.eqb (fst v) t) L)).
Proof.
  intros t u L e ND. induction L as [| v r IH]; intros Hin Ht; [destruct Hin |].
  inversion ND as [| ? ? Hn ND']; subst. simpl.
  destruct (uid_eqb v u) eqn:E.
  - apply uid_eqb_ok in E. subst. rewrite String.eqb_refl. split; [intros [] |].
    intro H. apply before_cons in H. destruct H as [[_ H] | H].
    + apply filter_In in H. tauto.
    + apply before_In in H. destruct H as [_ H]. apply filter_In in H. tauto.
  - apply (eqb_neq uid_eqb uid_eqb_ok) in E. destruct Hin as [Hin | Hin]; [contradiction |].
    destruct (String.eqb (fst v) (fst u)) eqn:F; simpl.
    + rewrite before_cons. rewrite IH by auto. split.
      * intros [H | H]; auto. left. split; auto. apply filter_In. split; auto. apply String.eqb_refl.
      * intros [[H _] | H]; auto.
    + apply IH; auto.
Qed.

Definition olist {A} (o : option A) : list A := match o with Some a => [a] | None => [] end.

Definition Peer (s : snode) (ly : list (uid * xml)) (e : uid * xml) : Prop :=
  exists c' cs, assoc uid_eqb (fst e) ly = Some c' /\ schema_child s (xtag (snd e)) = Ok cs
                /\ node_le cs (snd e) c' = Ok true.

Lemma le_kids_ok : forall s ly, NoDup (uids ly) -> forall rest done,
  Forall (fun e => uid_of s (snd e) = Ok (fst e)) rest ->
  (le_kids s ly done (map snd rest) = Ok true <->
   Forall (Peer s ly) rest /\
   forall t cs, schema_child s t = Ok cs -> is_user_seq cs = true ->
     consec (fun a b => before a b (seqt t ly))
            (olist (find (fun v => String.eqb (fst v) t) done) ++ seqt t rest)).
Proof.
  intros s ly ND rest. induction rest as [| [u c] r IH]; intros done HF.
  - simpl. split; auto. intros _. split; auto. intros t cs _ _. unfold seqt. simpl.
    destruct (find (fun v => String.eqb (fst v) t) done); simpl; auto.
  - inversion HF as [| ? ? Hu HF']; subst. simpl in Hu.
    assert (Ht := uid_tag s c u Hu).
    simpl map. simpl le_kids. rewrite Hu. simpl bind.
    destruct (assoc uid_eqb u ly) as [c' |] eqn:Ea.
    2:{ split; [discriminate |]. intros [H _]. inversion H as [| ? ? (c' & cs & H1 & _) _]; subst.
        simpl in H1. congruence. }
    destruct (schema_child s (xtag c)) as [cs | e] eqn:Es; simpl bind.
    2:{ split; [discriminate |]. intros [H _]. inversion H as [| ? ? (c2 & cs & _ & H1 & _) _]; subst.
        simpl in H1. congruence. }
    assert (Hin : In u (uids ly)) by (apply (assoc_Some_In uid_eqb uid_eqb_ok); eauto).
    set (ordered := if is_user_seq cs then _ else true).
    assert (Hord : ordered = true <->
              (is_user_seq cs = true ->
               consec (fun a b => before a b (seqt (xtag c) ly))
                 (olist (find (fun v => String.eqb (fst v) (xtag c)) done) ++ [u]))).
    { unfold ordered. destruct (is_user_seq cs); [| split; auto; discriminate].
      destruct (find (fun v => String.eqb (fst v) (xtag c)) done) as [el |] eqn:Ef; simpl.
      - change (map fst ly) with (uids ly).
        rewrite (mem_In uid_eqb uid_eqb_ok). rewrite (before_uid_spec (xtag c) u (uids ly) el ND Hin Ht).
        unfold seqt. intuition.
      - intuition. }
    assert (Hseq : forall t, seqt t ((u, c) :: r) = if String.eqb (xtag c) t then u :: seqt t r else seqt t r).
    { intro t. unfold seqt. simpl. rewrite Ht. reflexivity. }
    destruct ordered; simpl negb; cbv iota.
    + destruct (node_le cs c c') as [b | e] eqn:El; simpl bind.
      2:{ split; [discriminate |]. intros [H _]. inversion H as [| ? ? (c2 & cs2 & H1 & H2 & H3) _]; subst.
          simpl in *. congruence. }
      destruct b.
      2:{ split; [discriminate |]. intros [H _]. inversion H as [| ? ? (c2 & cs2 & H1 & H2 & H3) _]; subst.
          simpl in *. congruence. }
      fold (le_kids s ly). rewrite (IH (u :: done) HF').
      assert (Hp : Peer s ly (u, c)) by (exists c', cs; auto).
      split.
      * intros [H1 H2]. split; [constructor; auto |].
        intros t cs' Hs Hus. specialize (H2 t cs' Hs Hus). simpl in H2.
        rewrite Hseq. rewrite Ht in H2. destruct (String.eqb (xtag c) t) eqn:Et.
        -- apply String.eqb_eq in Et. subst t. rewrite Es in Hs. inversion Hs; subst cs'.
           assert (Ho := proj1 Hord eq_refl Hus).
           destruct (find (fun v => String.eqb (fst v) (xtag c)) done) as [el |]; simpl in *.
           ++ split; [apply Ho |]. exact H2.
           ++ exact H2.
        -- exact H2.
      * intros [H1 H2]. inversion H1; subst. split; auto.
        intros t cs' Hs Hus. specialize (H2 t cs' Hs Hus). rewrite Hseq in H2.
        simpl. rewrite Ht. destruct (String.eqb (xtag c) t) eqn:Et.
        -- destruct (find (fun v => String.eqb (fst v) t) done) as [el |]; simpl in *.
           ++ destruct H2 as [_ H2]. exact H2.
           ++ exact H2.
        -- exact H2.
    + split; [discriminate |]. intros [H1 H2]. assert (X : false = true); [| discriminate].
      apply Hord. intro Hus. specialize (H2 (xtag c) cs Es Hus). rewrite Hseq in H2.
      rewrite String.eqb_refl in H2.
      destruct (find (fun v => String.eqb (fst v) (xtag c)) done) as [el |]; simpl in *; intuition.
Qed.

(** [node_le] unfolded once, in declarative form. *)
Definition LeSpec (s : snode) (x y : xml) (lx ly : list (uid * xml)) : Prop :=
  xtag x = xtag y /\ same_text s x y = Ok true /\ attrs_sub (xattrs x) (xattrs y) = true /\
  Index s (xkids x) lx /\ Index s (xkids y) ly /\
  (forall u c, In (u, c) lx -> Peer s ly (u, c)) /\
  (forall t cs, schema_child s t = Ok cs -> is_user_seq cs = true -> subl (seqt t lx) (seqt t ly)).

Lemma seqt_NoDup : forall t l, NoDup (uids l) -> NoDup (seqt t l).
Proof. intros. apply NoDup_filter. auto. Qed.

Lemma seqt_In : forall t l u, In u (seqt t l) <-> In u (uids l) /\ fst u = t.
Proof. intros t l u. unfold seqt. rewrite filter_In. rewrite String.eqb_eq. tauto. Qed.

Theorem node_le_spec : forall s x y,
  node_le s x y = Ok true <-> exists lx ly, LeSpec s x y lx ly.
Proof.
  intros s x y. rewrite node_le_eq. split.
  - intro H. destruct (String.eqb (xtag x) (xtag y)) eqn:Et; simpl in H; [| discriminate].
    apply bind_ok in H. destruct H as (st & Hst & H). destruct st; simpl in H; [| discriminate].
    destruct (attrs_sub (xattrs x) (xattrs y)) eqn:Ea; simpl in H; [| discriminate].
    apply bind_ok in H. destruct H as (lx & Hx & H).
    apply bind_ok in H. destruct H as (ly & Hy & H).
    apply index_ok in Hx. apply index_ok in Hy.
    assert (Ex : xkids x = map snd lx) by (destruct Hx; congruence). rewrite Ex in H.
    apply le_kids_ok in H; [| apply Hy | apply Hx].
    destruct H as [H1 H2]. exists lx, ly.
    split; [apply String.eqb_eq; auto |]. split; auto. split; auto. split; auto. split; auto.
    rewrite Forall_forall in H1. split; auto.
    intros t cs Hs Hus. specialize (H2 t cs Hs Hus). simpl in H2.
    apply consec_subl; auto.
    + apply seqt_NoDup. apply Hy.
    + intros u Hu. apply seqt_In in Hu. destruct Hu as [Hu Htu].
      unfold uids in Hu. apply in_map_iff in Hu. destruct Hu as ([v c] & E & Hin). simpl in E. subst v.
      destruct (H1 (u, c) Hin) as (c' & cs' & Hc' & _). apply seqt_In. split; auto.
      apply (assoc_Some_In uid_eqb uid_eqb_ok). eauto.
  - intros (lx & ly & Ht & Hst & Ha & Hx & Hy & Hp & Ho).
    rewrite Ht, String.eqb_refl. simpl. rewrite Hst. simpl. rewrite Ha. simpl.
    rewrite (proj2 (index_ok _ _ _) Hx), (proj2 (index_ok _ _ _) Hy). simpl.
    assert (Ex : xkids x = map snd lx) by (destruct Hx; congruence). rewrite Ex.
    apply le_kids_ok; [apply Hy | apply Hx |]. split.
    + apply Forall_forall. intros [u c] Hin. auto.
    + intros t cs Hs Hus. simpl. apply subl_consec. eauto.
Qed.
