(** The insert, value and key attributes of alike sequences. *)
From Coq Require Import String Ascii List Bool Arith ZArith Lia Permutation.
From Verif Require Import Base BaseP XmlM CalcM CalcP NetconfM DataSpec DataP ListP NameP PlainP AddP AlikeSpec AlikeP AlikeAddP AlikeStepP AlikeSumP AlikeDataP AlikeMarkP AlikeOpsP.
Import ListNotations.
Open Scope string_scope.
Open Scope list_scope.

(** ** One sequence at a time *)
Lemma xtag_set : forall n v x, xtag (set_attr n v x) = xtag x.
Proof. intros n v [t tx a k]. auto. Qed.

Definition sattr (kind : option (list string)) (prev : option xml) (x : xml) : res xml :=
  match prev with
  | None => Ok (set_attr insert_tag "first" x)
  | Some p =>
      match kind with
      | None => match xtext p with None => Err TypeError | Some v => Ok (set_attr value_tag v (set_attr insert_tag "after" x)) end
      | Some keys => let! ps := pred_string keys p in Ok (set_attr key_tag ps (set_attr insert_tag "after" x))
      end
  end.

Lemma sattr_tag : forall kind prev x y, sattr kind prev x = Ok y -> xtag y = xtag x.
Proof.
  intros kind prev x y H. destruct prev as [p |]; simpl in H.
  - destruct kind as [keys |].
    + apply bind_ok in H. destruct H as (ps & _ & H). injection H as H. subst. rewrite !xtag_set. auto.
    + destruct (xtext p); [| discriminate]. injection H as H. subst. rewrite !xtag_set. auto.
  - injection H as H. subst. apply xtag_set.
Qed.

Lemma seq_cons : forall t kind prev w r, seq_attrs t kind prev (w :: r) =
  if w_orig w && w_tag t w then
    let! x' := sattr kind prev (w_xml w) in let! r' := seq_attrs t kind (Some (w_xml w)) r in Ok (W (w_orig w) (w_uid w) x' :: r')
  else let! r' := seq_attrs t kind prev r in Ok (w :: r').
Proof. reflexivity. Qed.

Lemma seq_local : forall t kind l prev, seq_attrs t kind prev (filter (w_tag t) l) =
  let! r := seq_attrs t kind prev l in Ok (filter (w_tag t) r).
Proof.
  intros t kind. induction l as [| w r IH]; intro prev; [reflexivity |]. simpl filter. rewrite (seq_cons t kind prev w r).
  destruct (w_tag t w) eqn:T.
  - rewrite seq_cons. rewrite T. rewrite andb_true_r. destruct (w_orig w) eqn:O.
    + destruct (sattr kind prev (w_xml w)) as [x |] eqn:X; cbn [bind]; auto. rewrite IH.
      destruct (seq_attrs t kind (Some (w_xml w)) r) as [q |]; cbn [bind]; auto. simpl.
      assert (Y : w_tag t (W true (w_uid w) x) = true). { unfold w_tag in *. simpl. rewrite (sattr_tag _ _ _ _ X). auto. }
      rewrite Y. auto.
    + rewrite IH. destruct (seq_attrs t kind prev r) as [q |]; cbn [bind]; auto. simpl. rewrite T. auto.
  - rewrite andb_false_r. rewrite IH. destruct (seq_attrs t kind prev r) as [q |]; cbn [bind]; auto. simpl. rewrite T. auto.
Qed.

Lemma seq_other : forall t kind t' l prev r, t <> t' -> seq_attrs t kind prev l = Ok r -> filter (w_tag t') r = filter (w_tag t') l.
Proof.
  intros t kind t' l prev r N. revert prev r. induction l as [| w q IH]; intros prev r H.
  - injection H as H. subst. auto.
  - rewrite seq_cons in H. destruct (w_orig w && w_tag t w) eqn:B.
    + apply bind_ok in H. destruct H as (x & X & H). apply bind_ok in H. destruct H as (q' & Q & H). injection H as H. subst r. simpl.
      apply andb_true_iff in B. destruct B as (_ & B). unfold w_tag in *. simpl. rewrite (sattr_tag _ _ _ _ X). apply string_eqb_ok in B. rewrite B.
      assert (E : String.eqb t t' = false) by (apply String.eqb_neq; auto). rewrite E. eapply IH; eauto.
    + apply bind_ok in H. destruct H as (q' & Q & H). injection H as H. subst r. simpl. rewrite (IH _ _ Q). auto.
Qed.

Lemma all_local : forall m l, NoDup (map fst m) ->
  match all_seq_attrs m l with
  | Ok r => forall t, match assoc String.eqb t m with
                      | Some k => seq_attrs t k None (filter (w_tag t) l) = Ok (filter (w_tag t) r)
                      | None => filter (w_tag t) r = filter (w_tag t) l
                      end
  | Err _ => exists t k e, assoc String.eqb t m = Some k /\ seq_attrs t k None (filter (w_tag t) l) = Err e
  end.
Proof.
  induction m as [| [t0 k0] m IH]; intros l N; [simpl; auto |]. unfold all_seq_attrs in *. cbn [foldM fst snd].
  inversion N as [| ? ? N1 N2]; subst. assert (L := seq_local t0 k0 l None). destruct (seq_attrs t0 k0 None l) as [l1 |] eqn:E; cbn [bind] in *.
  - specialize (IH l1 N2). assert (NA : assoc String.eqb t0 m = None) by (apply (assoc_None String.eqb string_eqb_ok); auto).
    assert (OT : forall t, t <> t0 -> filter (w_tag t) l1 = filter (w_tag t) l) by (intros t D; eapply seq_other; eauto).
    destruct (foldM (fun l p => seq_attrs (fst p) (snd p) None l) l1 m) as [r |].
    + intro t. cbn [assoc]. destruct (String.eqb t t0) eqn:T.
      * apply string_eqb_ok in T. subst t0. specialize (IH t). rewrite NA in IH. rewrite IH. auto.
      * apply String.eqb_neq in T. rewrite <- (OT t T). apply (IH t).
    + destruct IH as (t & k & e1 & H1 & H2). exists t, k, e1. cbn [assoc]. destruct (String.eqb t t0) eqn:T.
      * apply string_eqb_ok in T. subst t0. congruence.
      * apply String.eqb_neq in T. rewrite <- (OT t T). auto.
  - exists t0, k0, e. cbn [assoc]. rewrite String.eqb_refl. auto.
Qed.

(** ** In step *)
Definition WR (s : snode) (w w' : went) : Prop :=
  w_orig w = w_orig w' /\ w_uid w = w_uid w' /\ AK s (xtag (w_xml w)) (w_xml w) (w_xml w').

Lemma AK_set : forall s x y n v, AK s (xtag x) x y -> AK s (xtag (set_attr n v x)) (set_attr n v x) (set_attr n v y).
Proof.
  intros s x y n v [E | (cs & D & A)]; [left; congruence |]. right. exists cs. rewrite xtag_set. split; auto.
  exact (alike_set cs x y n v A).
Qed.

Lemma pred_alike : forall cs x y keys, Alike cs x y -> (forall k, In k keys -> exists c, kids_tagged k (xkids x) = [c]) ->
  pred_string keys x = pred_string keys y.
Proof.
  intros cs x y keys A. induction keys as [| k r IH]; intro H; simpl; auto.
  destruct (alike_find cs x y k A (H k (or_introl eq_refl))) as (u & v & E1 & E2 & R). rewrite E1, E2. apply AK_parts in R. destruct R as (_ & R & _). rewrite R.
  rewrite IH; auto. intros; apply H; right; auto.
Qed.

Lemma named_keys : forall s cs x, schema_child s (xtag x) = Ok cs -> sty cs = TList -> Named s x ->
  forall k, In k (s_keys (si cs)) -> exists c, kids_tagged k (xkids x) = [c].
Proof.
  intros s cs x Hs T (u & U) k Hk. apply (uid_list s x cs Hs T) in U. destruct U as (ts & K & _). apply key_tuple_Forall2 in K.
  clear -K Hk. induction K as [| k0 t l ts (c & C & _) K IH]; [destruct Hk |]. destruct Hk as [E | Hk]; [subst; eauto | auto].
Qed.

Lemma sattr_lock : forall s t cs prev prev' x x', schema_child s t = Ok cs -> is_user_seq cs = true ->
  match prev, prev' with
  | None, None => True
  | Some p, Some p' => xtag p = t /\ Named s p /\ AK s t p p'
  | _, _ => False
  end -> AK s (xtag x) x x' -> Alikewise (fun z z' => xtag z = xtag x /\ AK s (xtag z) z z') (sattr (okind cs) prev x) (sattr (okind cs) prev' x').
Proof.
  intros s t cs prev prev' x x' Hs Us P R. destruct prev as [p |], prev' as [p' |]; try contradiction; unfold sattr.
  - destruct P as (P1 & P2 & P3). unfold okind. destruct (sty cs) eqn:T; try (apply AK_parts in P3; destruct P3 as (_ & P3 & _); rewrite P3; destruct (xtext p');
      simpl; auto; split; [rewrite !xtag_set; auto | apply AK_set, AK_set; auto]).
    assert (A : Alike cs p p') by (eapply AK_child; eauto). rewrite (pred_alike cs p p' (s_keys (si cs)) A).
    + destruct (pred_string (s_keys (si cs)) p'); simpl; auto. split; [rewrite !xtag_set; auto | apply AK_set, AK_set; auto].
    + subst t. apply (named_keys s cs p Hs T P2).
  - simpl. split; [apply xtag_set | apply AK_set; auto].
Qed.

Lemma seq_lock : forall s t cs, schema_child s t = Ok cs -> is_user_seq cs = true -> forall l l', Forall2 (WR s) l l' -> (forall w, In w l -> Named s (w_xml w)) ->
  forall prev prev', match prev, prev' with
  | None, None => True
  | Some p, Some p' => xtag p = t /\ Named s p /\ AK s t p p'
  | _, _ => False
  end -> Alikewise (Forall2 (WR s)) (seq_attrs t (okind cs) prev l) (seq_attrs t (okind cs) prev' l').
Proof.
  intros s t cs Hs Us l l' F. induction F as [| w w' r r' (R1 & R2 & R3) F IH]; intros HN prev prev' P; [constructor |]. rewrite !seq_cons.
  assert (T : w_tag t w' = w_tag t w). { unfold w_tag. apply AK_parts in R3. destruct R3 as (R3 & _). rewrite R3. auto. }
  rewrite T, <- R1. destruct (w_orig w && w_tag t w) eqn:B.
  - eapply aw_bind; [apply (sattr_lock s t cs prev prev' (w_xml w) (w_xml w')); auto |]. intros z z' (Z1 & Z2). eapply aw_bind.
    + apply (IH (fun w0 H => HN w0 (or_intror H)) (Some (w_xml w)) (Some (w_xml w'))). apply andb_true_iff in B. destruct B as (_ & B). unfold w_tag in B. apply string_eqb_ok in B.
      split; auto. split; [apply HN; left; auto |]. rewrite B in R3. auto.
    + intros q q' Q. simpl. constructor; auto. split; auto.
  - eapply aw_bind; [apply (IH (fun w0 H => HN w0 (or_intror H)) prev prev'); auto |]. intros q q' Q. simpl. constructor; auto. split; auto.
Qed.

(** ** All sequences *)
Definition WL (s : snode) (l l' : list went) : Prop := forall t, Matched (UserTag s t) (WR s) (filter (w_tag t) l) (filter (w_tag t) l').

Theorem all_seq_alike : forall s ts ts' l l', (forall t, In t ts <-> In t ts') -> WL s l l' -> (forall w, In w l -> Named s (w_xml w)) ->
  Alikewise (WL s) (all_seq_attrs (fold_left (obt s) ts []) l) (all_seq_attrs (fold_left (obt s) ts' []) l').
Proof.
  intros s ts ts' l l' HT L HN. set (m := fold_left (obt s) ts []). set (m' := fold_left (obt s) ts' []).
  assert (EM : forall t, assoc String.eqb t m' = assoc String.eqb t m).
  { intro t. unfold m, m'. rewrite !obt_assoc. destruct (schema_child s t) as [cs |]; auto.
    assert (E : mem String.eqb t ts' = mem String.eqb t ts).
    { apply eq_true_iff_eq. rewrite !(mem_In String.eqb string_eqb_ok). symmetry. apply HT. }
    rewrite E. auto. }
  assert (LK : forall t k, assoc String.eqb t m = Some k ->
    Alikewise (Forall2 (WR s)) (seq_attrs t k None (filter (w_tag t) l)) (seq_attrs t k None (filter (w_tag t) l'))).
  { intros t k A. unfold m in A. rewrite obt_assoc in A. destruct (schema_child s t) as [cs |] eqn:Hs; [| discriminate].
    destruct (is_user_seq cs) eqn:Us; [| discriminate]. destruct (mem String.eqb t ts); [| discriminate]. injection A as A. subst k.
    apply (seq_lock s t cs); auto.
    - apply L. exists cs. split; [apply schema_child_Defines; auto |]. apply is_user_seq_iff in Us. tauto.
    - intros w Hw. apply filter_In in Hw. apply HN. tauto. }
  assert (A := all_local m l (obt_NoDup s ts [] (NoDup_nil _))). assert (A' := all_local m' l' (obt_NoDup s ts' [] (NoDup_nil _))).
  destruct (all_seq_attrs m l) as [r |], (all_seq_attrs m' l') as [r' |]; simpl; auto.
  - intro t. specialize (A t). specialize (A' t). rewrite EM in A'. destruct (assoc String.eqb t m) as [k |] eqn:E.
    + specialize (LK t k E). rewrite A, A' in LK. apply Matched_ordered. exact LK.
    + rewrite A, A'. apply L.
  - destruct A' as (t & k & e0 & A1 & A2). rewrite EM in A1. specialize (A t). rewrite A1 in A. specialize (LK t k A1). rewrite A, A2 in LK. exact LK.
  - destruct A as (t & k & e0 & A1 & A2). specialize (A' t). rewrite EM, A1 in A'. specialize (LK t k A1). rewrite A', A2 in LK. exact LK.
Qed.

Lemma tow_WL : forall s U U' l l', (forall u, mem uid_eqb u U = mem uid_eqb u U') -> LR s l l' -> WL s (tow U l) (tow U' l').
Proof.
  intros s U U' l l' H L t. assert (E : forall V k, filter (w_tag t) (tow V k) = tow V (flt t k)) by (intros V k; unfold tow, flt; rewrite filter_map; reflexivity).
  rewrite !E. unfold tow. apply Matched_map. apply (Matched_impl _ _ _ _ _ _ (L t)); auto. intros e e' _ _ (R1 & R2). split; [| split]; simpl; auto. rewrite <- R1. apply H.
Qed.

Lemma WL_AKids : forall s l l', WL s l l' -> AKids s (map w_xml l) (map w_xml l').
Proof.
  intros s l l' L t. assert (E : forall k, kids_tagged t (map w_xml k) = map w_xml (filter (w_tag t) k)) by (intro k; unfold kids_tagged; rewrite filter_map; reflexivity).
  rewrite !E. apply Matched_map. apply (Matched_impl _ _ _ _ _ _ (L t)); auto. intros w w' Hw _ (_ & _ & R).
  apply filter_In in Hw. destruct Hw as (_ & Hw). unfold w_tag in Hw. apply string_eqb_ok in Hw. rewrite Hw in R. exact R.
Qed.
