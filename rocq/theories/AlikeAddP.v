(** Sums of alike trees are alike. *)
From Coq Require Import String Ascii List Bool Arith ZArith Lia Permutation.
From Verif Require Import Base BaseP XmlM CalcM CalcP NetconfM DataSpec DataP ListP AlikeSpec AlikeP.
Import ListNotations.
Open Scope string_scope.
Open Scope list_scope.

(** ** Effects of steps on sequences that are not in the order of the user *)
Inductive eff := EAdd (u : uid) (x : xml) | EPut (u : uid) (x : xml) | EDel (u : uid) | EUpd (u : uid) (x : xml) | EId.
Definition eapp (f : eff) (k : list ent) : list ent :=
  match f with
  | EAdd u x => (u, x) :: k
  | EPut u x => (u, x) :: upd_uid u x k
  | EDel u => del_uid u k
  | EUpd u x => upd_uid u x k
  | EId => k
  end.
Definition effu (f : eff) (u : uid) : Prop :=
  match f with EAdd v _ | EPut v _ | EDel v | EUpd v _ => v = u | EId => True end.

Lemma eapp_perm : forall f k1 k2, Permutation k1 k2 -> Permutation (eapp f k1) (eapp f k2).
Proof.
  intros [u x | u x | u | u x |] k1 k2 H; simpl; auto.
  - apply perm_skip. apply Permutation_map. auto.
  - apply perm_filter. auto.
  - apply Permutation_map. auto.
Qed.

Lemma upd_comm : forall u v x y k, u <> v -> upd_uid u x (upd_uid v y k) = upd_uid v y (upd_uid u x k).
Proof.
  intros u v x y k H. unfold upd_uid. rewrite !map_map. apply map_ext. intros [w z]. unfold has_uid. simpl.
  destruct (uid_eqb v w) eqn:E1; destruct (uid_eqb u w) eqn:E2; simpl; rewrite ?E1, ?E2; auto.
  - apply uid_eqb_ok in E1. apply uid_eqb_ok in E2. congruence.
  - destruct (uid_eqb u v) eqn:E3; auto. apply uid_eqb_ok in E3. congruence.
  - destruct (uid_eqb v u) eqn:E3; auto. apply uid_eqb_ok in E3. congruence.
Qed.

Lemma del_comm : forall u v k, del_uid u (del_uid v k) = del_uid v (del_uid u k).
Proof. intros. unfold del_uid. apply filter_comm. Qed.

Lemma uid_eqb_ne : forall u v, u <> v -> uid_eqb u v = false.
Proof. intros u v H. destruct (uid_eqb u v) eqn:E; auto. apply uid_eqb_ok in E. contradiction. Qed.

Lemma del_upd : forall u v x k, u <> v -> del_uid u (upd_uid v x k) = upd_uid v x (del_uid u k).
Proof.
  intros u v x k H. induction k as [| [w z] r IH]; auto. unfold del_uid, upd_uid in *. simpl.
  change (has_uid v (w, z)) with (uid_eqb v w). change (has_uid u (w, z)) with (uid_eqb u w).
  destruct (uid_eqb v w) eqn:E1; simpl.
  - apply uid_eqb_ok in E1. subst w. change (has_uid u (v, x)) with (uid_eqb u v). rewrite (uid_eqb_ne u v H). simpl.
    change (has_uid v (v, z)) with (uid_eqb v v). rewrite uid_eqb_refl. f_equal. exact IH.
  - change (has_uid u (w, z)) with (uid_eqb u w). destruct (uid_eqb u w) eqn:E2; simpl; [exact IH |].
    change (has_uid v (w, z)) with (uid_eqb v w). rewrite E1. f_equal. exact IH.
Qed.

Lemma eapp_comm : forall f g u v k, effu f u -> effu g v -> u <> v -> Permutation (eapp f (eapp g k)) (eapp g (eapp f k)).
Proof.
  intros f g u v k F G H. assert (H' : v <> u) by auto.
  destruct f as [u' x | u' x | u' | u' x |]; destruct g as [v' y | v' y | v' | v' y |]; simpl in F, G; subst; simpl; auto; try apply perm_swap;
    unfold has_uid; simpl; rewrite ?(uid_eqb_ne u v H), ?(uid_eqb_ne v u H'); simpl;
    rewrite ?(upd_comm u v _ _ k H), ?(del_comm u v), ?(del_upd u v _ k H), ?(del_upd v u _ k H'); auto; try apply perm_swap.
Qed.

(** ** Folding steps that touch one name each *)
Section Fold.
Variable P : Type.
Variable tg : P -> string.
Variable uu : P -> uid.
Variable step : list ent -> P -> res (list ent).
Variable s : snode.
Variable SR : P -> P -> Prop.
Variable Good : P -> Prop.

Definition usr (t : string) : bool := match schema_child s t with Ok cs => s_user (si cs) | Err _ => false end.
Definition ptag (t : string) (p : P) : bool := String.eqb (tg p) t.

Hypothesis Loc : forall l p, Tg l -> Good p ->
  match step l p with
  | Ok l' => Tg l' /\ step (flt (tg p) l) p = Ok (flt (tg p) l') /\ forall t, t <> tg p -> flt t l' = flt t l
  | Err _ => exists e, step (flt (tg p) l) p = Err e
  end.
Hypothesis Lock : forall k k' p p', Forall2 (ER s) k k' -> SR p p' -> Good p -> Good p' ->
  Alikewise (Forall2 (ER s)) (step k p) (step k' p').
Hypothesis Eff : forall p, Good p -> usr (tg p) = false -> exists o, forall k,
  match o with
  | None => exists e, step k p = Err e
  | Some f => effu f (uu p) /\ exists k2, step k p = Ok k2 /\ Permutation k2 (eapp f k)
  end.

Lemma usr_UserTag : forall t, usr t = true -> UserTag s t.
Proof.
  intros t H. unfold usr in H. destruct (schema_child s t) as [cs | e] eqn:E; [| discriminate].
  exists cs. split; auto. apply schema_child_Defines. auto.
Qed.

Lemma fold_perm : forall q1 q2, Permutation q1 q2 -> (forall p, In p q1 -> Good p /\ usr (tg p) = false) -> NoDup (map uu q1) ->
  forall k1 k2, Permutation k1 k2 -> Alikewise (@Permutation ent) (foldM step k1 q1) (foldM step k2 q2).
Proof.
  intros q1 q2 H. induction H as [| x r1 r2 H IH | x y r | r1 r2 r3 P1 IH1 P2 IH2]; intros G N k1 k2 K; simpl; auto.
  - destruct (G x (or_introl eq_refl)) as [G1 G2]. destruct (Eff x G1 G2) as ([f |] & O).
    + destruct (O k1) as (_ & m1 & E1 & M1). destruct (O k2) as (_ & m2 & E2 & M2). rewrite E1, E2. simpl.
      apply IH; [intros; apply G; right; auto | inversion N; auto |].
      apply (perm_trans M1). apply (perm_trans (eapp_perm f k1 k2 K)). apply Permutation_sym. auto.
    + destruct (O k1) as (e1 & E1). destruct (O k2) as (e2 & E2). rewrite E1, E2. simpl. auto.
  - destruct (G x (or_intror (or_introl eq_refl))) as [G1 G2]. destruct (G y (or_introl eq_refl)) as [G3 G4].
    assert (NE : uu y <> uu x) by (inversion N as [| ? ? N1 _]; intro E; apply N1; left; auto).
    assert (GR : forall p, In p r -> Good p /\ usr (tg p) = false) by (intros; apply G; right; right; auto).
    assert (NR : NoDup (map uu r)) by (inversion N as [| ? ? _ N2]; inversion N2; auto).
    assert (SELF : forall q, (forall p, In p q -> Good p /\ usr (tg p) = false) -> NoDup (map uu q) -> forall k1 k2, Permutation k1 k2 ->
              Alikewise (@Permutation ent) (foldM step k1 q) (foldM step k2 q)).
    { clear -Eff. induction q as [| p q IH]; intros GQ NQ k1 k2 K; simpl; auto.
      destruct (GQ p (or_introl eq_refl)) as [G1 G2]. destruct (Eff p G1 G2) as ([f |] & O).
      - destruct (O k1) as (_ & m1 & E1 & M1). destruct (O k2) as (_ & m2 & E2 & M2). rewrite E1, E2. simpl.
        apply IH; [intros; apply GQ; right; auto | inversion NQ; auto |].
        apply (perm_trans M1). apply (perm_trans (eapp_perm f k1 k2 K)). apply Permutation_sym. auto.
      - destruct (O k1) as (e1 & E1). destruct (O k2) as (e2 & E2). rewrite E1, E2. simpl. auto. }
    destruct (Eff x G1 G2) as ([f |] & O); destruct (Eff y G3 G4) as ([g |] & O').
    + destruct (O' k1) as (U' & m1 & E1 & M1). destruct (O m1) as (U & n1 & E2 & M2). rewrite E1. simpl. rewrite E2. simpl.
      destruct (O k2) as (_ & m2 & E3 & M3). destruct (O' m2) as (_ & n2 & E4 & M4). rewrite E3. simpl. rewrite E4. simpl.
      apply SELF; auto. apply (perm_trans M2). apply (perm_trans (eapp_perm f _ _ M1)).
      apply (perm_trans (eapp_perm f _ _ (eapp_perm g _ _ K))). apply Permutation_sym.
      apply (perm_trans M4). apply (perm_trans (eapp_perm g _ _ M3)). apply (eapp_comm g f (uu y) (uu x)); auto.
    + destruct (O' k1) as (e1 & E1). rewrite E1. simpl. destruct (O k2) as (_ & m2 & E3 & M3). rewrite E3. simpl.
      destruct (O' m2) as (e2 & E2). rewrite E2. simpl. auto.
    + destruct (O k2) as (e2 & E2). rewrite E2. simpl. destruct (O' k1) as (_ & m1 & E1 & M1). rewrite E1. simpl.
      destruct (O m1) as (e1 & E3). rewrite E3. simpl. auto.
    + destruct (O' k1) as (e1 & E1). rewrite E1. destruct (O k2) as (e2 & E2). rewrite E2. simpl. auto.
  - apply (aw_trans (@Permutation ent) (@Permutation ent) (@Permutation ent) _ (foldM step k2 r2)).
    + intros x y z. apply perm_trans.
    + apply IH1; auto.
    + apply IH2; auto.
      * intros p Hp. apply G. apply (Permutation_in p (Permutation_sym P1) Hp).
      * apply (Permutation_NoDup (Permutation_map uu P1) N).
Qed.

Lemma fold_lock : forall q1 q2, Forall2 SR q1 q2 -> Forall Good q1 -> Forall Good q2 -> forall k1 k2, Forall2 (ER s) k1 k2 ->
  Alikewise (Forall2 (ER s)) (foldM step k1 q1) (foldM step k2 q2).
Proof.
  intros q1 q2 H. induction H as [| x y r1 r2 H1 H2 IH]; intros G1 G2 k1 k2 K; simpl; auto.
  inversion G1; subst. inversion G2; subst. apply (aw_bind (Forall2 (ER s))); auto.
Qed.

Lemma aw_both : forall {A B} (o : Prop) (Q R : A -> B -> Prop) r1 r2, Alikewise R r1 r2 -> (o -> Alikewise Q r1 r2) ->
  Alikewise (fun x y => (o -> Q x y) /\ R x y) r1 r2.
Proof. intros A B o Q R [x | e] [y | e'] H1 H2; simpl in *; auto. Qed.

Hypothesis SR_tg : forall p q, SR p q -> tg p = tg q /\ uu p = uu q.

Lemma fold_tag : forall t q1 q2 k1 k2, Matched (UserTag s t) SR q1 q2 -> Matched (UserTag s t) (ER s) k1 k2 ->
  Forall Good q1 -> Forall Good q2 -> (forall p, In p q1 -> tg p = t) -> NoDup (map uu q1) ->
  Alikewise (Matched (UserTag s t) (ER s)) (foldM step k1 q1) (foldM step k2 q2).
Proof.
  intros t q1 q2 k1 k2 Q K G1 G2 T N. destruct (usr t) eqn:U.
  - apply usr_UserTag in U. apply (aw_impl (Forall2 (ER s))); [intros x y H; apply Matched_ordered; auto |].
    apply fold_lock; auto; [apply Q | apply K]; auto.
  - apply aw_both.
    + destruct Q as (_ & m & Q1 & Q2). destruct K as (_ & n & K1 & K2).
      assert (GM : Forall Good m) by (rewrite Forall_forall in *; intros p Hp; apply G2; apply (Permutation_in p Q1 Hp)).
      apply (aw_trans (Forall2 (ER s)) (@Permutation ent) _ _ (foldM step n m)); [intros x y z F Pm; exists y; auto | apply fold_lock; auto |].
      apply fold_perm; auto.
      * intros p Hp. rewrite Forall_forall in GM. split; auto. destruct (Forall2_In_r SR q1 m p Q2 Hp) as (p0 & Hp0 & R).
        apply SR_tg in R. destruct R as (R & _). rewrite <- R. rewrite (T p0 Hp0). auto.
      * assert (E : map uu q1 = map uu m); [| rewrite <- E; auto].
        clear -Q2 SR_tg. induction Q2 as [| x y r1 r2 H1 H2 IH]; simpl; auto. destruct (SR_tg x y H1). congruence.
    + intro O. apply fold_lock; auto; [apply Q | apply K]; auto.
Qed.

Lemma fold_proj : forall ps l, Tg l -> Forall Good ps ->
  match foldM step l ps with
  | Ok r => Tg r /\ forall t, foldM step (flt t l) (filter (ptag t) ps) = Ok (flt t r)
  | Err _ => exists t e, foldM step (flt t l) (filter (ptag t) ps) = Err e
  end.
Proof.
  induction ps as [| p r IH]; intros l T G; simpl; auto. inversion G as [| ? ? Gp Gr]; subst.
  assert (L := Loc l p T Gp). destruct (step l p) as [l1 | e1] eqn:E; simpl.
  - destruct L as (T1 & E1 & F1). specialize (IH l1 T1 Gr).
    assert (B : forall t, foldM step (flt t l) (if ptag t p then p :: filter (ptag t) r else filter (ptag t) r) = foldM step (flt t l1) (filter (ptag t) r)).
    { intro t. destruct (ptag t p) eqn:Ht; simpl.
      - unfold ptag in Ht. apply (string_eqb_ok) in Ht. subst t. rewrite E1. simpl. auto.
      - unfold ptag in Ht. rewrite F1; auto. intro X. subst t. rewrite String.eqb_refl in Ht. discriminate. }
    destruct (foldM step l1 r) as [r' | e'].
    + destruct IH as (T2 & IH). split; auto. intro t. rewrite B. auto.
    + destruct IH as (t & e & IH). exists t, e. rewrite B. auto.
  - destruct L as (e & L). exists (tg p), e. unfold ptag at 1. rewrite String.eqb_refl. simpl. rewrite L. auto.
Qed.

Theorem fold_alike : forall ps ps' l l', Tg l -> Tg l' -> LR s l l' -> Forall Good ps -> Forall Good ps' ->
  (forall t, Matched (UserTag s t) SR (filter (ptag t) ps) (filter (ptag t) ps')) -> NoDup (map uu ps) ->
  Alikewise (fun r r' => Tg r /\ Tg r' /\ LR s r r') (foldM step l ps) (foldM step l' ps').
Proof.
  intros ps ps' l l' T T' L G G' M N.
  assert (F1 := fold_proj ps l T G). assert (F2 := fold_proj ps' l' T' G').
  assert (FG : forall q p, Forall Good q -> Forall Good (filter p q)).
  { intros q p H. rewrite Forall_forall in *. intros x Hx. apply filter_In in Hx. apply H. tauto. }
  assert (B : forall t, Alikewise (Matched (UserTag s t) (ER s)) (foldM step (flt t l) (filter (ptag t) ps)) (foldM step (flt t l') (filter (ptag t) ps'))).
  { intro t. apply fold_tag; auto.
    - intros p Hp. apply filter_In in Hp. destruct Hp as (_ & Hp). unfold ptag in Hp. apply (string_eqb_ok) in Hp. auto.
    - apply (NoDup_map_filter uu). auto. }
  destruct (foldM step l ps) as [r | e]; destruct (foldM step l' ps') as [r' | e']; simpl; auto.
  - destruct F1 as (T1 & F1). destruct F2 as (T2 & F2). split; auto. split; auto. intro t. specialize (B t). rewrite F1, F2 in B. auto.
  - destruct F1 as (T1 & F1). destruct F2 as (t & e & F2). specialize (B t). rewrite F1, F2 in B. auto.
  - destruct F2 as (T1 & F2). destruct F1 as (t & e' & F1). specialize (B t). rewrite F1, F2 in B. auto.
Qed.
End Fold.

(** ** Lists in step *)
Section Step.
Variable s : snode.

Lemma ins_last_F2 : forall {A B} (R : A -> B -> Prop) p q e e' l l', Forall2 R l l' -> (forall x y, R x y -> p x = q y) -> R e e' ->
  Forall2 R (ins_after_last p e l) (ins_after_last q e' l').
Proof.
  intros A B R p q e e' l l' H G E. induction H as [| x y r r' H1 H2 IH]; simpl; [auto |].
  assert (X : existsb p r = existsb q r').
  { clear -H2 G. induction H2 as [| a b r r' H1 H2 IH]; simpl; auto. rewrite (G a b H1), IH. auto. }
  rewrite X, (G x y H1). destruct (existsb q r'); auto. destruct (q y); auto.
Qed.

Lemma ins_first_F2 : forall {A B} (R : A -> B -> Prop) p q e e' l l', Forall2 R l l' -> (forall x y, R x y -> p x = q y) -> R e e' ->
  Forall2 R (ins_before_first p e l) (ins_before_first q e' l').
Proof.
  intros A B R p q e e' l l' H G E. induction H as [| x y r r' H1 H2 IH]; simpl; [auto |].
  rewrite (G x y H1). destruct (q y); auto.
Qed.

Lemma ins_after_F2 : forall {A B} (R : A -> B -> Prop) p q e e' l l', Forall2 R l l' -> (forall x y, R x y -> p x = q y) -> R e e' ->
  Forall2 R (ins_after_first p e l) (ins_after_first q e' l').
Proof.
  intros A B R p q e e' l l' H G E. induction H as [| x y r r' H1 H2 IH]; simpl; [auto |].
  rewrite (G x y H1). destruct (q y); auto.
Qed.

Lemma find_F2 : forall {A B} (R : A -> B -> Prop) p q l l', Forall2 R l l' -> (forall x y, R x y -> p x = q y) ->
  match find p l, find q l' with Some x, Some y => R x y | None, None => True | _, _ => False end.
Proof.
  intros A B R p q l l' H G. induction H as [| x y r r' H1 H2 IH]; simpl; auto. rewrite (G x y H1). destruct (q y); auto.
Qed.

Lemma rev_F2 : forall {A B} (R : A -> B -> Prop) l l', Forall2 R l l' -> Forall2 R (rev l) (rev l').
Proof. intros A B R l l' H. induction H; simpl; auto. apply Forall2_app; auto. Qed.

Lemma ER_tag : forall t e e', ER s e e' -> has_tag t e = has_tag t e'.
Proof. intros t e e' (_ & R). apply AK_parts in R. unfold has_tag. destruct R as (R & _). rewrite R. auto. Qed.

Lemma ER_uid : forall u e e', ER s e e' -> has_uid u e = has_uid u e'.
Proof. intros u e e' (E & _). unfold has_uid. rewrite E. auto. Qed.

Lemma del_F2 : forall u l l', Forall2 (ER s) l l' -> Forall2 (ER s) (del_uid u l) (del_uid u l').
Proof. intros u l l' H. apply Forall2_filter; auto. intros x y R. rewrite (ER_uid u x y R). auto. Qed.

Lemma upd_F2 : forall u x x' l l', Forall2 (ER s) l l' -> AK s (xtag x) x x' -> Forall2 (ER s) (upd_uid u x l) (upd_uid u x' l').
Proof.
  intros u x x' l l' H X. induction H as [| e e' r r' H1 H2 IH]; simpl; auto. constructor; auto.
  rewrite (ER_uid u e e' H1). destruct (has_uid u e'); auto. split; auto.
Qed.

Lemma AK_attr : forall t c c' n, AK s t c c' -> get_attr n c = get_attr n c'.
Proof. intros t c c' n H. apply AK_parts in H. unfold get_attr. destruct H as (_ & _ & H). rewrite H. auto. Qed.

Lemma AK_op : forall t c c', AK s t c c' -> op_of c = op_of c'.
Proof. intros t c c' H. unfold op_of. rewrite (AK_attr t c c' _ H). auto. Qed.

Lemma AK_preds : forall t c c' ps, AK s t c c' -> matches_preds ps c = matches_preds ps c'.
Proof.
  intros t c c' ps H. unfold matches_preds. induction ps as [| p r IH]; simpl; auto. rewrite IH. f_equal.
  destruct H as [E | (cs & _ & A)]; [subst; auto |]. assert (G : forall x y, Alike cs x y ->
    existsb (fun c0 => String.eqb (xtag c0) (fst p) && String.eqb (text_str c0) (snd p)) (xkids x) = true ->
    existsb (fun c0 => String.eqb (xtag c0) (fst p) && String.eqb (text_str c0) (snd p)) (xkids y) = true).
  { intros x y B E. apply existsb_exists in E. destruct E as (d & Hd & E). apply alike_inv in B. destruct B as (_ & _ & _ & K).
    destruct (AKids_In_l cs _ _ d K Hd) as (d' & Hd' & R). apply existsb_exists. exists d'. split; auto.
    apply AK_parts in R. destruct R as (R1 & R2 & _). unfold text_str in *. rewrite <- R1, <- R2. auto. }
  apply eq_true_iff_eq. split; apply G; auto. apply alike_sym. auto.
Qed.

Lemma ref_F2 : forall ty t c c' l l', AK s t c c' -> Forall2 (ER s) l l' -> ref_sibling ty c l = ref_sibling ty c' l'.
Proof.
  intros ty t c c' l l' H L. assert (T : xtag c = xtag c') by (apply AK_parts in H; tauto). unfold ref_sibling.
  assert (V : match get_attr value_tag c with
    | None => Err ConfigDeltaError | Some v => match find_value (xtag c) v l with None => Err ConfigDeltaError | Some u => Ok u end end =
    match get_attr value_tag c' with
    | None => Err ConfigDeltaError | Some v => match find_value (xtag c') v l' with None => Err ConfigDeltaError | Some u => Ok u end end).
  { rewrite (AK_attr t c c' _ H), T. destruct (get_attr value_tag c') as [v |]; auto. unfold find_value.
    assert (F := find_F2 (ER s) (fun e => has_tag (xtag c') e && ostr_eqb (xtext (snd e)) (Some v)) (fun e => has_tag (xtag c') e && ostr_eqb (xtext (snd e)) (Some v)) l l' L).
    destruct (find _ l) as [e |], (find _ l') as [e' |]; simpl in *; try (exfalso; apply F; intros x y R);
      try (rewrite (ER_tag _ x y R); destruct R as (_ & R); apply AK_parts in R; destruct R as (_ & R & _); rewrite R; auto); auto.
    assert (R : ER s e e'). { apply F. intros x y R. rewrite (ER_tag _ x y R). destruct R as (_ & R). apply AK_parts in R. destruct R as (_ & R & _). rewrite R. auto. }
    destruct R as (R & _). rewrite R. auto. }
  assert (K : match get_attr key_tag c with
    | None => Err ConfigDeltaError | Some p => let! o := find_key (xtag c) p l in match o with None => Err ConfigDeltaError | Some u => Ok u end end =
    match get_attr key_tag c' with
    | None => Err ConfigDeltaError | Some p => let! o := find_key (xtag c') p l' in match o with None => Err ConfigDeltaError | Some u => Ok u end end).
  { rewrite (AK_attr t c c' _ H), T. destruct (get_attr key_tag c') as [v |]; auto. unfold find_key. destruct (parse_preds (String.length v) v) as [ps |]; auto. simpl.
    assert (G : forall x y, ER s x y -> has_tag (xtag c') x && matches_preds ps (snd x) = has_tag (xtag c') y && matches_preds ps (snd y)).
    { intros x y R. rewrite (ER_tag _ x y R). destruct R as (_ & R). rewrite (AK_preds _ _ _ ps R). auto. }
    assert (F := find_F2 (ER s) _ _ l l' L G).
    destruct (find (fun e => has_tag (xtag c') e && matches_preds ps (snd e)) l) as [e |],
      (find (fun e => has_tag (xtag c') e && matches_preds ps (snd e)) l') as [e' |]; simpl in *; try contradiction; auto.
    destruct F as (R & _). rewrite R. auto. }
  destruct ty; auto.
Qed.

Definition OF2 (o o' : option (list ent)) : Prop :=
  match o, o' with Some l, Some l' => Forall2 (ER s) l l' | None, None => True | _, _ => False end.

Lemma place_lock : forall cs t c c' e e' l l', AK s t c c' -> ER s e e' -> Forall2 (ER s) l l' ->
  Alikewise OF2 (place_new cs c e l) (place_new cs c' e' l').
Proof.
  intros cs t c c' e e' l l' H E L. assert (T : xtag c = xtag c') by (apply AK_parts in H; tauto).
  assert (HT : forall x y, ER s x y -> has_tag (xtag c') x = has_tag (xtag c') y) by (intros; apply ER_tag; auto).
  assert (HU : forall u x y, ER s x y -> has_uid u x = has_uid u y) by (intros; apply ER_uid; auto).
  unfold place_new. rewrite (AK_attr t c c' insert_tag H), T, (ref_F2 (sty cs) t c c' l l' H L).
  assert (Z : Alikewise OF2 (Ok (Some (ins_after_last (has_tag (xtag c')) e l))) (Ok (Some (ins_after_last (has_tag (xtag c')) e' l')))).
  { simpl. apply ins_last_F2; auto. }
  destruct (if s_user (si cs) then get_attr insert_tag c' else None) as [v |]; auto.
  repeat match goal with |- Alikewise OF2 (match ?x with _ => _ end) _ => destruct x; auto; try (simpl; auto; fail) end;
    try (simpl; apply ins_first_F2; auto; fail); try (simpl; apply ins_after_F2; auto; fail);
    destruct (ref_sibling (sty cs) c' l') as [u |]; simpl; auto; try (apply ins_first_F2; auto; fail); apply ins_after_F2; auto.
Qed.

Lemma move_lock : forall cs t c c' e e' l l', AK s t c c' -> ER s e e' -> Forall2 (ER s) l l' ->
  Alikewise (Forall2 (ER s)) (move_peer cs c e l) (move_peer cs c' e' l').
Proof.
  intros cs t c c' e e' l l' H E L. assert (T : xtag c = xtag c') by (apply AK_parts in H; tauto). assert (U := E). destruct U as (U & _).
  assert (HT : forall x y, ER s x y -> has_tag (xtag c') x = has_tag (xtag c') y) by (intros; apply ER_tag; auto).
  assert (HU : forall u x y, ER s x y -> has_uid u x = has_uid u y) by (intros; apply ER_uid; auto).
  unfold move_peer. rewrite (AK_attr t c c' insert_tag H), T, (ref_F2 (sty cs) t c c' l l' H L), U.
  assert (D := del_F2 (fst e') l l' L).
  assert (F1 := find_F2 (ER s) _ _ l l' L HT). assert (F2 := find_F2 (ER s) _ _ _ _ (rev_F2 _ l l' L) HT).
  destruct (if s_user (si cs) then get_attr insert_tag c' else None) as [v |]; [| simpl; auto].
  assert (A1 : Alikewise (Forall2 (ER s))
     (match find (has_tag (xtag c')) l with Some e0 => if has_uid (fst e') e0 then Ok l else Ok (ins_before_first (has_tag (xtag c')) e (del_uid (fst e') l)) | None => Err IndexError end)
     (match find (has_tag (xtag c')) l' with Some e0 => if has_uid (fst e') e0 then Ok l' else Ok (ins_before_first (has_tag (xtag c')) e' (del_uid (fst e') l')) | None => Err IndexError end)).
  { destruct (find (has_tag (xtag c')) l) as [x |], (find (has_tag (xtag c')) l') as [y |]; simpl; try contradiction; auto.
    rewrite (HU _ x y F1). destruct (has_uid (fst e') y); simpl; auto. apply ins_first_F2; auto. }
  assert (A2 : Alikewise (Forall2 (ER s))
     (match find (has_tag (xtag c')) (rev l) with Some e0 => if has_uid (fst e') e0 then Ok l else Ok (ins_after_last (has_tag (xtag c')) e (del_uid (fst e') l)) | None => Err IndexError end)
     (match find (has_tag (xtag c')) (rev l') with Some e0 => if has_uid (fst e') e0 then Ok l' else Ok (ins_after_last (has_tag (xtag c')) e' (del_uid (fst e') l')) | None => Err IndexError end)).
  { destruct (find (has_tag (xtag c')) (rev l)) as [x |], (find (has_tag (xtag c')) (rev l')) as [y |]; simpl; try contradiction; auto.
    rewrite (HU _ x y F2). destruct (has_uid (fst e') y); simpl; auto. apply ins_last_F2; auto. }
  assert (A3 : Alikewise (Forall2 (ER s))
     (let! v0 := ref_sibling (sty cs) c' l' in if uid_eqb v0 (fst e') then Ok l else Ok (ins_before_first (has_uid v0) e (del_uid (fst e') l)))
     (let! v0 := ref_sibling (sty cs) c' l' in if uid_eqb v0 (fst e') then Ok l' else Ok (ins_before_first (has_uid v0) e' (del_uid (fst e') l')))).
  { destruct (ref_sibling (sty cs) c' l') as [w |]; simpl; auto. destruct (uid_eqb w (fst e')); simpl; auto. apply ins_first_F2; auto. }
  assert (A4 : Alikewise (Forall2 (ER s))
     (let! v0 := ref_sibling (sty cs) c' l' in if uid_eqb v0 (fst e') then Ok l else Ok (ins_after_first (has_uid v0) e (del_uid (fst e') l)))
     (let! v0 := ref_sibling (sty cs) c' l' in if uid_eqb v0 (fst e') then Ok l' else Ok (ins_after_first (has_uid v0) e' (del_uid (fst e') l')))).
  { destruct (ref_sibling (sty cs) c' l') as [w |]; simpl; auto. destruct (uid_eqb w (fst e')); simpl; auto. apply ins_after_F2; auto. }
  assert (A0 : Alikewise (Forall2 (ER s)) (Ok l) (Ok l')) by (simpl; auto). clear -A0 A1 A2 A3 A4.
  repeat match goal with |- Alikewise _ (match ?x with _ => _ end) _ => is_var x; destruct x; try exact A0; try exact A1; try exact A2; try exact A3; try exact A4 end.
Qed.
End Step.
