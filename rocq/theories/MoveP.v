(** Sequences that keep the order of the source but for one cut end in place. *)
From Coq Require Import String Ascii List Bool Arith ZArith Lia Permutation.
From Verif Require Import Base BaseP XmlM CalcM CalcP NetconfM ListP DataSpec DeltaSpec MoveSpec.
Import ListNotations.
Open Scope string_scope.
Open Scope list_scope.

Lemma among_iff : forall l u, among l u = true <-> In u l.
Proof.
  intros l u. unfold among. rewrite existsb_exists. split.
  - intros (v & H1 & H2). apply uid_eqb_ok in H2. subst. auto.
  - intro H. exists u. split; auto. apply uid_eqb_refl.
Qed.

Lemma among_not : forall l u, among l u = false <-> ~ In u l.
Proof.
  intros l u. destruct (among l u) eqn:E.
  - apply among_iff in E. split; [discriminate | contradiction].
  - split; auto. intros _ H. apply among_iff in H. congruence.
Qed.

Lemma put_after : forall v u l, put (Some v) u l = ins_after_first (uid_eqb v) u l.
Proof. intros v u l. induction l as [| w r IH]; auto. simpl in *. rewrite IH. reflexivity. Qed.

Definition lastx (l : list uid) : option uid := last (map Some l) None.

Lemma lastx_snoc : forall l v, lastx (l ++ [v]) = Some v.
Proof. intros. unfold lastx. rewrite map_app. apply last_last. Qed.

Lemma lastx_None : forall l, lastx l = None -> l = [].
Proof.
  intros l H. destruct l as [| v l] using rev_ind; auto. rewrite lastx_snoc in H. discriminate.
Qed.

Lemma lastx_Some : forall l v, lastx l = Some v -> exists l', l = l' ++ [v].
Proof.
  intros l v H. destruct l as [| w l] using rev_ind; [discriminate |]. rewrite lastx_snoc in H. inversion H; subst. eauto.
Qed.

Lemma lastx_app : forall l1 l2, l2 <> [] -> lastx (l1 ++ l2) = lastx l2.
Proof.
  intros l1 l2 H. destruct l2 as [| v l2] using rev_ind; [contradiction |]. rewrite app_assoc, !lastx_snoc. reflexivity.
Qed.

Lemma last_opt : forall (l : list uid) d1 d2, l <> [] -> last (map Some l) d1 = last (map Some l) d2.
Proof.
  intros l d1 d2 H. destruct l as [| v l] using rev_ind; [contradiction |]. rewrite map_app. cbn [map]. rewrite !last_last. reflexivity.
Qed.

Lemma follows_split : forall p u q prev, ~ In u p -> follows prev u (p ++ u :: q) = last (map Some p) prev.
Proof.
  induction p as [| v p IH]; intros u q prev Hn; simpl.
  - rewrite uid_eqb_refl. reflexivity.
  - assert (E : uid_eqb u v = false).
    { apply (eqb_neq uid_eqb uid_eqb_ok). intro X. subst. apply Hn. left. auto. }
    rewrite E, IH by (intro X; apply Hn; right; auto). destruct p as [| w p]; auto.
    apply last_opt. discriminate.
Qed.

Lemma follows_at : forall p u q, ~ In u p -> follows None u (p ++ u :: q) = lastx p.
Proof. intros. apply follows_split. auto. Qed.

Lemma put_at : forall L x R, NoDup L -> put (lastx L) x (L ++ R) = L ++ x :: R.
Proof.
  intros L x R ND. destruct L as [| v L] using rev_ind; [reflexivity |]. clear IHL.
  rewrite lastx_snoc, put_after, <- app_assoc. simpl. rewrite ins_after_first_split; [rewrite <- app_assoc; reflexivity |].
  apply NoDup_remove_2 in ND. rewrite app_nil_r in ND. auto.
Qed.

Lemma without_id : forall u l, ~ In u l -> without u l = l.
Proof.
  intros u l H. apply filter_all. intros w Hw. apply negb_true_iff. apply (eqb_neq uid_eqb uid_eqb_ok).
  intro X. subst. contradiction.
Qed.

Lemma without_app : forall u l1 l2, without u (l1 ++ l2) = without u l1 ++ without u l2.
Proof. intros. apply filter_app'. Qed.

Lemma without_In : forall u w l, In w (without u l) <-> In w l /\ w <> u.
Proof.
  intros u w l. unfold without. rewrite filter_In. split; intros [H1 H2]; split; auto.
  - apply negb_true_iff in H2. apply (eqb_neq uid_eqb uid_eqb_ok) in H2. congruence.
  - apply negb_true_iff. apply (eqb_neq uid_eqb uid_eqb_ok). congruence.
Qed.

Lemma fold_inv : forall {S X} (f : S -> X -> S) (I : list X -> S -> Prop) L s0,
  I [] s0 -> (forall done x r st, L = done ++ x :: r -> I done st -> I (done ++ [x]) (f st x)) ->
  I L (fold_left f L s0).
Proof.
  intros S X f I L s0 H0 HS.
  assert (G : forall r done st, L = done ++ r -> I done st -> I L (fold_left f r st)).
  { induction r as [| x r IH]; intros done st E HI; simpl.
    - rewrite app_nil_r in E. subst. auto.
    - apply (IH (done ++ [x])); [rewrite <- app_assoc; auto |]. apply (HS done x r); auto. }
  apply (G L [] s0); auto.
Qed.

Lemma NoDup_app_l : forall {A} (l1 l2 : list A), NoDup (l1 ++ l2) -> NoDup l1.
Proof.
  intros A l1 l2 H. induction l1 as [| x l1 IH]; [constructor |]. simpl in H. inversion H; subst. constructor; auto.
  intro X. apply H2. apply in_or_app. auto.
Qed.

Lemma NoDup_app_disj : forall {A} (l1 l2 : list A) x, NoDup (l1 ++ l2) -> In x l1 -> In x l2 -> False.
Proof.
  intros A l1 l2 x H. induction l1 as [| y l1 IH]; [intros [] |]. simpl in H. inversion H; subst. intros [E | X] Y.
  - subst. apply H2. apply in_or_app. auto.
  - apply IH; auto.
Qed.

Lemma filter_split_at : forall {A} (f : A -> bool) l p x q, filter f l = p ++ x :: q ->
  exists l1 l2, l = l1 ++ x :: l2 /\ filter f l1 = p /\ filter f l2 = q.
Proof.
  intros A f l. induction l as [| y l IH]; intros p x q H; [destruct p; discriminate |].
  simpl in H. destruct (f y) eqn:E.
  - destruct p as [| z p]; simpl in H; inversion H; subst.
    + exists [], l. auto.
    + destruct (IH _ _ _ H2) as (l1 & l2 & E1 & E2 & E3). exists (z :: l1), l2. subst. simpl. rewrite E. auto.
  - destruct (IH _ _ _ H) as (l1 & l2 & E1 & E2 & E3). exists (y :: l1), l2. subst. simpl. rewrite E. auto.
Qed.

Lemma split_unique : forall (l1 l2 m1 m2 : list uid) x, NoDup (l1 ++ x :: l2) -> l1 ++ x :: l2 = m1 ++ x :: m2 -> l1 = m1 /\ l2 = m2.
Proof.
  induction l1 as [| y l1 IH]; intros l2 m1 m2 x ND E; destruct m1 as [| z m1]; simpl in E, ND;
    inversion ND as [| ? ? Hn ND']; subst.
  - inversion E. auto.
  - exfalso. inversion E; subst. apply Hn. apply in_or_app. right. left. auto.
  - exfalso. inversion E; subst. apply Hn. apply in_or_app. right. left. auto.
  - assert (E2 : l1 ++ x :: l2 = m1 ++ x :: m2) by congruence. destruct (IH l2 m1 m2 x ND' E2). split; congruence.
Qed.

Section Cut.
Variables (A l1 l2 : list uid).
Let B := l1 ++ l2.
Hypothesis NA : NoDup A.
Hypothesis NB : NoDup B.
Hypothesis K1 : Kept A l1.
Hypothesis K2 : Kept A l2.
Hypothesis I2 : incl l2 A.

Let C := filter (among B) A.
Let N := filter (fun u => negb (among A u)) B.

Lemma mem_among : forall l u, mem uid_eqb u l = among l u.
Proof.
  intros l u. destruct (among l u) eqn:E.
  - apply (mem_In uid_eqb uid_eqb_ok). apply among_iff. auto.
  - apply (mem_not_In uid_eqb uid_eqb_ok). apply among_not. auto.
Qed.

Lemma kept_filter : forall l, NoDup l -> Kept A l -> filter (among l) A = filter (among A) l.
Proof.
  intros l ND K. assert (X := order_filter A l NA ND K).
  rewrite (filter_ext (fun u => mem uid_eqb u l) (among l)) in X by (intro; apply mem_among).
  rewrite (filter_ext (fun u => mem uid_eqb u A) (among A)) in X by (intro; apply mem_among). exact X.
Qed.

Lemma N1 : NoDup l1.
Proof. eapply NoDup_app_l. exact NB. Qed.
Lemma N2 : NoDup l2.
Proof. assert (X := NB). unfold B in X. clear -X. induction l1; auto. simpl in X. inversion X; auto. Qed.

Lemma C_l1 : filter (among l1) C = filter (among A) l1.
Proof.
  unfold C. rewrite filter_filter. rewrite <- (kept_filter l1 N1 K1). apply filter_ext. intro u.
  destruct (among l1 u) eqn:E; simpl; auto using andb_false_r. rewrite andb_true_r || idtac.
  apply among_iff in E. assert (X : among B u = true) by (apply among_iff; apply in_or_app; auto). rewrite X. reflexivity.
Qed.

Lemma C_l2 : filter (among l2) C = l2.
Proof.
  unfold C. rewrite filter_filter. transitivity (filter (among l2) A).
  - apply filter_ext. intro u. destruct (among l2 u) eqn:E; simpl; auto using andb_false_r.
    apply among_iff in E. assert (X : among B u = true) by (apply among_iff; apply in_or_app; auto). rewrite X. reflexivity.
  - rewrite (kept_filter l2 N2 K2). apply filter_all. intros x Hx. apply among_iff. auto.
Qed.

Lemma C_NoDup : NoDup C.
Proof. apply NoDup_filter. auto. Qed.

Lemma C_In : forall u, In u C <-> In u A /\ In u B.
Proof. intro u. unfold C. rewrite filter_In, among_iff. tauto. Qed.

Lemma N_l1 : N = filter (fun u => negb (among A u)) l1.
Proof.
  unfold N, B. rewrite filter_app'. rewrite (filter_none _ l2); [apply app_nil_r |].
  intros x Hx. apply negb_false_iff. apply among_iff. auto.
Qed.

(** First loop *)
Definition L1 (done P : list uid) : Prop :=
  filter (among l1) P = filter (fun u => among A u || among done u) l1 /\ filter (among A) P = C /\ NoDup P /\
  (forall u, In u P -> In u B) /\ (forall u, In u P -> In u C \/ In u done).

Lemma among_snoc : forall done u w, among (done ++ [u]) w = among done w || uid_eqb w u.
Proof. intros. unfold among. rewrite existsb_app. simpl. rewrite orb_false_r. reflexivity. Qed.

Lemma loop1 : L1 N (fold_left (place B) N C).
Proof.
  apply (fold_inv (place B) L1).
  - split; [rewrite C_l1; apply filter_ext; intro; rewrite orb_false_r; auto |]. split.
    + apply filter_all. intros x Hx. apply among_iff. apply C_In in Hx. tauto.
    + split; [apply C_NoDup |]. split; auto. intros u Hu. apply C_In in Hu. tauto.
  - intros done u r P E (H1 & H2 & H3 & H4 & H5). rewrite N_l1 in E.
    destruct (filter_split_at _ _ _ _ _ E) as (p & q & El & Ep & Eq).
    assert (Nl := N1). rewrite El in Nl.
    assert (Hup := NoDup_remove_2 _ _ _ Nl).
    assert (Hu : In u (filter (fun u => negb (among A u)) l1)) by (rewrite E; apply in_or_app; right; left; auto).
    apply filter_In in Hu. destruct Hu as [Hu1 HuA]. apply negb_true_iff in HuA.
    assert (Hup1 : ~ In u p) by (intro X; apply Hup; apply in_or_app; auto).
    assert (Hud : ~ In u done).
    { rewrite <- Ep. intro X. apply filter_In in X. tauto. }
    assert (HuP : ~ In u P).
    { intro X. apply H5 in X. destruct X as [X | X]; [| contradiction]. apply C_In in X. apply among_not in HuA. tauto. }
    unfold place. unfold B at 1. rewrite El, <- app_assoc. simpl. rewrite (follows_at p u _ Hup1), (without_id u P HuP).
    assert (Hp : filter (fun u0 => among A u0 || among done u0) p = p).
    { apply filter_all. intros w Hw. destruct (among A w) eqn:EA; auto. simpl. apply among_iff. rewrite <- Ep.
      apply filter_In. split; auto. rewrite EA. reflexivity. }
    assert (Hq : forall w, In w q -> among done w = false).
    { intros w Hw. apply among_not. rewrite <- Ep. intro X. apply filter_In in X. destruct X as [X _].
      apply (NoDup_app_disj p (u :: q) w Nl X). right. auto. }
    assert (Hud' : among done u = false) by (apply among_not; auto).
    assert (Hst : filter (among l1) P = p ++ filter (fun u0 => among A u0 || among done u0) q).
    { rewrite H1, El, filter_app', Hp. simpl. rewrite HuA, Hud'. reflexivity. }
    assert (Hfin : filter (fun u0 => among A u0 || among (done ++ [u]) u0) l1 =
                   p ++ u :: filter (fun u0 => among A u0 || among done u0) q).
    { rewrite El, filter_app'. simpl. rewrite among_snoc, uid_eqb_refl, !orb_true_r. f_equal.
      - rewrite <- Hp at 2. apply filter_ext_in. intros w Hw. rewrite among_snoc.
        assert (X : uid_eqb w u = false) by (apply (eqb_neq uid_eqb uid_eqb_ok); intro X; subst; auto). rewrite X, orb_false_r. auto.
      - f_equal. apply filter_ext_in. intros w Hw. rewrite among_snoc.
        assert (X : uid_eqb w u = false).
        { apply (eqb_neq uid_eqb uid_eqb_ok). intro X. subst. apply Hup. apply in_or_app. auto. }
        rewrite X, orb_false_r. auto. }
    assert (HI : Ins u P (put (lastx p) u P)).
    { destruct (lastx p); [rewrite put_after; apply ins_after_first_Ins | exists [], P; auto]. }
    assert (Hal : among l1 u = true) by (apply among_iff; auto).
    split; [| split; [| split; [| split]]].
    + rewrite Hfin. destruct (lastx p) as [v |] eqn:EL.
      * destruct (lastx_Some _ _ EL) as (p' & Ep').
        assert (Hv : In v l1) by (rewrite El, Ep'; apply in_or_app; left; apply in_or_app; right; left; auto).
        rewrite put_after, ins_after_first_filter; auto.
        -- rewrite Hst, Ep', <- !app_assoc. simpl. apply ins_after_first_split. rewrite Ep' in Nl. rewrite <- app_assoc in Nl.
           apply NoDup_remove_2 in Nl. intro X. apply Nl. apply in_or_app. auto.
        -- intros x _ Hx. apply uid_eqb_ok in Hx. subst. apply among_iff. auto.
        -- apply existsb_exists. exists v. split; [| apply uid_eqb_refl].
           assert (X : In v (filter (among l1) P)).
           { rewrite Hst, Ep'. apply in_or_app. left. apply in_or_app. right. left. auto. }
           apply filter_In in X. tauto.
      * apply lastx_None in EL. subst p. simpl. rewrite Hal. rewrite Hst. reflexivity.
    + rewrite (Ins_filter_out _ u P _ HI HuA). auto.
    + eapply Ins_NoDup; eauto.
    + intros w Hw. apply (Ins_In u w P _ HI) in Hw. destruct Hw; auto. subst. apply in_or_app. auto.
    + intros w Hw. apply (Ins_In u w P _ HI) in Hw. destruct Hw as [Hw | Hw].
      * subst. right. apply in_or_app. right. left. auto.
      * destruct (H5 w Hw); auto. right. apply in_or_app. auto.
Qed.

Let P1 := fold_left (place B) N C.

Lemma P1_l1 : filter (among l1) P1 = l1.
Proof.
  destruct loop1 as (H & _). unfold P1. rewrite H. apply filter_all. intros x Hx. destruct (among A x) eqn:E; auto. simpl.
  apply among_iff. rewrite N_l1. apply filter_In. split; auto. rewrite E. auto.
Qed.
Lemma P1_A : filter (among A) P1 = C.
Proof. apply loop1. Qed.
Lemma P1_NoDup : NoDup P1.
Proof. apply loop1. Qed.
Lemma P1_B : forall u, In u P1 -> In u B.
Proof. apply loop1. Qed.

(** Second loop *)
Definition L2 (done P : list uid) : Prop :=
  exists X Y, P = X ++ filter (among l2) done ++ Y /\
    X ++ Y = filter (fun u => negb (among (filter (among l2) done) u)) P1 /\
    lastx X = lastx l1 /\ filter (among l1) X = l1 /\ filter (among l1) Y = [].

Lemma disj : forall u, In u l1 -> In u l2 -> False.
Proof. intros u. apply (NoDup_app_disj l1 l2 u NB). Qed.

Lemma L2_init : L2 [] P1.
Proof.
  assert (H := P1_l1). destruct (lastx l1) as [w |] eqn:E.
  - destruct (lastx_Some _ _ E) as (l & El). rewrite El in H at 2.
    destruct (filter_split_at _ _ _ _ _ H) as (X & Y & E1 & E2 & E3). exists (X ++ [w]), Y.
    simpl. rewrite <- app_assoc. simpl. split; auto. split; [symmetry; rewrite <- E1; apply filter_all; auto |].
    rewrite lastx_snoc. split; auto. split; auto. rewrite filter_app', E2. simpl.
    assert (Z : among l1 w = true) by (apply among_iff; rewrite El; apply in_or_app; right; left; auto). rewrite Z. auto.
  - apply lastx_None in E. exists [], P1. simpl. split; auto. split; [symmetry; apply filter_all; auto |].
    rewrite E. split; auto. split; auto. rewrite <- E at 2. rewrite <- H. rewrite E. auto.
Qed.

Lemma before_in : forall (p q : list uid) x y, In y p -> Precedes y x (p ++ x :: q).
Proof.
  intros p q x y H. apply in_split in H. destruct H as (a & b & E). subst. exists a, b, q. rewrite <- app_assoc. reflexivity.
Qed.

Lemma loop2_step : forall done x r P, C = done ++ x :: r -> L2 done P -> L2 (done ++ [x]) (place B P x).
Proof.
  intros done x r P EC (X & Y & EP & EXY & HX & HX1 & HY1).
  assert (HxC : In x C) by (rewrite EC; apply in_or_app; right; left; auto).
  assert (HC := HxC). apply C_In in HC. destruct HC as [HxA HxB].
  assert (NX : NoDup (X ++ Y)) by (rewrite EXY; apply NoDup_filter; apply P1_NoDup).
  assert (HinXY : forall u, In u (X ++ Y) <-> In u P1 /\ ~ In u (filter (among l2) done)).
  { intro u. rewrite EXY, filter_In, negb_true_iff, among_not. tauto. }
  set (D := filter (among l2) done) in *.
  assert (HxP1 : In x P1).
  { assert (Z : In x (filter (among A) P1)) by (rewrite P1_A; auto). apply filter_In in Z. tauto. }
  unfold L2. rewrite filter_app'. fold D.
  apply in_app_or in HxB. destruct HxB as [Hx1 | Hx2].
  - (* an entry of the first part is in its place *)
    assert (E2 : among l2 x = false) by (apply among_not; intro Z; eapply disj; eauto).
    simpl. rewrite E2, app_nil_r.
    assert (HxX : In x X).
    { rewrite <- HX1 in Hx1. apply filter_In in Hx1. tauto. }
    apply in_split in HxX. destruct HxX as (Xa & Xb & EX).
    assert (Hxa : ~ In x Xa).
    { rewrite EX, <- app_assoc in NX. apply NoDup_remove_2 in NX. intro Z. apply NX. apply in_or_app. auto. }
    assert (Ea : among l1 x = true) by (apply among_iff; auto).
    assert (Efa : l1 = filter (among l1) Xa ++ x :: filter (among l1) Xb).
    { rewrite <- HX1 at 1. rewrite EX, filter_app'. simpl. rewrite Ea. reflexivity. }
    assert (Hall : filter (among l1) Xa = Xa).
    { apply filter_all. intros y Hy. destruct (among l1 y) eqn:Ey; auto. exfalso. apply among_not in Ey.
      assert (HyXY : In y (X ++ Y)) by (rewrite EX; apply in_or_app; left; apply in_or_app; auto).
      apply HinXY in HyXY. destruct HyXY as [HyP HyD]. assert (HyB := P1_B y HyP).
      apply in_app_or in HyB. destruct HyB as [? | Hy2]; [contradiction |].
      apply HyD. unfold D. apply filter_In. split; [| apply among_iff; auto].
      (* y precedes x in P1, hence in C *)
      assert (Q : filter (among A) (X ++ Y) = filter (fun u => negb (among D u)) C).
      { rewrite EXY, <- P1_A, !filter_filter. apply filter_ext. intro. apply andb_comm. }
      assert (Q2 : filter (fun u => negb (among D u)) C =
                   filter (among A) Xa ++ x :: filter (among A) (Xb ++ Y)).
      { rewrite <- Q, EX, <- app_assoc. rewrite filter_app'. simpl.
        assert (Z : among A x = true) by (apply among_iff; auto). rewrite Z. reflexivity. }
      destruct (filter_split_at _ _ _ _ _ Q2) as (C1 & C2 & F1 & F2 & F3).
      assert (NC := C_NoDup). rewrite EC in NC. assert (F1' : done ++ x :: r = C1 ++ x :: C2) by congruence.
      destruct (split_unique done r C1 C2 x NC F1') as [G1 G2]. rewrite G1.
      assert (Z : In y (filter (among A) Xa)).
      { apply filter_In. split; auto. apply among_iff. auto. }
      rewrite <- F2 in Z. apply filter_In in Z. tauto. }
    rewrite Hall in Efa.
    assert (EB : B = Xa ++ x :: (filter (among l1) Xb ++ l2)).
    { unfold B. rewrite Efa at 1. rewrite <- app_assoc. reflexivity. }
    exists X, Y. split; auto.
    unfold place. rewrite EB. rewrite (follows_at Xa x _ Hxa). rewrite EP, EX, <- app_assoc. simpl.
    assert (Hx0 : forall l, In x l -> l = D \/ l = Xb \/ l = Y -> False).
    { intros l Hl HL. assert (NX' := NX). rewrite EX, <- app_assoc in NX'. simpl in NX'. apply NoDup_remove_2 in NX'.
      destruct HL as [HL | [HL | HL]]; subst l.
      - assert (Z : In x (X ++ Y)) by (rewrite EX; apply in_or_app; left; apply in_or_app; right; left; auto).
        apply HinXY in Z. tauto.
      - apply NX'. apply in_or_app. right. apply in_or_app. auto.
      - apply NX'. apply in_or_app. right. apply in_or_app. auto. }
    rewrite without_app. simpl. rewrite uid_eqb_refl. simpl. fold (without x (Xb ++ D ++ Y)).
    rewrite (without_id x Xa) by auto.
    rewrite (without_id x (Xb ++ D ++ Y)).
    + apply put_at. rewrite EX, <- app_assoc in NX. eapply NoDup_app_l. exact NX.
    + intro Z. apply in_app_or in Z. destruct Z as [Z | Z]; [eapply Hx0; eauto |].
      apply in_app_or in Z. destruct Z as [Z | Z]; eapply Hx0; eauto.
  - (* an entry of the second part goes behind those placed before *)
    assert (E2 : among l2 x = true) by (apply among_iff; auto).
    simpl. rewrite E2.
    assert (Hx1 : ~ In x l1) by (intro Z; eapply disj; eauto).
    assert (EL2 : l2 = D ++ x :: filter (among l2) r).
    { rewrite <- C_l2 at 1. rewrite EC, filter_app'. simpl. rewrite E2. reflexivity. }
    assert (ND2 := N2). rewrite EL2 in ND2.
    assert (HxD : ~ In x D).
    { apply NoDup_remove_2 in ND2. intro Z. apply ND2. apply in_or_app. auto. }
    assert (EB : B = (l1 ++ D) ++ x :: filter (among l2) r).
    { unfold B. rewrite EL2 at 1. rewrite <- app_assoc. reflexivity. }
    assert (HxlD : ~ In x (l1 ++ D)) by (intro Z; apply in_app_or in Z; tauto).
    assert (HXw : lastx (without x X) = lastx l1).
    { destruct (lastx l1) as [v |] eqn:El.
      - destruct (lastx_Some _ _ HX) as (X' & EX). rewrite EX, without_app. simpl.
        assert (Z : uid_eqb x v = false).
        { apply (eqb_neq uid_eqb uid_eqb_ok). intro Z. subst v. apply Hx1. destruct (lastx_Some _ _ El) as (l' & El').
          rewrite El'. apply in_or_app. right. left. auto. }
        rewrite Z. simpl. apply lastx_snoc.
      - apply lastx_None in HX. subst X. reflexivity. }
    assert (HLast : lastx (l1 ++ D) = lastx (without x X ++ D)).
    { destruct D as [| z D'] eqn:ED; [rewrite !app_nil_r; auto |]. rewrite !lastx_app by discriminate. reflexivity. }
    exists (without x X), (without x Y).
    split; [| split; [| split; [| split]]].
    + unfold place. rewrite EB, (follows_at _ x _ HxlD), HLast, EP. rewrite !without_app, (without_id x D HxD).
      rewrite app_assoc. rewrite put_at; [rewrite <- !app_assoc; reflexivity |].
      assert (NXw : NoDup (without x X)).
      { apply NoDup_filter. eapply NoDup_app_l. exact NX. }
      assert (NDD : NoDup D) by (eapply NoDup_app_l; exact ND2).
      clear -NXw NDD HinXY. assert (Hd : forall u, In u (without x X) -> ~ In u D).
      { intros u Hu. apply without_In in Hu. destruct Hu as [Hu _]. apply HinXY. apply in_or_app. auto. }
      clear HinXY. induction (without x X) as [| w l IH]; simpl; auto. inversion NXw; subst. constructor.
      * intro Z. apply in_app_or in Z. destruct Z as [Z | Z]; auto. apply (Hd w); [left |]; auto.
      * apply IH; auto. intros u Hu. apply Hd. right. auto.
    + rewrite <- without_app, EXY. unfold without. rewrite filter_filter. apply filter_ext. intro w.
      rewrite among_snoc, negb_orb. f_equal. f_equal. apply (eqb_sym uid_eqb uid_eqb_ok).
    + exact HXw.
    + unfold without. rewrite filter_comm, HX1. apply without_id. auto.
    + unfold without. rewrite filter_comm, HY1. reflexivity.
Qed.

Theorem replay_cut : replay A B = B.
Proof.
  change (replay A B) with (fold_left (place B) C P1).
  assert (H : L2 C (fold_left (place B) C P1)).
  { apply (fold_inv (place B) L2); [apply L2_init |]. intros done x r st. apply loop2_step. }
  destruct H as (X & Y & EP & EXY & HX & HX1 & HY1). rewrite EP. rewrite C_l2 in *.
  assert (EXY' : X ++ Y = l1).
  { rewrite EXY, <- P1_l1 at 1. apply filter_ext_in. intros u Hu. apply P1_B in Hu. apply in_app_or in Hu.
    destruct (among l1 u) eqn:E1.
    - apply among_iff in E1. apply negb_true_iff. apply among_not. intro Z. eapply disj; eauto.
    - apply among_not in E1. apply negb_false_iff. apply among_iff. tauto. }
  assert (EY : Y = []).
  { rewrite <- HY1. symmetry. apply filter_all. intros y Hy. apply among_iff. rewrite <- EXY'. apply in_or_app. auto. }
  subst Y. rewrite app_nil_r in EXY'. rewrite EXY', app_nil_r. reflexivity.
Qed.
End Cut.

Theorem one_cut : forall src dst, NoDup src -> NoDup dst -> OneCut src dst -> replay src dst = dst.
Proof.
  intros src dst N1 N2 (l1 & l2 & E & K1 & K2 & I2). subst. apply replay_cut; auto.
Qed.

Theorem kept_replay : forall src dst, NoDup src -> NoDup dst -> Kept src dst -> replay src dst = dst.
Proof.
  intros src dst N1 N2 K. apply one_cut; auto. exists dst, []. rewrite app_nil_r. split; auto. split; auto.
  split; [intros u v _ [] | intros u []].
Qed.
