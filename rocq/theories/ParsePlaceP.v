(** Proofs about places of statements, the version and the grammar. *)
From Coq Require Import String Ascii List Bool Arith Lia.
From Verif Require Import ParseM ParseSpec ParseP.
Import ListNotations.
Open Scope string_scope.
Open Scope list_scope.
Open Scope nat_scope.

Lemma ple_refl : forall p, ple p p.
Proof. intros (a, b). right. cbn. lia. Qed.
Lemma ple_trans : forall p q r, ple p q -> ple q r -> ple p r.
Proof. intros (a, b) (c, d) (e, f) H1 H2. unfold ple in *. cbn in *. lia. Qed.
Lemma Forward_later : forall p q l, ple p q -> Forward q l -> Forward p l.
Proof. intros p q l H F. inversion F; subst; constructor; auto. eapply ple_trans; eauto. Qed.
Lemma Forward_app : forall l p t r, Forward p (l ++ t :: r) -> ple p (t_from t) /\ ple (t_from t) (t_to t) /\ Forward (t_to t) r.
Proof.
  induction l as [| x l IH]; intros p t r F.
  - cbn in F. inversion F; subst. auto.
  - cbn in F. inversion F as [| ? ? ? A B C]; subst. destruct (IH _ _ _ C) as (I1 & I2 & I3). split; auto.
    apply (ple_trans _ (t_from x)); auto. apply (ple_trans _ (t_to x)); auto.
Qed.

Section P.
  Variable ident : string -> bool.

  (** ** Places, if no comments are kept *)
  Lemma placed : forall n,
    (forall inner st s st', parse ident false n inner st = POk (s, st') -> Forward (p_at st) (p_toks st) ->
       firstp s = p_at st /\ lastp s = p_at st' /\ Nested s /\ Forward (p_at st') (p_toks st') /\ ple (p_at st) (p_at st')) /\
    (forall st ks st', kids_of ident false n st = POk (ks, st') -> Forward (p_at st) (p_toks st) ->
       NestedAll (p_at st) ks (p_at st') /\ Forward (p_at st') (p_toks st')) .
  Proof.
    induction n as [| n (IHs & IHk)]; [split; discriminate |]. split.
    - intros inner st s st' H F. apply parse_inv in H. destruct H as [(K & _) | (st1 & k & a & st2 & t & r & line & ks & st3 & S & (t1 & la & T1 & TT1 & I & A & T2 & P2 & _) & D & -> & ->)]; [discriminate |].
      destruct S as [-> | (K & _)]; [| discriminate]. rewrite T1 in F.
      pose proof (Forward_app (t1 :: la) _ t r F) as (F1 & F2 & F3).
      assert (X : NestedAll (p_at st) ks (p_at st3) /\ Forward (p_at st3) (p_toks st3)).
      { assert (E2 : skip_tok st2 = PSt r (t_to t) (p_last st2) (p_1_1 st2)) by (unfold skip_tok; rewrite T2; reflexivity).
        destruct D as [(_ & -> & ->) | (_ & D)]; rewrite E2 in *.
        - cbn. split; auto. constructor. apply (ple_trans _ (t_from t)); auto.
        - apply IHk in D; [| exact F3]. destruct D as (D1 & D2). split; auto. cbn in D1.
          assert (P : ple (p_at st) (t_to t)) by (apply (ple_trans _ (t_from t)); auto).
          inversion D1; subst; constructor; auto; eapply ple_trans; eauto. }
      destruct X as (X1 & X2). assert (L : ple (p_at st) (p_at st3)).
      { assert (G : forall p ss q, NestedAll p ss q -> ple p q).
        { apply (NestedAll_mut (fun s => ple (firstp s) (lastp s)) (fun p _ q => ple p q)); cbn; auto. intros p q s ss A1 _ A2 _ A3.
          apply (ple_trans _ (firstp s)); auto. apply (ple_trans _ (lastp s)); auto. }
        exact (G _ _ _ X1). }
      cbn. repeat split; auto.
    - intros st ks st' H F. apply kids_inv in H. destruct H as (t & r & T & [(TT & -> & ->) | (TT & s & ks' & st1 & H1 & H2 & ->)]).
      + rewrite T in F. inversion F as [| ? ? ? A B C]; subst. cbn. split; auto. constructor. apply (ple_trans _ (t_from t)); auto.
      + rewrite T in F. inversion F as [| ? ? ? A B C]; subst. apply IHs in H1; [| cbn; constructor; auto; apply ple_refl].
        destruct H1 as (H3 & H4 & H5 & H6 & H7). cbn in H3. apply IHk in H2; auto. destruct H2 as (H8 & H9). split; auto.
        constructor; [rewrite H3; auto | auto | rewrite H4; auto].
  Qed.

  Lemma Spot_incl : forall l l' d, incl l l' -> Spot l d -> Spot l' d.
  Proof. intros l l' d H (k & e & A & B & C). exists k, e. auto. Qed.

  Lemma spots : forall n,
    (forall inner st s st', parse ident false n inner st = POk (s, st') ->
       incl (p_toks st') (p_toks st) /\
       (exists k e, In k (p_toks st) /\ In e (p_toks st) /\ (let '(Stmt kw _ _ _ _ _ _) := s in t_tok k = Word [(kw, false)]) /\
         (t_tok e = Semi \/ t_tok e = Close) /\ hd_error (p_toks st) = Some k /\ firstp s = p_at st /\ lastp s = t_to e) /\
       (forall c d, In c (kidsp s) -> Within c d -> Spot (p_toks st) d)) /\
    (forall st ks st', kids_of ident false n st = POk (ks, st') ->
       incl (p_toks st') (p_toks st) /\ (exists e, In e (p_toks st) /\ t_tok e = Close /\ p_at st' = t_to e) /\
       (forall c d, In c ks -> Within c d -> Spot (p_toks st) d)).
  Proof.
    induction n as [| n (IHs & IHk)]; [split; discriminate |]. split.
    - intros inner st s st' H. apply parse_inv in H. destruct H as [(K & _) | (st1 & k & a & st2 & t & r & line & ks & st3 & S & (t1 & la & T1 & TT1 & I & A & T2 & P2 & _) & D & -> & ->)]; [discriminate |].
      destruct S as [-> | (K & _)]; [| discriminate].
      assert (E2 : skip_tok st2 = PSt r (t_to t) (p_last st2) (p_1_1 st2)) by (unfold skip_tok; rewrite T2; reflexivity).
      assert (J : incl (t :: r) (p_toks st)) by (rewrite T1; intros x X; right; apply in_or_app; right; exact X).
      assert (X : incl (p_toks st3) (p_toks st) /\ (exists e, In e (p_toks st) /\ (t_tok e = Semi \/ t_tok e = Close) /\ p_at st3 = t_to e) /\
                  (forall c d, In c ks -> Within c d -> Spot (p_toks st) d)).
      { destruct D as [(TT & -> & ->) | (TT & D)]; rewrite E2 in *.
        - cbn. split; [intros x X; apply J; right; auto |]. split; [exists t; split; [apply J; left; auto | auto] |]. intros c d [].
        - apply IHk in D. cbn in D. destruct D as (D1 & (e & D2 & D3 & D4) & D5).
          assert (J' : incl r (p_toks st)) by (intros x X; apply J; right; auto).
          split; [eapply incl_tran; eauto |]. split; [exists e; auto |]. intros c d C W. apply (Spot_incl r); eauto. }
      destruct X as (X1 & (e & X2 & X3 & X4) & X5). cbn. split; auto. split; auto.
      exists t1, e. rewrite T1 in *. repeat split; auto. left; auto.
    - intros st ks st' H. apply kids_inv in H. destruct H as (t & r & T & [(TT & -> & ->) | (TT & s & ks' & st1 & H1 & H2 & ->)]).
      + rewrite T. cbn. split; [intros x X; right; auto |]. split; [exists t; auto |]. intros c d [].
      + apply IHs in H1. cbn in H1. destruct H1 as (I1 & (k & e & K1 & K2 & K3 & K4 & K5 & K6 & K7) & K8).
        apply IHk in H2. destruct H2 as (I2 & (e2 & E1 & E2 & E3) & E4). rewrite T. split; [eapply incl_tran; eauto |].
        split; [exists e2; auto |]. intros c d [<- | C] W.
        * inversion W as [| ? c' ? C' W']; subst; [| eapply K8; eauto]. exists k, e. injection K5 as <-. repeat split; auto.
        * apply (Spot_incl (p_toks st1)); eauto.
  Qed.

  (** ** The version *)
  Variable keep : bool.
  Lemma is_version_ok : forall k a, is_version k a = true <-> k = "yang-version" /\ a = Some "1.1".
  Proof.
    intros k a. unfold is_version. rewrite andb_true_iff, String.eqb_eq. destruct a as [a |]; [rewrite String.eqb_eq | ]; intuition congruence.
  Qed.
  Lemma versions : forall n,
    (forall inner st s st', parse ident keep n inner st = POk (s, st') -> (p_1_1 st' = true <-> p_1_1 st = true \/ exists d, Within s d /\ Is11 d)) /\
    (forall st ks st', kids_of ident keep n st = POk (ks, st') -> (p_1_1 st' = true <-> p_1_1 st = true \/ exists c d, In c ks /\ Within c d /\ Is11 d)).
  Proof.
    assert (SK : forall st, p_1_1 (skip_tok st) = p_1_1 st) by (intro st; unfold skip_tok; destruct (p_toks st); reflexivity).
    induction n as [| n (IHs & IHk)]; [split; discriminate |]. split.
    - intros inner st s st' H. apply parse_inv in H. destruct H as [(K & -> & t & r & c & e & m & T & TT & -> & ->) | (st1 & k & a & st2 & t & r & line & ks & st3 & S & (t1 & la & T1 & TT1 & I & A & T2 & P2 & L2 & V2) & D & -> & ->)].
      + rewrite SK. split; auto. intros [H | (d & W & (n1 & f & l & ks & ->))]; auto. inversion W as [| ? c' ? C' W']; subst. destruct C'.
      + assert (V1 : p_1_1 st1 = p_1_1 st) by (destruct S as [-> | (_ & _ & t0 & r0 & c & e & m & _ & _ & ->)]; auto).
        cbn [set_last p_1_1]. assert (V3 : p_1_1 st3 = true <-> p_1_1 st2 = true \/ exists c d, In c ks /\ Within c d /\ Is11 d).
        { destruct D as [(_ & -> & ->) | (_ & D)]; [rewrite SK; split; auto; intros [H | (c & d & [] & _)]; auto |].
          apply IHk in D. cbn [set_last p_1_1] in D. rewrite SK in D. exact D. }
        rewrite V3, V2, orb_true_iff, V1, is_version_ok. split.
        * intros [[H | (-> & ->)] | (c & d & C & W & X)]; auto; right.
          -- eexists. split; [apply wi_here |]. exists line, (p_at st), (p_at st3), ks. reflexivity.
          -- exists d. split; auto. eapply wi_down; eauto.
        * intros [H | (d & W & X)]; auto. inversion W as [| ? c' ? C' W']; subst.
          -- destruct X as (n1 & f & l & ks1 & E). injection E as -> -> _ _ _ _. left. right. auto.
          -- right. exists c', d. auto.
    - intros st ks st' H. apply kids_inv in H. destruct H as (t & r & T & [(TT & -> & ->) | (TT & s & ks' & st1 & H1 & H2 & ->)]).
      + cbn. split; auto. intros [H | (c & d & [] & _)]; auto.
      + apply IHs in H1. apply IHk in H2. rewrite H2, H1. cbn [p_1_1]. split.
        * intros [[H | (d & W & X)] | (c & d & C & W & X)]; auto; right; [exists s, d; cbn; auto | exists c, d; cbn; auto].
        * intros [H | (c & d & [<- | C] & W & X)]; auto; [left; right; exists d; auto | right; exists c, d; auto].
  Qed.

  (** ** The grammar is unambiguous *)
  Theorem unambiguous : forall toks t t' w w' r r', toks = w ++ r -> toks = w' ++ r' ->
    SpellsTop ident keep t (map t_tok w) -> SpellsTop ident keep t' (map t_tok w') -> t = t' /\ w = w'.
  Proof.
    intros toks t t' w w' r r' E E' H H'.
    destruct (proj2 (read_iff ident keep toks t r)) as (s & st & R & S1 & S2); [exists w; auto |].
    destruct (proj2 (read_iff ident keep toks t' r')) as (s' & st' & R' & S1' & S2'); [exists w'; auto |].
    rewrite R in R'. injection R' as <- <-. split; [congruence |].
    assert (r = r') by congruence. subst r'. apply (app_inv_tail r). congruence.
  Qed.
End P.

Theorem read_places : forall ident toks s st, read ident false toks = POk (s, st) -> Forward (0, 0) toks ->
  Nested s /\ firstp s = (0, 0) /\ lastp s = p_at st /\ forall c d, In c (kidsp s) -> Within c d -> Spot toks d.
Proof.
  intros ident toks s st H F. unfold read in H. pose proof (proj1 (placed ident _) _ _ _ _ H F) as (P1 & P2 & P3 & _).
  pose proof (proj1 (spots ident _) _ _ _ _ H) as (_ & _ & P4). auto.
Qed.
Theorem read_version : forall ident keep toks s st, read ident keep toks = POk (s, st) -> (p_1_1 st = true <-> exists d, Within s d /\ Is11 d).
Proof.
  intros ident keep toks s st H. unfold read in H. pose proof (proj1 (versions ident keep _) _ _ _ _ H) as V. cbn [p_1_1] in V. rewrite V. split; auto. intros [X | X]; [discriminate | auto].
Qed.
