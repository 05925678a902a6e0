(** A boolean test that implies KeepsOrder and NoSwitch, used to exhibit pairs of
    configs that satisfy the hypotheses of the delta theorems. *)
From Coq Require Import String Ascii List Bool Arith ZArith Lia Permutation.
From Verif Require Import Base BaseP XmlM CalcM CalcP NetconfM ListP DataSpec DataP DeltaSpec MoveSpec MoveP NameP RoundP ConfigP.
Import ListNotations.
Open Scope string_scope.
Open Scope list_scope.

Definition uid_list_eqb := list_eqb uid_eqb.
Definition common_order (t : string) (la lb : list ent) : bool :=
  uid_list_eqb (filter (fun u => mem uid_eqb u (seqt t lb)) (seqt t la))
               (filter (fun u => mem uid_eqb u (seqt t la)) (seqt t lb)).
Definition same_case (s : snode) (ca cb : xml) : bool :=
  match schema_entry s (xtag ca), schema_entry s (xtag cb) with
  | Ok ea, Ok eb => negb (ce_case ea && ce_case eb && pos_eqb (choice_pos ea) (choice_pos eb)) ||
                    pos_eqb (case_pos ea) (case_pos eb)
  | _, _ => false
  end.
Fixpoint compat (ko ns : bool) (s : snode) (a b : xml) {struct a} : bool :=
  let '(Elem _ _ _ ks) := a in
  match index_kids s ks, index_kids s (xkids b) with
  | Ok la, Ok lb =>
      (negb ko || forallb (fun ca => common_order (xtag ca) la lb) ks) &&
      (negb ns || forallb (fun ca => forallb (same_case s ca) (xkids b)) ks) &&
      forallb (fun ca => match uid_of s ca, schema_child s (xtag ca) with
                         | Ok u, Ok cs => match assoc uid_eqb u lb with
                                          | Some cb => compat ko ns cs ca cb
                                          | None => true
                                          end
                         | _, _ => false
                         end) ks
  | _, _ => false
  end.

Lemma before_filter : forall {A} (p : A -> bool) u v l, before u v l -> p u = true -> p v = true -> before u v (filter p l).
Proof.
  intros A p u v l (l1 & l2 & l3 & E) Hu Hv. subst l. exists (filter p l1), (filter p l2), (filter p l3).
  rewrite filter_app. simpl. rewrite Hu, filter_app. simpl. rewrite Hv. reflexivity.
Qed.

Lemma filter_before : forall {A} (p : A -> bool) u v l, before u v (filter p l) -> before u v l.
Proof.
  intros A p u v l. induction l as [| x r IH]; simpl; auto. destruct (p x); intro H.
  - apply before_cons. apply before_cons in H. destruct H as [[H1 H2] | H]; auto. left. split; auto.
    apply filter_In in H2. tauto.
  - apply before_cons. auto.
Qed.

Lemma Locus_flat : forall s p c, Locus s p c -> sty c <> TChoice -> sty c <> TCase ->
  exists inc, In (CEntry p inc c) (flat s) /\ (forall i m q k, p = i :: m :: q -> Locus s (m :: q) k -> sty k = TCase -> inc = true).
Proof.
  assert (FL : forall s p k, Locus s p k -> forall k2, Locus s p k2 -> k = k2).
  { intros s p k H. induction H as [i c H | p k i c H IH T H2]; intros k2 H'; inversion H'; subst; try congruence;
      repeat match goal with L : Locus _ [] _ |- _ => inversion L end.
    match goal with L : Locus _ p ?k0 |- _ => assert (k = k0) by auto end. subst. congruence. }
  assert (G : forall s p k, Locus s p k -> exists inc, (forall e, In e (flat_node p inc k) -> In e (flat s)) /\
              (forall i m q k, p = i :: m :: q -> Locus s (m :: q) k -> sty k = TCase -> inc = true)).
  { intros s p k H. induction H as [i c H | p k i c H IH T H2].
    - exists false. split; [| discriminate]. intros e He. unfold flat. rewrite flat_list_go. apply flat_go_In. exists i, c. auto.
    - destruct IH as (inc & I1 & I2). exists (stype_eqb (sty k) TCase). split.
      + intros e He. apply I1. rewrite flat_node_eq.
        assert (E : is_choice_or_case (sty k) = true) by (destruct T as [T | T]; rewrite T; auto). rewrite E.
        apply flat_go_In. exists i, c. auto.
      + intros i0 m q k0 E L Tk. inversion E; subst. assert (k0 = k) by (eapply FL; eauto). subst. rewrite Tk. reflexivity. }
  intros s p c H N1 N2. destruct (G s p c H) as (inc & G1 & G2). exists inc. split; auto. apply G1. rewrite flat_node_eq.
  assert (E : is_choice_or_case (sty c) = false) by (destruct (sty c); auto; contradiction). rewrite E. left. reflexivity.
Qed.

Lemma entry_pos : forall s t e c p, schema_entry s t = Ok e -> stag c = t -> Locus s p c -> sty c <> TChoice -> sty c <> TCase ->
  ce_pos e = p /\ (forall i m q k, p = i :: m :: q -> Locus s (m :: q) k -> sty k = TCase -> ce_case e = true).
Proof.
  intros s t e c p H Ht HL N1 N2. destruct (Locus_flat s p c HL N1 N2) as (inc & F1 & F2).
  unfold schema_entry in H.
  assert (G : In (CEntry p inc c) (filter (fun c => String.eqb (stag (ce_node c)) t) (flat s))).
  { apply filter_In. split; auto. simpl. apply String.eqb_eq. auto. }
  destruct (filter _ (flat s)) as [| e' [| e'' r]]; try discriminate. inversion H; subst e'. destruct G as [G | []]. subst e.
  simpl. split; auto.
Qed.

Theorem compat_sound : forall ko ns p s a b, valid s a = true -> valid s b = true -> compat ko ns s a b = true ->
  forall s' na nb, At s a p s' na -> At s b p s' nb ->
    valid s' na = true /\ valid s' nb = true /\ compat ko ns s' na nb = true.
Proof.
  intros ko ns. induction p as [| u p IH]; intros s a b Va Vb C s' na nb A B.
  - inversion A; inversion B; subst. auto.
  - inversion A as [| ? ? ca cs ? ? ? ? A1 A2 A3 A4]; subst. inversion B as [| ? ? cb cs' ? ? ? ? B1 B2 B3 B4]; subst.
    destruct (valid_inv s a Va) as (_ & (la & Ia) & Ka). destruct (valid_inv s b Vb) as (_ & (lb & Ib) & Kb).
    destruct (valid_Ident s a la ca cs u Va Ia A1 A2 A3) as (S1 & V1 & I1).
    destruct (valid_Ident s b lb cb cs' u Vb Ib B1 B2 B3) as (S2 & V2 & I2).
    assert (T : xtag ca = xtag cb).
    { rewrite <- (Index_tag s _ la u ca Ia I1). apply (Index_tag s _ lb u cb Ib I2). }
    assert (cs' = cs) by congruence. subst cs'. apply (IH cs ca cb); auto.
    destruct a as [t tx at_ ks]. cbn [compat xkids] in *.
    assert (Xa : index_kids s ks = Ok la) by (apply index_ok; auto).
    assert (Xb : index_kids s (xkids b) = Ok lb) by (apply index_ok; auto). rewrite Xa, Xb in C.
    rewrite !andb_true_iff in C. destruct C as [_ C]. rewrite forallb_forall in C. specialize (C ca A1).
    rewrite (Index_uid s _ la u ca Ia I1), S1 in C.
    apply (Index_assoc s _ lb u cb Ib) in I2. rewrite I2 in C. auto.
Qed.

Lemma compat_top : forall ko ns s a b, compat ko ns s a b = true -> exists la lb, Index s (xkids a) la /\ Index s (xkids b) lb /\
  (ko = true -> forall ca, In ca (xkids a) -> common_order (xtag ca) la lb = true) /\
  (ns = true -> forall ca cb, In ca (xkids a) -> In cb (xkids b) -> same_case s ca cb = true).
Proof.
  intros ko ns s [t tx at_ ks] b C. cbn [compat xkids] in *.
  destruct (index_kids s ks) as [la |] eqn:Xa; [| discriminate]. destruct (index_kids s (xkids b)) as [lb |] eqn:Xb; [| discriminate].
  rewrite !andb_true_iff in C. destruct C as [[C1 C2] _]. exists la, lb.
  split; [apply index_ok; auto |]. split; [apply index_ok; auto |]. 
  split; intro E; subst; simpl in C1, C2; [rewrite forallb_forall in C1; auto |].
  rewrite forallb_forall in C2. intros ca cb H1 H2. specialize (C2 ca H1). rewrite forallb_forall in C2. auto.
Qed.

Theorem compat_KeepsOrder : forall ns s a b, valid s a = true -> valid s b = true -> compat true ns s a b = true -> KeepsOrder s a b.
Proof.
  intros ns s a b Va Vb C p s' na nb A B t cs us vs HD HU Ou Ov u v P Iu Iv.
  destruct (compat_sound true ns p s a b Va Vb C s' na nb A B) as (V1 & V2 & C').
  destruct (compat_top true ns s' na nb C') as (la & lb & Ia & Ib & C1 & _).
  rewrite (Order_seqt s' na la t us cs V1 Ia HD Ou) in *. rewrite (Order_seqt s' nb lb t vs cs V2 Ib HD Ov) in *.
  destruct (before_In u v _ P) as [Ju Jv]. assert (Ju' := Ju). apply seqt_In in Ju'. destruct Ju' as [Ju1 Ju2].
  unfold uids in Ju1. apply in_map_iff in Ju1. destruct Ju1 as ([u' ca] & E & Hin). simpl in E. subst u'.
  assert (Tt := Index_tag s' _ la u ca Ia Hin). rewrite Ju2 in Tt. subst t.
  specialize (C1 eq_refl ca (Index_kid s' _ la u ca Ia Hin)). rewrite <- Tt in C1.
  apply (list_eqb_ok uid_eqb uid_eqb_ok) in C1.
  apply (filter_before (fun u0 => mem uid_eqb u0 (seqt (fst u) la))). rewrite <- C1.
  apply before_filter; auto; apply (mem_In uid_eqb uid_eqb_ok); auto.
Qed.

Lemma Defines_data : forall s t c, Defines s t c -> sty c <> TChoice /\ sty c <> TCase /\ stag c = t.
Proof. intros s t c (E & k & _ & H). apply Through_data in H. tauto. Qed.

Theorem compat_NoSwitch : forall ko s a b, valid s a = true -> valid s b = true -> compat ko true s a b = true -> NoSwitch s a b.
Proof.
  intros ko s a b Va Vb C p s' na nb A B ca cb da db i j m n q ka kb Hca Hcb Da Db La Lb Lka Tka Lkb Tkb.
  destruct (compat_sound ko true p s a b Va Vb C s' na nb A B) as (V1 & V2 & C').
  destruct (compat_top ko true s' na nb C') as (la & lb & Ia & Ib & _ & C2). specialize (C2 eq_refl ca cb Hca Hcb).
  unfold same_case in C2. destruct (schema_entry s' (xtag ca)) as [ea |] eqn:Ea; [| discriminate].
  destruct (schema_entry s' (xtag cb)) as [eb |] eqn:Eb; [| discriminate].
  destruct (Defines_data _ _ _ Da) as (N1 & N2 & T1). destruct (Defines_data _ _ _ Db) as (N3 & N4 & T2).
  destruct (entry_pos s' _ ea da _ Ea T1 La N1 N2) as [P1 P2]. destruct (entry_pos s' _ eb db _ Eb T2 Lb N3 N4) as [P3 P4].
  rewrite (P2 i m q ka eq_refl Lka Tka), (P4 j n q kb eq_refl Lkb Tkb) in C2. unfold choice_pos, case_pos in C2.
  rewrite P1, P3 in C2. cbn [tl] in C2.
  assert (E : pos_eqb q q = true) by (apply (eqb_refl _ (list_eqb_ok _ Nat.eqb_eq))). rewrite E in C2. simpl in C2.
  apply andb_true_iff in C2. destruct C2 as [C2 _]. apply Nat.eqb_eq in C2. auto.
Qed.

(** ** Looking up paths by computation *)
Fixpoint get_at (s : snode) (x : xml) (p : list uid) : option (snode * xml) :=
  match p with
  | [] => Some (s, x)
  | u :: p' => match index_kids s (xkids x) with
               | Err _ => None
               | Ok l => match assoc uid_eqb u l with
                         | None => None
                         | Some c => match schema_child s (xtag c) with
                                     | Err _ => None
                                     | Ok cs => get_at cs c p'
                                     end
                         end
               end
  end.

Lemma get_at_iff : forall p s x s' n, valid s x = true -> (At s x p s' n <-> get_at s x p = Some (s', n)).
Proof.
  induction p as [| u p IH]; intros s x s' n V; cbn [get_at].
  - split; intro H; [inversion H; auto | inversion H; constructor].
  - destruct (valid_inv s x V) as (_ & (lx & Ix) & _). assert (Xx : index_kids s (xkids x) = Ok lx) by (apply index_ok; auto).
    rewrite Xx. split; intro H.
    + inversion H as [| ? ? c cs ? ? ? ? A1 A2 A3 A4]; subst. destruct (valid_Ident s x lx c cs u V Ix A1 A2 A3) as (S1 & V1 & I1).
      apply (Index_assoc s _ lx u c Ix) in I1. rewrite I1, S1. apply IH; auto.
    + destruct (assoc uid_eqb u lx) as [c |] eqn:E; [| discriminate]. apply (Index_assoc s _ lx u c Ix) in E.
      destruct (valid_entry s x lx u c V Ix E) as (cs & S1 & V1 & I1 & K1 & D1). rewrite S1 in H.
      apply (at_down s x c cs); auto. apply IH; auto.
Qed.

Lemma get_order : forall s x p t s' n cs l, valid s x = true -> get_at s x p = Some (s', n) -> schema_child s' t = Ok cs ->
  is_user_seq cs = true -> index_kids s' (xkids n) = Ok l -> UserOrder s x p t (seqt t l).
Proof.
  intros s x p t s' n cs l V A D U I. apply (get_at_iff p s x s' n V) in A. exists s', n, cs. split; auto.
  split; [apply schema_child_Defines; auto |]. apply is_user_seq_iff in U. destruct U as [U1 U2]. split; auto. split; auto.
  apply seqt_Order; [apply (At_valid p s x); auto | apply index_ok; auto].
Qed.

Lemma get_holds : forall s x p v, valid s x = true ->
  (Holds s x p v <-> match get_at s x p with Some (s', n) => value_of s' n = v | None => False end).
Proof.
  intros s x p v V. split.
  - intros (s' & n & A & E). apply get_at_iff in A; auto. rewrite A. auto.
  - destruct (get_at s x p) as [[s' n] |] eqn:E; [| contradiction]. intro H. exists s', n. split; auto. apply get_at_iff; auto.
Qed.

Lemma Defines_child : forall s t cs cs', Defines s t cs -> schema_child s t = Ok cs' -> schema_child s t = Ok cs.
Proof. intros s t cs cs' D H. rewrite (Defines_schema_child s t cs' cs H D). auto. Qed.

(** The same for EndsInPlace *)
Fixpoint inplace (s : snode) (a b : xml) {struct a} : bool :=
  let '(Elem _ _ _ ks) := a in
  match index_kids s ks, index_kids s (xkids b) with
  | Ok la, Ok lb =>
      forallb (fun cb => match schema_child s (xtag cb) with Ok cs => negb (s_user (si cs)) | Err _ => false end ||
                         uid_list_eqb (replay (seqt (xtag cb) la) (seqt (xtag cb) lb)) (seqt (xtag cb) lb)) (xkids b) &&
      forallb (fun ca => match uid_of s ca, schema_child s (xtag ca) with
                         | Ok u, Ok cs => match assoc uid_eqb u lb with
                                          | Some cb => inplace cs ca cb
                                          | None => true
                                          end
                         | _, _ => false
                         end) ks
  | _, _ => false
  end.

Lemma inplace_sound : forall p s a b, valid s a = true -> valid s b = true -> inplace s a b = true ->
  forall s' na nb, At s a p s' na -> At s b p s' nb ->
    valid s' na = true /\ valid s' nb = true /\ inplace s' na nb = true.
Proof.
  induction p as [| u p IH]; intros s a b Va Vb C s' na nb A B.
  - inversion A; inversion B; subst. auto.
  - inversion A as [| ? ? ca cs ? ? ? ? A1 A2 A3 A4]; subst. inversion B as [| ? ? cb cs' ? ? ? ? B1 B2 B3 B4]; subst.
    destruct (valid_inv s a Va) as (_ & (la & Ia) & Ka). destruct (valid_inv s b Vb) as (_ & (lb & Ib) & Kb).
    destruct (valid_Ident s a la ca cs u Va Ia A1 A2 A3) as (S1 & V1 & I1).
    destruct (valid_Ident s b lb cb cs' u Vb Ib B1 B2 B3) as (S2 & V2 & I2).
    assert (T : xtag ca = xtag cb).
    { rewrite <- (Index_tag s _ la u ca Ia I1). apply (Index_tag s _ lb u cb Ib I2). }
    assert (cs' = cs) by congruence. subst cs'. apply (IH cs ca cb); auto.
    destruct a as [t tx at_ ks]. cbn [inplace xkids] in *.
    assert (Xa : index_kids s ks = Ok la) by (apply index_ok; auto).
    assert (Xb : index_kids s (xkids b) = Ok lb) by (apply index_ok; auto). rewrite Xa, Xb in C.
    rewrite !andb_true_iff in C. destruct C as [_ C]. rewrite forallb_forall in C. specialize (C ca A1).
    rewrite (Index_uid s _ la u ca Ia I1), S1 in C.
    apply (Index_assoc s _ lb u cb Ib) in I2. rewrite I2 in C. auto.
Qed.

Lemma replay_nil : forall l, replay l [] = [].
Proof. intro l. unfold replay. simpl. replace (filter (among []) l) with (@nil uid); auto. induction l; simpl; auto. Qed.

Theorem inplace_Ends : forall s a b, valid s a = true -> valid s b = true -> inplace s a b = true -> EndsInPlace s a b.
Proof.
  intros s a b Va Vb C p s' na nb A B t cs us vs HD HU Ou Ov.
  destruct (inplace_sound p s a b Va Vb C s' na nb A B) as (V1 & V2 & C').
  destruct na as [t0 tx at_ ks]. cbn [inplace xkids] in *.
  destruct (index_kids s' ks) as [la |] eqn:Xa; [| discriminate]. destruct (index_kids s' (xkids nb)) as [lb |] eqn:Xb; [| discriminate].
  rewrite !andb_true_iff in C'. destruct C' as [C1 _]. rewrite forallb_forall in C1.
  apply index_ok in Xa. apply index_ok in Xb.
  rewrite (Order_seqt s' (Elem t0 tx at_ ks) la t us cs V1 Xa HD Ou) in *. rewrite (Order_seqt s' nb lb t vs cs V2 Xb HD Ov) in *.
  destruct (seqt t lb) as [| u r] eqn:E; [apply replay_nil |].
  assert (Ju : In u (seqt t lb)) by (rewrite E; left; auto). apply seqt_In in Ju. destruct Ju as [J1 J2].
  unfold uids in J1. apply in_map_iff in J1. destruct J1 as ([u' cb] & E' & Hin). simpl in E'. subst u'.
  assert (Tt := Index_tag s' _ lb u cb Xb Hin). rewrite J2 in Tt. subst t.
  specialize (C1 cb (Index_kid s' _ lb u cb Xb Hin)). rewrite <- Tt, E in C1.
  rewrite (Index_tag s' _ lb u cb Xb Hin) in HD. destruct (schema_child s' (fst u)) as [cs' |] eqn:Ec.
  2: { apply (list_eqb_ok uid_eqb uid_eqb_ok) in C1. exact C1. }
  rewrite Tt in Ec. assert (cs' = cs) by (eapply Defines_child in HD; [| exact Ec]; congruence). subst cs'. rewrite HU in C1.
  apply (list_eqb_ok uid_eqb uid_eqb_ok) in C1. exact C1.
Qed.
