(** Consequences for whole trees: attributes, forbidden operations. *)
From Coq Require Import String Ascii List Bool Arith ZArith Lia Permutation.
From Verif Require Import Base BaseP XmlM CalcM CalcP NetconfM ConfigM ListP DataSpec DataP DeltaSpec DeltaR NameP AddP PlainP TrimP EditSpec EditP.
Import ListNotations.
Open Scope string_scope.
Open Scope list_scope.
Local Notation Edited := (EditSpec.Edited op_of).
Local Notation Visited := (EditSpec.Visited op_of).
Local Notation Forbidden := (EditSpec.Forbidden op_of).

(** ** Attributes *)
Lemma all_attrs_eq : forall x, all_attrs x = xattrs x ++ flat_map all_attrs (xkids x).
Proof. intros [t tx a k]. reflexivity. Qed.

Lemma all_attrs_del : forall x, all_attrs (del_attrib x) = [].
Proof.
  intro x. induction x as [t tx a k IH] using xml_ind'. simpl. rewrite Forall_forall in IH. induction k as [| c r IHr]; auto.
  simpl. rewrite IH by (left; auto). simpl. apply IHr. intros c' Hc. apply IH. right. auto.
Qed.

Lemma key_copies_attrs : forall cs c ks, key_copies cs c = Ok ks -> flat_map all_attrs ks = [].
Proof.
  intros cs c ks H. unfold key_copies in H. apply mapM_ok in H. induction H as [| k y l l' H1 H2 IH]; auto. simpl.
  rewrite IH. destruct (find_kid k (xkids c)); [| discriminate]. inversion H1; subst. rewrite all_attrs_del. auto.
Qed.

Lemma attrs_kids : forall a c x, In c (xkids x) -> In a (all_attrs c) -> In a (all_attrs x).
Proof. intros a c x H1 H2. rewrite all_attrs_eq. apply in_or_app. right. apply in_flat_map. eauto. Qed.

Lemma set_kids_kids : forall k x, xkids (set_kids k x) = k.
Proof. intros k [t tx a ks]. reflexivity. Qed.

Lemma peer_attrs : forall rec s x c e, (forall s x d r, rec s x d = Ok r -> incl (all_attrs r) (all_attrs x)) ->
  PeerRes rec s x c (Some e) -> incl (all_attrs e) (all_attrs x).
Proof.
  intros rec s x c e IH H. inversion H; subst; try apply incl_refl; eauto.
  - destruct x. apply incl_refl.
  - rewrite all_attrs_del. intros a [].
Qed.

Lemma new_attrs : forall rec s c e, (forall s x d r, rec s x d = Ok r -> incl (all_attrs r) (all_attrs x)) ->
  NewRes rec s c (Some e) -> forall a, ~ In a (all_attrs e).
Proof.
  intros rec s c e IH H a. inversion H; subst; try (rewrite all_attrs_del; intros []; fail).
  - match goal with R : rec _ _ _ = Ok _ |- _ => apply IH in R; intro Ha; apply R in Ha; destruct Ha end.
  - match goal with R : rec _ _ _ = Ok _, K : key_copies _ _ = Ok _ |- _ =>
      apply IH in R; intro Ha; apply R in Ha; simpl in Ha; rewrite (key_copies_attrs _ _ _ K) in Ha; destruct Ha end.
Qed.

Theorem add_attrs : forall f s x d r, node_add f s x d = Ok r -> incl (all_attrs r) (all_attrs x).
Proof.
  induction f as [| f IH]; intros s x d r H; [discriminate |].
  apply node_add_step in H. destruct H as (lx & ld & lr & Ix & Id & E & ND & HA).
  intros a Ha. rewrite all_attrs_eq in Ha. apply in_app_or in Ha.
  assert (XA : xattrs r = xattrs x) by (rewrite E; apply set_kids_parts).
  destruct Ha as [Ha | Ha]. { rewrite all_attrs_eq. apply in_or_app. left. congruence. }
  apply in_flat_map in Ha. destruct Ha as (e & He & Ha).
  assert (XK : xkids r = map snd lr) by (rewrite E; apply set_kids_parts).
  rewrite XK in He. apply in_map_iff in He. destruct He as ([u e'] & E' & He). simpl in E'. subst e'.
  specialize (HA u). assert (AE : assoc uid_eqb u lr = Some e) by (apply (assoc_NoDup uid_eqb uid_eqb_ok); auto).
  rewrite AE in HA.
  assert (OLD : forall c, assoc uid_eqb u lx = Some c -> In a (all_attrs c) -> In a (all_attrs x)).
  { intros c Hc Hin. apply (attrs_kids a c); auto. apply (Index_assoc s _ lx u c Ix) in Hc. eapply Index_kid; eauto. }
  destruct (assoc uid_eqb u lx) as [cx |] eqn:E1; destruct (assoc uid_eqb u ld) as [cd |] eqn:E2.
  - apply (OLD cx); auto. eapply peer_attrs; eauto.
  - inversion HA; subst. apply (OLD cx); auto.
  - exfalso. eapply new_attrs; eauto.
  - discriminate.
Qed.

(** ** Children by identity *)
Lemma Child_assoc : forall s x lx u cs c, Index s (xkids x) lx ->
  (Child s x u cs c <-> assoc uid_eqb u lx = Some c /\ schema_child s (xtag c) = Ok cs).
Proof.
  intros s x lx u cs c Ix. split.
  - intros (H1 & H2 & H3). destruct (Index_In s _ lx c Ix H1) as (v & Hv). assert (U := Index_uid s _ lx v c Ix Hv).
    destruct (uid_schema s c v U) as (cs' & S). assert (cs = cs') by (eapply Defines_schema_child; eauto). subst cs'.
    assert (v = u) by (eapply uid_Ident; eauto). subst v. split; auto. apply (Index_assoc s _ lx u c Ix). auto.
  - intros [H1 H2]. apply (Index_assoc s _ lx u c Ix) in H1. split; [eapply Index_kid; eauto |].
    split; [apply schema_child_Defines; auto |]. apply (Ident_uid s); auto. eapply Index_uid; eauto.
Qed.

Lemma NoChild_assoc : forall s x lx u, Index s (xkids x) lx -> (NoChild s x u <-> assoc uid_eqb u lx = None).
Proof.
  intros s x lx u Ix. split.
  - intro H. destruct (assoc uid_eqb u lx) as [c |] eqn:E; auto. assert (E' := E). apply (Index_assoc s _ lx u c Ix) in E'.
    assert (U := Index_uid s _ lx u c Ix E'). destruct (uid_schema s c u U) as (cs & S).
    destruct (H cs c). apply (Child_assoc s x lx); auto.
  - intros H cs c C. apply (Child_assoc s x lx u cs c Ix) in C. destruct C as [C _]. congruence.
Qed.

(** ** Forbidden operations *)
Definition Sim (s : snode) (x y : xml) : Prop :=
  x = y \/ ((forall u cs, (exists c, Child s x u cs c) <-> (exists c, Child s y u cs c)) /\
            (forall u cs c, Child s x u cs c -> ~ Inner cs)).

Lemma Sim_NoChild : forall s x y u, Sim s x y -> NoChild s x u -> NoChild s y u.
Proof.
  intros s x y u [E | [H _]] N; [subst; auto |]. intros cs c C. destruct (proj2 (H u cs)) as (c' & C'); [eauto |]. apply (N cs c' C').
Qed.

Lemma Sim_Child : forall s x y u cs c, Sim s x y -> Child s x u cs c -> exists c', Child s y u cs c'.
Proof. intros s x y u cs c [E | [H _]] C; [subst; eauto |]. apply H. eauto. Qed.

Lemma Sim_sym_Child : forall s x y u cs c, Sim s x y -> Child s y u cs c -> exists c', Child s x u cs c'.
Proof. intros s x y u cs c [E | [H _]] C; [subst; eauto |]. apply H. eauto. Qed.

Lemma key_leaf : forall cs t k, wfs cs = true -> sty cs = TList -> In t (s_keys (si cs)) -> Defines cs t k -> sty k = TLeaf.
Proof.
  intros cs t k W L K D. destruct (wfs_keys cs W L) as (_ & G). destruct (G t K) as (_ & kc & S & T & _).
  rewrite (Defines_schema_child _ _ _ _ S D). auto.
Qed.

Lemma Fresh_Sim : forall cs y z, wfs cs = true -> Fresh cs y -> Fresh cs z -> Sim cs y z.
Proof.
  intros cs y z W Fy Fz.
  assert (G : forall y z, Fresh cs y -> Fresh cs z -> forall u k, (exists c, Child cs y u k c) -> (exists c, Child cs z u k c)).
  { clear - W. intros y z Fy Fz u k (c & C1 & C2 & C3). destruct (proj1 (Fy (xtag c))) as [L K]; [eauto |].
    destruct (proj2 (Fz (xtag c))) as (c' & D1 & D2); auto. exists c'. split; auto. rewrite D2. split; auto.
    assert (T := key_leaf cs _ k W L K C2). inversion C3; try congruence. rewrite <- D2. apply id_other; congruence. }
  right. split.
  - intros u k. split; apply G; auto.
  - intros u k c (C1 & C2 & C3) [I | I]; destruct (proj1 (Fy (xtag c))) as [L K]; eauto;
      assert (T := key_leaf cs _ k W L K C2); congruence.
Qed.

Lemma key_copies_Fresh : forall cs c ks, sty cs = TList -> key_copies cs c = Ok ks -> Fresh cs (Elem (xtag c) None [] ks).
Proof.
  intros cs c ks L H t. unfold key_copies in H. apply mapM_ok in H.
  assert (G : map xtag ks = s_keys (si cs)).
  { clear L. induction H as [| k y l l' H1 H2 IH]; auto. simpl. rewrite IH. f_equal.
    destruct (find_kid k (xkids c)) as [kn |] eqn:E; [| discriminate]. inversion H1; subst.
    apply find_some in E. destruct E as [_ E]. apply String.eqb_eq in E. destruct kn. simpl in *. auto. }
  simpl. rewrite <- G. split.
  - intros (k & K1 & K2). split; auto. apply in_map_iff. eauto.
  - intros [_ K]. apply in_map_iff in K. destruct K as (k & K1 & K2). eauto.
Qed.

Lemma empty_Fresh : forall cs t, sty cs = TContainer -> Fresh cs (Elem t None [] []).
Proof. intros cs t T n. simpl. split; [intros (c & [] & _) | intros [L _]; congruence]. Qed.

Lemma leafy_peer_create : forall rec s x c o cs, PeerRes rec s x c o -> schema_child s (xtag x) = Ok cs ->
  op_of c = OpCreate \/ op_of c = OpUnknown -> ~ (Leafy cs \/ Inner cs).
Proof.
  intros rec s x c o cs H S O. inversion H; subst; try (exfalso; intuition congruence).
  intros [[L | L] | [L | L]]; congruence.
Qed.

Theorem forbidden_fails : forall s x d s' x' d', Visited s x d s' x' d' -> wfs s = true ->
  forall y f r, Sim s x y -> node_add f s y d = Ok r -> ~ Forbidden s' x' d'.
Proof.
  intros s x d s' x' d' V.
  induction V as [s x d | s x d u cs cx c s' x' d' Cx Cd Op Inn V IH | s x d u cs c z s' x' d' Nx Cd Op Inn Fr V IH];
    intros W y f r HS H; (destruct f as [| f]; [discriminate |]);
    apply node_add_step in H; destruct H as (lx & ld & lr & Ix & Id & E & ND & HA).
  - intro FB. destruct FB as [u cs c C O N | u cs c c' C O C' T | u cs c C O T].
    + apply (Sim_NoChild s x y u HS) in N. specialize (HA u). apply (NoChild_assoc s y lx u Ix) in N. rewrite N in HA.
      apply (Child_assoc s d ld u cs c Id) in C. destruct C as [C _]. rewrite C in HA. inversion HA; subst; intuition congruence.
    + destruct (Sim_Child s x y u cs c' HS C') as (c2 & C2). specialize (HA u).
      apply (Child_assoc s y lx u cs c2 Ix) in C2. destruct C2 as [C2 S2]. rewrite C2 in HA.
      apply (Child_assoc s d ld u cs c Id) in C. destruct C as [C _]. rewrite C in HA.
      apply (leafy_peer_create _ _ _ _ _ cs HA S2); auto.
    + specialize (HA u). assert (C0 := C). apply (Child_assoc s d ld u cs c Id) in C. destruct C as [C SC]. rewrite C in HA.
      destruct (assoc uid_eqb u lx) as [c2 |] eqn:E2.
      * assert (C2 : Child s y u cs c2).
        { apply (Child_assoc s y lx u cs c2 Ix). split; auto.
          assert (T1 : fst u = xtag c2) by (eapply Index_tag; [exact Ix |]; apply (Index_assoc s _ lx u c2 Ix); auto).
          assert (T2 : fst u = xtag c) by (eapply Index_tag; [exact Id |]; apply (Index_assoc s _ ld u c Id); auto). congruence. }
        apply (Child_assoc s y lx u cs c2 Ix) in C2. destruct C2 as [C2 S2].
        destruct T as [T | T]; [| apply (leafy_peer_create _ _ _ _ _ cs HA S2); auto].
        destruct (Sim_sym_Child s x y u cs c2 HS) as (c3 & C3); [apply (Child_assoc s y lx u cs c2 Ix); auto |]. apply (T c3 C3).
      * inversion HA; subst; intuition congruence.
  - destruct HS as [E0 | [_ HI]]; [subst y | exfalso; apply (HI u cs cx Cx Inn)].
    specialize (HA u). apply (Child_assoc s x lx u cs cx Ix) in Cx. destruct Cx as [Cx Sx]. rewrite Cx in HA.
    apply (Child_assoc s d ld u cs c Id) in Cd. destruct Cd as [Cd Sd]. rewrite Cd in HA.
    assert (Wc := wfs_child s _ cs W Sx).
    destruct Inn as [T | T]; inversion HA; subst;
      try (exfalso; intuition congruence);
      match goal with H : schema_child s (xtag cx) = Ok ?c0, R : node_add f ?c0 cx c = Ok _ |- _ =>
        assert (c0 = cs) by congruence; subst c0; exact (IH Wc cx f _ (or_introl eq_refl) R) end.
  - apply (Sim_NoChild s x y u HS) in Nx. specialize (HA u). apply (NoChild_assoc s y lx u Ix) in Nx. rewrite Nx in HA.
    apply (Child_assoc s d ld u cs c Id) in Cd. destruct Cd as [Cd Sd]. rewrite Cd in HA.
    assert (Wc := wfs_child s _ cs W Sd).
    destruct Inn as [T | T]; inversion HA; subst;
      try (exfalso; intuition congruence);
      match goal with H : schema_child s (xtag c) = Ok ?c0, R : node_add f ?c0 ?z0 c = Ok _ |- _ =>
        assert (c0 = cs) by congruence; subst c0; refine (IH Wc z0 f _ _ R) end; apply Fresh_Sim; auto.
    + apply empty_Fresh; auto.
    + apply key_copies_Fresh; auto.
Qed.
