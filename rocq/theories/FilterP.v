(** What [Config.filter] and [extract_config] keep. *)
From Coq Require Import String Ascii List Bool Arith ZArith Lia.
From Verif Require Import Base BaseP XmlM CalcM CalcP NetconfM ConfigM FilterM DataSpec DataP DeltaSpec TrimP PruneSpec PruneP.
Import ListNotations.
Open Scope string_scope.
Open Scope list_scope.

(** ** Selected nodes and their ancestors *)
Lemma pos_eqb_iff : forall p q, pos_eqb p q = true <-> p = q.
Proof. apply (list_eqb_ok Nat.eqb). intros x y. apply Nat.eqb_eq. Qed.

Lemma above_iff : forall p q, above p q = true <-> StrictPrefix p q.
Proof.
  induction p as [| i p IH]; intros [| j q]; simpl.
  - split; [discriminate | intros (i & r & E); discriminate].
  - split; auto. intros _. exists j, q. reflexivity.
  - split; [discriminate | intros (i' & r & E); discriminate].
  - rewrite andb_true_iff, Nat.eqb_eq, IH. split.
    + intros (E & i' & r & E'). subst. exists i', r. reflexivity.
    + intros (i' & r & E). injection E as E1 E2. split; auto. exists i', r. auto.
Qed.

Lemma selected_iff : forall sel p, selected sel p = true <-> In p sel.
Proof.
  intros sel p. unfold selected. rewrite existsb_exists. split.
  - intros (q & I & E). apply pos_eqb_iff in E. subst. auto.
  - intro I. exists p. split; auto. apply pos_eqb_iff. auto.
Qed.

Lemma ancestor_iff : forall sel p, ancestor sel p = true <-> exists q, In q sel /\ StrictPrefix p q.
Proof.
  intros sel p. unfold ancestor. rewrite existsb_exists. split; intros (q & I & E); exists q; split; auto; apply above_iff; auto.
Qed.

Lemma prefix_cases : forall (q p : list nat) i r, Prefix q (p ++ i :: r) -> Prefix q p \/ Prefix (p ++ [i]) q.
Proof.
  induction q as [| j q IH]; intros p i r (t & E).
  - left. exists p. reflexivity.
  - destruct p as [| k p]; simpl in E; injection E as E1 E2.
    + subst. right. exists q. reflexivity.
    + subst. destruct (IH p i r) as [(u & U) | (u & U)].
      * exists t. exact E2.
      * left. exists u. simpl. rewrite U. reflexivity.
      * right. exists u. simpl. rewrite U. reflexivity.
Qed.

Lemma prefix_snoc_cases : forall (q p : list nat) i, Prefix q (p ++ [i]) -> Prefix q p \/ q = p ++ [i].
Proof.
  intros q p i H. destruct (prefix_cases q p i [] H) as [P | (u & U)]; auto. destruct H as (t & E). subst q.
  right. rewrite <- app_assoc in E. apply (f_equal (@length nat)) in E. rewrite !app_length in E. simpl in E.
  destruct u; simpl in E; [rewrite app_nil_r; reflexivity | lia].
Qed.

Definition filter_kids (sel : list pos) (s : snode) (p : pos) : nat -> list xml -> res (list xml) :=
  fix go (i : nat) (l : list xml) : res (list xml) :=
         match l with
         | [] => Ok []
         | c :: r =>
             let q := p ++ [i] in
             let! key := (if stype_eqb (sty s) TList
                          then let! cs := schema_child s (xtag c) in Ok (s_is_key (si cs))
                          else Ok false) in
             let! here :=
               (if key || selected sel q then Ok [c]
                else if ancestor sel q
                     then let! cs := schema_child s (xtag c) in
                          let! c' := node_filter sel cs q c in Ok [c']
                     else Ok []) in
             let! r' := go (S i) r in
             Ok (here ++ r')
         end.

Lemma node_filter_eq : forall sel s p x, node_filter sel s p x =
  if selected sel p then Ok x
  else if ancestor sel p then let! ks := filter_kids sel s p 0 (xkids x) in Ok (set_kids ks x)
  else Err AttributeError.
Proof. intros sel s p [t tx a ks]. reflexivity. Qed.

Section FILTER.
Variables (sel : list pos) (s0 : snode) (x0 : xml).
Hypothesis W0 : known s0 x0.
Let K := FilterKeeps s0 x0 sel.

(** Nothing above [p] makes it kept as a whole. *)
Definition Open (p : pos) : Prop :=
  (forall q, In q sel -> ~ Prefix q p) /\
  (forall q r i sl sk, In q sel -> StrictPrefix r q -> Prefix (r ++ [i]) p -> SchemaAt s0 x0 r sl -> sty sl = TList ->
     SchemaAt s0 x0 (r ++ [i]) sk -> s_is_key (si sk) = true -> False).

Lemma filter_Pr : forall x s p y, SchemaAt s0 x0 p s -> NodeAt x0 p x -> known s x -> Open p ->
  node_filter sel s p x = Ok y -> Pr K p x y.
Proof.
  intro x. induction x as [x IH] using xml_ind'. intros s p y HS HN W (O1 & O2) H. rewrite node_filter_eq in H.
  destruct (selected sel p) eqn:Es.
  { exfalso. apply selected_iff in Es. apply (O1 p Es). exists []. rewrite app_nil_r. reflexivity. }
  destruct (ancestor sel p) eqn:Ea; [| discriminate].
  apply ancestor_iff in Ea. destruct Ea as (q0 & I0 & SP0).
  apply bind_ok in H. destruct H as (ks & Hk & H). injection H as H. subst y.
  destruct x as [t tx a l]. cbn [set_kids xkids] in *. apply pr_node.
  { left. exists q0. split; auto. right. destruct SP0 as (i & r & E). exists (i :: r). exact E. }
  assert (G : forall l2 l1, l = l1 ++ l2 -> forall ks, filter_kids sel s p (length l1) l2 = Ok ks -> PrL K p (length l1) l2 ks).
  { clear ks Hk. induction l2 as [| c r IHr]; intros l1 El ks Hk.
    { simpl in Hk. injection Hk as Hk. subst. apply prl_nil. }
    cbn [filter_kids] in Hk. apply bind_ok in Hk. destruct Hk as (key & Ek & Hk).
    apply bind_ok in Hk. destruct Hk as (here & Eh & Hk). apply bind_ok in Hk. destruct Hk as (r' & Er & Hk).
    injection Hk as Hk. subst ks.
    specialize (IHr (l1 ++ [c])). rewrite app_length in IHr. cbn [length] in IHr. rewrite Nat.add_1_r in IHr.
    specialize (IHr ltac:(rewrite El, <- app_assoc; reflexivity) r' Er).
    assert (Ec : nth_error l (length l1) = Some c).
    { rewrite El, nth_error_app2, Nat.sub_diag by lia. reflexivity. }
    assert (Ic : In c l) by (eapply nth_error_In; eauto).
    pose proof W as W'. rewrite known_iff in W'. destruct (W' c Ic) as (cs & Ecs & Wc). clear W'.
    assert (HS' : SchemaAt s0 x0 (p ++ [length l1]) cs).
    { apply (SchemaAt_snoc p s0 x0 s (length l1) c cs (Elem t tx a l)); auto. apply schema_child_Defines; auto. }
    assert (HN' : NodeAt x0 (p ++ [length l1]) c).
    { apply (NodeAt_snoc p x0 (length l1) c (Elem t tx a l)); auto. }
    rewrite Ecs in Ek, Eh. cbn [bind] in Ek, Eh.
    assert (Hkey : key = true <-> sty s = TList /\ s_is_key (si cs) = true).
    { destruct (stype_eqb (sty s) TList) eqn:Et.
      - injection Ek as Ek. subst key. split; [intro; split; auto; destruct (sty s); try discriminate; auto | intros (_ & ?); auto].
      - injection Ek as Ek. subst key. split; [discriminate | intros (E & _); rewrite E in Et; discriminate]. }
    destruct (key || selected sel (p ++ [length l1])) eqn:E1.
    - injection Eh as Eh. subst here. cbn [app]. apply prl_in; auto. apply Pr_all. intro q.
      apply orb_true_iff in E1. destruct E1 as [E1 | E1].
      + apply Hkey in E1. destruct E1 as (El1 & El2). right. exists q0, p, (length l1), s, cs.
        split; auto. split; auto. split; [exists q; reflexivity |]. auto.
      + apply selected_iff in E1. left. exists (p ++ [length l1]). split; auto. left. exists q. reflexivity.
    - apply orb_false_iff in E1. destruct E1 as (E1 & E2).
      assert (O' : Open (p ++ [length l1])).
      { split.
        - intros q Iq Pq. apply prefix_snoc_cases in Pq. destruct Pq as [Pq | Pq]; [exact (O1 q Iq Pq) |].
          subst q. apply selected_iff in Iq. congruence.
        - intros q rr j sl sk Iq SPq Pq HSl Tl HSk Kk. apply prefix_snoc_cases in Pq. destruct Pq as [Pq | Pq].
          + exact (O2 q rr j sl sk Iq SPq Pq HSl Tl HSk Kk).
          + apply app_inj_tail in Pq. destruct Pq as (Pq & Pj). subst rr j.
            pose proof (SchemaAt_fun _ _ _ _ _ W0 HSl HS). pose proof (SchemaAt_fun _ _ _ _ _ W0 HSk HS'). subst sl sk.
            assert (key = true) by (apply Hkey; auto). congruence. }
      destruct (ancestor sel (p ++ [length l1])) eqn:E3.
      + apply bind_ok in Eh. destruct Eh as (c' & Ec' & Eh). injection Eh as Eh. subst here. cbn [app].
        apply prl_in; auto. apply (IH c Ic cs); auto.
      + injection Eh as Eh. subst here. cbn [app]. apply prl_out; auto. intros q [(q1 & I1 & [P1 | P1]) | Kq].
        * apply prefix_cases in P1. destruct P1 as [P1 | P1]; [exact (O1 q1 I1 P1) |].
          destruct P1 as (u & U). destruct u as [| j u].
          { rewrite app_nil_r in U. subst q1. apply selected_iff in I1. congruence. }
          assert (ancestor sel (p ++ [length l1]) = true) by (apply ancestor_iff; exists q1; split; auto; exists j, u; auto). congruence.
        * assert (P2 : Prefix (p ++ [length l1]) q1).
          { destruct P1 as (u & U). exists (q ++ u). rewrite U, <- !app_assoc. reflexivity. }
          destruct P2 as (u & U). destruct u as [| j u].
          { rewrite app_nil_r in U. subst q1. apply selected_iff in I1. congruence. }
          assert (ancestor sel (p ++ [length l1]) = true) by (apply ancestor_iff; exists q1; split; auto; exists j, u; auto). congruence.
        * destruct Kq as (q1 & rr & j & sl & sk & I1 & SP1 & P1 & HSl & Tl & HSk & Kk).
          apply prefix_cases in P1. destruct P1 as [P1 | P1].
          { exact (O2 q1 rr j sl sk I1 SP1 P1 HSl Tl HSk Kk). }
          apply prefix_snoc_cases in P1. destruct P1 as [P1 | P1].
          { destruct P1 as (u & U). destruct SP1 as (j1 & r1 & U1).
            assert (ancestor sel (p ++ [length l1]) = true).
            { apply ancestor_iff. exists q1. split; auto. rewrite U1, U, <- app_assoc. destruct u as [| j2 u]; simpl.
              - exists j1, r1. reflexivity.
              - exists j2, (u ++ j1 :: r1). reflexivity. }
            congruence. }
          apply app_inj_tail in P1. destruct P1 as (P1 & Pj). subst rr j.
          pose proof (SchemaAt_fun _ _ _ _ _ W0 HSl HS). pose proof (SchemaAt_fun _ _ _ _ _ W0 HSk HS'). subst sl sk.
          assert (key = true) by (apply Hkey; auto). congruence. }
  exact (G l [] eq_refl ks Hk).
Qed.

Lemma Open_root : ~ In [] sel -> Open [].
Proof.
  intro N. split.
  - intros q I (r & E). destruct q; [auto | discriminate].
  - intros q r i sl sk _ _ (u & U). destruct r; discriminate.
Qed.
End FILTER.

Lemma filter_total : forall sel x s p, known s x -> selected sel p = true \/ ancestor sel p = true ->
  exists y, node_filter sel s p x = Ok y.
Proof.
  intros sel x. induction x as [x IH] using xml_ind'. intros s p W H. rewrite node_filter_eq.
  destruct (selected sel p); eauto. destruct H as [H | H]; [discriminate |]. rewrite H.
  assert (G : forall l n, (forall c, In c l -> In c (xkids x)) -> exists ks, filter_kids sel s p n l = Ok ks).
  { induction l as [| c r IHr]; intros n I; [simpl; eauto |]. cbn [filter_kids].
    rewrite known_iff in W. destruct (W c) as (cs & E & Wc); [apply I; simpl; auto |]. rewrite E. cbn [bind].
    destruct (IHr (S n)) as (ks & Ek); [intros; apply I; simpl; auto |].
    assert (Hk : exists key, (if stype_eqb (sty s) TList then Ok (s_is_key (si cs)) else Ok false) = Ok key)
      by (destruct (stype_eqb (sty s) TList); eauto).
    destruct Hk as (key & Hk). rewrite Hk. cbn [bind].
    destruct (key || selected sel (p ++ [n])); cbn [bind]; [rewrite Ek; simpl; eauto |].
    destruct (ancestor sel (p ++ [n])) eqn:Ea; cbn [bind]; [| rewrite Ek; simpl; eauto].
    destruct (IH c ltac:(apply I; simpl; auto) cs (p ++ [n]) Wc (or_intror Ea)) as (y & Ey). rewrite Ey. cbn [bind].
    rewrite Ek. simpl. eauto. }
  destruct (G (xkids x) 0) as (ks & Ek); auto. rewrite Ek. simpl. eauto.
Qed.

Theorem filter_spec : forall sel s x, known s x -> sel <> [] -> exists y, node_filter sel s [] x = Ok y /\
  Pruned (FilterKeeps s x sel) x y.
Proof.
  intros sel s x W N. destruct (filter_total sel x s [] W) as (y & Ey).
  - destruct sel as [| q r]; [congruence |]. destruct q as [| i q].
    + left. reflexivity.
    + right. reflexivity.
  - exists y. split; auto. apply Pr_Pruned. destruct (selected sel []) eqn:E.
    + rewrite node_filter_eq, E in Ey. injection Ey as Ey. subst y. apply Pr_all. intro q. left. exists [].
      split; [apply selected_iff; auto | left; exists q; reflexivity].
    + apply (filter_Pr sel s x W x s [] y); auto using sa_here, na_here. apply Open_root.
      intro I. apply selected_iff in I. congruence.
Qed.

(** ** The constructor only lets known nodes through *)
Lemma trim_known : forall x s y, trim s x = Ok y -> known s y.
Proof.
  intro x. induction x as [x IH] using xml_ind'. intros s y H. apply known_iff.
  apply trim_inv in H. destruct H as (kss & F & E). intros c' I. subst y.
  assert (Ek : xkids (set_kids (concat kss) x) = concat kss) by apply set_kids_parts. rewrite Ek in I.
  destruct (Forall2_concat_In _ _ _ _ F I) as (c & l & Ic & Hl & Il).
  apply trim_kid_inv in Hl. destruct Hl as (cs & c1 & E1 & E2 & El). subst l.
  destruct (trim_drops cs (xkids x) c1); [destruct Il |]. destruct Il as [Il | []]. subst c'.
  exists cs. destruct (trim_parts _ _ _ E2) as (Et & _). rewrite Et. split; eauto.
Qed.

(** ** Dropping nodes by a test on the node itself *)
Section DROP.
Variable D : list nat -> Prop.
Definition NoneAbove (p : list nat) : Prop := forall q i, Prefix (q ++ [i]) p -> ~ D (q ++ [i]).

Lemma NoneAbove_root : NoneAbove [].
Proof. intros q i (r & E). destruct q; discriminate. Qed.

Lemma NoneAbove_snoc : forall p i, NoneAbove p -> ~ D (p ++ [i]) -> NoneAbove (p ++ [i]).
Proof.
  intros p i H N q j P. apply prefix_snoc_cases in P. destruct P as [P | P]; [auto |]. rewrite P. exact N.
Qed.

Lemma NoneAbove_out : forall p i q, D (p ++ [i]) -> ~ NoneAbove (p ++ i :: q).
Proof. intros p i q H N. apply (N p i); auto. exists q. rewrite <- app_assoc. reflexivity. Qed.
End DROP.

Lemma Pruned_iff : forall K K' x y, (forall p, K p <-> K' p) -> Pruned K x y -> Pruned K' x y.
Proof.
  intros K K' x y H (l & F & E). exists l. split; auto. clear E.
  induction F; constructor; auto; rewrite <- H; auto.
Qed.

(** ** extract_config *)
Definition ro_kid (s : snode) (c : xml) : res (list xml) :=
  let! cs := schema_child s (xtag c) in
  if String.eqb (s_access (si cs)) "read-only" then Ok []
  else let! c' := remove_read_only cs c in Ok [c'].

Lemma ro_eq : forall s x, remove_read_only s x = let! kss := mapM (ro_kid s) (xkids x) in Ok (set_kids (concat kss) x).
Proof.
  intros s [t tx a ks]. cbn [remove_read_only xkids].
  match goal with |- (let! ks' := ?f ks in _) = _ =>
    assert (G : forall l, f l = let! kss := mapM (ro_kid s) l in Ok (concat kss)) end.
  { intro l. induction l as [| c r IH]; auto. cbn [mapM]. unfold ro_kid at 1.
    destruct (schema_child s (xtag c)) as [cs |]; auto. cbn [bind].
    destruct (String.eqb (s_access (si cs)) "read-only"); cbn [bind].
    - rewrite IH. destruct (mapM (ro_kid s) r); reflexivity.
    - destruct (remove_read_only cs c); auto. cbn [bind]. rewrite IH. destruct (mapM (ro_kid s) r); reflexivity. }
  rewrite G. destruct (mapM (ro_kid s) ks); reflexivity.
Qed.

Section RO.
Variables (s0 : snode) (x0 : xml).
Hypothesis W0 : known s0 x0.
Let D (p : list nat) : Prop := exists sq, SchemaAt s0 x0 p sq /\ s_access (si sq) = "read-only".

Lemma ro_Pr : forall x s p y, SchemaAt s0 x0 p s -> NodeAt x0 p x -> known s x -> NoneAbove D p ->
  remove_read_only s x = Ok y -> Pr (NoneAbove D) p x y.
Proof.
  intro x. induction x as [x IH] using xml_ind'. intros s p y HS HN W O H. rewrite ro_eq in H.
  apply bind_ok in H. destruct H as (kss & Hk & H). injection H as H. subst y. apply mapM_ok in Hk.
  destruct x as [t tx a l]. cbn [set_kids xkids] in *. apply pr_node; auto.
  assert (G : forall l2 l1 kss, l = l1 ++ l2 -> Forall2 (fun c r => ro_kid s c = Ok r) l2 kss ->
              PrL (NoneAbove D) p (length l1) l2 (concat kss)).
  { clear kss Hk. intros l2 l1 kss El F. revert l1 El. induction F as [| c r l2 kss Hc F IHF]; intros l1 El; [apply prl_nil |].
    specialize (IHF (l1 ++ [c])). rewrite app_length in IHF. cbn [length] in IHF. rewrite Nat.add_1_r in IHF.
    specialize (IHF ltac:(rewrite El, <- app_assoc; reflexivity)).
    assert (Ec : nth_error l (length l1) = Some c).
    { rewrite El, nth_error_app2, Nat.sub_diag by lia. reflexivity. }
    assert (Ic : In c l) by (eapply nth_error_In; eauto).
    pose proof W as W'. rewrite known_iff in W'. destruct (W' c Ic) as (cs & Ecs & Wc). clear W'.
    assert (HS' : SchemaAt s0 x0 (p ++ [length l1]) cs).
    { apply (SchemaAt_snoc p s0 x0 s (length l1) c cs (Elem t tx a l)); auto. apply schema_child_Defines; auto. }
    assert (HN' : NodeAt x0 (p ++ [length l1]) c).
    { apply (NodeAt_snoc p x0 (length l1) c (Elem t tx a l)); auto. }
    unfold ro_kid in Hc. rewrite Ecs in Hc. cbn [bind] in Hc.
    destruct (String.eqb_spec (s_access (si cs)) "read-only") as [E | E].
    - injection Hc as Hc. subst r. cbn [concat app]. apply prl_out; auto. intro q. apply NoneAbove_out. exists cs. auto.
    - apply bind_ok in Hc. destruct Hc as (c' & Hc' & Hc). injection Hc as Hc. subst r. cbn [concat app].
      apply prl_in; auto. apply (IH c Ic cs); auto. apply NoneAbove_snoc; auto.
      intros (sq & Hq & Aq). pose proof (SchemaAt_fun _ _ _ _ _ W0 Hq HS'). subst sq. auto. }
  exact (G l [] kss eq_refl Hk).
Qed.
End RO.

Lemma ro_total : forall x s, known s x -> exists y, remove_read_only s x = Ok y.
Proof.
  intro x. induction x as [x IH] using xml_ind'. intros s W. rewrite ro_eq. rewrite known_iff in W.
  assert (G : forall l, (forall c, In c l -> In c (xkids x)) -> exists kss, mapM (ro_kid s) l = Ok kss).
  { induction l as [| c r IHr]; intro I; [simpl; eauto |]. cbn [mapM].
    destruct (W c) as (cs & E & Wc); [apply I; simpl; auto |].
    destruct (IHr ltac:(intros; apply I; simpl; auto)) as (kss & Ek). unfold ro_kid at 1. rewrite E. cbn [bind].
    destruct (String.eqb (s_access (si cs)) "read-only"); cbn [bind]; [rewrite Ek; simpl; eauto |].
    destruct (IH c ltac:(apply I; simpl; auto) cs Wc) as (y & Ey). rewrite Ey. cbn [bind]. rewrite Ek. simpl. eauto. }
  destruct (G (xkids x)) as (kss & Ek); auto. rewrite Ek. simpl. eauto.
Qed.

Theorem ro_spec : forall s x, known s x -> exists y, remove_read_only s x = Ok y /\ Pruned (fun p => ~ ReadOnly s x p) x y.
Proof.
  intros s x W. destruct (ro_total x s W) as (y & Ey). exists y. split; auto.
  apply (Pruned_iff (NoneAbove (fun p => exists sq, SchemaAt s x p sq /\ s_access (si sq) = "read-only"))).
  - intro p. unfold NoneAbove, ReadOnly. split.
    + intros H (q & i & sq & P & HS & A). apply (H q i P). eauto.
    + intros H q i P (sq & HS & A). apply H. exists q, i, sq. auto.
  - apply Pr_Pruned. apply (ro_Pr s x W x s [] y); auto using sa_here, na_here, NoneAbove_root.
Qed.

(** ** Validation *)
Definition val_sub (rd : bool) (cs : snode) (c : xml) : res xml := match xkids c with [] => Ok c | _ => validate rd cs c end.
Definition val_kid (rd : bool) (s : snode) (c : xml) : res (list xml) :=
  let! cs := schema_child s (xtag c) in
  let! c' := val_sub rd cs c in
  Ok (if validate_drops rd cs c' then [] else [c']).

Lemma validate_eq : forall rd s x, validate rd s x =
  if negb (validate_own s x) then Err ConfigError
  else let! kss := mapM (val_kid rd s) (xkids x) in Ok (set_kids (concat kss) x).
Proof.
  intros rd s [t tx a ks]. cbn [validate xkids]. destruct (negb (validate_own s (Elem t tx a ks))); auto.
  match goal with |- (let! ks' := ?f ks in _) = _ =>
    assert (G : forall l, f l = let! kss := mapM (val_kid rd s) l in Ok (concat kss)) end.
  { intro l. induction l as [| c r IH]; auto. cbn [mapM]. unfold val_kid at 1.
    destruct (schema_child s (xtag c)) as [cs |]; auto. cbn [bind]. unfold val_sub.
    destruct (match xkids c with [] => Ok c | _ :: _ => validate rd cs c end); auto. cbn [bind].
    rewrite IH. destruct (mapM (val_kid rd s) r); auto. cbn [bind]. destruct (validate_drops rd cs a0); reflexivity. }
  rewrite G. destruct (mapM (val_kid rd s) ks); reflexivity.
Qed.

Lemma validate_inv : forall rd s x y, validate rd s x = Ok y -> validate_own s x = true /\ exists kss,
  Forall2 (fun c l => val_kid rd s c = Ok l) (xkids x) kss /\ y = set_kids (concat kss) x.
Proof.
  intros rd s x y H. rewrite validate_eq in H. destruct (validate_own s x); [| discriminate]. split; auto.
  cbn [negb] in H. apply bind_ok in H. destruct H as (kss & H1 & H2). apply mapM_ok in H1. injection H2 as H2. eauto.
Qed.

Lemma val_kid_inv : forall rd s c l, val_kid rd s c = Ok l -> exists cs c', schema_child s (xtag c) = Ok cs /\
  val_sub rd cs c = Ok c' /\ l = if validate_drops rd cs c' then [] else [c'].
Proof.
  intros rd s c l H. unfold val_kid in H. apply bind_ok in H. destruct H as (cs & H1 & H).
  apply bind_ok in H. destruct H as (c' & H2 & H). injection H as H. eauto.
Qed.

Lemma validate_parts : forall rd s x y, validate rd s x = Ok y -> xtag y = xtag x /\ xtext y = xtext x /\ xattrs y = xattrs x.
Proof.
  intros rd s x y H. apply validate_inv in H. destruct H as (_ & kss & _ & E). subst y.
  destruct (set_kids_parts (concat kss) x) as (H1 & H2 & H3 & _). auto.
Qed.

Lemma val_sub_parts : forall rd s x y, val_sub rd s x = Ok y -> xtag y = xtag x /\ xtext y = xtext x /\ xattrs y = xattrs x.
Proof.
  intros rd s x y H. unfold val_sub in H. destruct (xkids x); [injection H as H; subst; auto | eapply validate_parts; eauto].
Qed.

Lemma val_sub_inv : forall rd s x y, val_sub rd s x = Ok y -> exists kss,
  Forall2 (fun c l => val_kid rd s c = Ok l) (xkids x) kss /\ xkids y = concat kss /\ (xkids x = [] -> y = x) /\
  (xkids x <> [] -> validate rd s x = Ok y).
Proof.
  intros rd s x y H. unfold val_sub in H. destruct (xkids x) eqn:E.
  - injection H as H. subst. exists []. rewrite E. repeat split; auto. congruence.
  - pose proof H as H'. apply validate_inv in H. destruct H as (_ & kss & F & Ey). rewrite E in F. exists kss.
    repeat split; auto.
    + subst y. apply set_kids_parts.
    + discriminate.
Qed.

Lemma np_container_iff : forall cs, np_container cs = true <-> sty cs = TContainer /\ s_presence (si cs) = false.
Proof.
  intro cs. unfold np_container. destruct (sty cs); destruct (s_presence (si cs)); simpl; intuition congruence.
Qed.

Lemma no_kids_iff : forall x, no_kids x = true <-> xkids x = [].
Proof. intro x. unfold no_kids. destruct (xkids x); split; auto; discriminate. Qed.

Lemma drops_cases : forall rd cs c, validate_drops rd cs c = true <->
  (xkids c = [] /\ (sty cs = TList \/ sty cs = TContainer /\ s_presence (si cs) = false)) \/
  s_status (si cs) = "obsolete" \/ (rd = true /\ s_status (si cs) = "deprecated").
Proof.
  intros rd cs c. unfold validate_drops.
  rewrite !orb_true_iff, !andb_true_iff, np_container_iff, no_kids_iff, !String.eqb_eq.
  assert (stype_eqb (sty cs) TList = true <-> sty cs = TList) by (destruct (sty cs); simpl; intuition congruence).
  tauto.
Qed.

Lemma val_drops : forall rd c s cs c', val_sub rd cs c = Ok c' -> schema_child s (xtag c) = Ok cs ->
  (validate_drops rd cs c' = true <-> Void rd cs c).
Proof.
  intros rd c. induction c as [c IH] using xml_ind'. intros s cs c' H E.
  destruct (val_sub_inv _ _ _ _ H) as (kss & F & Ek & _).
  assert (G : xkids c' = [] <-> (forall k, In k (xkids c) -> exists ks, Defines cs (xtag k) ks /\ Void rd ks k)).
  { rewrite Ek. rewrite concat_nil_iff. split.
    - intros Fn k I. destruct (Forall2_concat_In' _ _ _ _ F I) as (l & Hl & _).
      assert (l = []).
      { clear -F Fn I Hl. induction F as [| a b l1 l2 Hab F IHF]; [destruct I |]. inversion Fn; subst. destruct I as [I | I]; auto.
        subst. congruence. }
      subst l. apply val_kid_inv in Hl. destruct Hl as (ks & k' & E1 & E2 & El). exists ks. split; [apply schema_child_Defines; auto |].
      apply (IH k I cs ks k'); auto. destruct (validate_drops rd ks k'); auto. discriminate.
    - intros A. clear Ek H. revert A IH. induction F as [| k l l1 l2 Hk F IHF]; intros A IH; constructor.
      + apply val_kid_inv in Hk. destruct Hk as (ks & k' & E1 & E2 & El). subst l.
        destruct (A k ltac:(simpl; auto)) as (ks' & D & V). 
        assert (ks' = ks) by (apply (Defines_schema_child _ _ _ _ E1 D)). subst ks'.
        apply (IH k ltac:(simpl; auto) cs ks k' E2 E1) in V. rewrite V. reflexivity.
      + apply IHF; intros; [apply A | eapply IH]; simpl; eauto. }
  rewrite drops_cases, G. split.
  - intros [(A & [T | (T & P)]) | [S | (R & S)]].
    + apply vo_list; auto.
    + apply vo_container; auto.
    + apply vo_obsolete; auto.
    + apply vo_deprecated; auto.
  - intro V. inversion V; subst; auto.
Qed.

Section VAL.
Variables (rd : bool) (s0 : snode) (x0 : xml).
Hypothesis W0 : known s0 x0.
Let D (p : list nat) : Prop := exists sq n, SchemaAt s0 x0 p sq /\ NodeAt x0 p n /\ Void rd sq n.

Lemma validate_Pr : forall x s p y, SchemaAt s0 x0 p s -> NodeAt x0 p x -> known s x -> NoneAbove D p ->
  val_sub rd s x = Ok y -> Pr (NoneAbove D) p x y.
Proof.
  intro x. induction x as [x IH] using xml_ind'. intros s p y HS HN W O H.
  destruct (val_sub_inv _ _ _ _ H) as (kss & Hk & Ek & _). destruct (val_sub_parts _ _ _ _ H) as (P1 & P2 & P3). clear H.
  destruct x as [t tx a l]. destruct y as [t' tx' a' l']. cbn [xkids xtag xtext xattrs] in *. subst t' tx' a' l'.
  apply pr_node; auto.
  assert (G : forall l2 l1 kss, l = l1 ++ l2 -> Forall2 (fun c r => val_kid rd s c = Ok r) l2 kss ->
              PrL (NoneAbove D) p (length l1) l2 (concat kss)).
  { clear kss Hk. intros l2 l1 kss El F. revert l1 El. induction F as [| c r l2 kss Hc F IHF]; intros l1 El; [apply prl_nil |].
    specialize (IHF (l1 ++ [c])). rewrite app_length in IHF. cbn [length] in IHF. rewrite Nat.add_1_r in IHF.
    specialize (IHF ltac:(rewrite El, <- app_assoc; reflexivity)).
    assert (Ec : nth_error l (length l1) = Some c).
    { rewrite El, nth_error_app2, Nat.sub_diag by lia. reflexivity. }
    assert (Ic : In c l) by (eapply nth_error_In; eauto).
    pose proof W as W'. rewrite known_iff in W'. destruct (W' c Ic) as (cs & Ecs & Wc). clear W'.
    assert (HS' : SchemaAt s0 x0 (p ++ [length l1]) cs).
    { apply (SchemaAt_snoc p s0 x0 s (length l1) c cs (Elem t tx a l)); auto. apply schema_child_Defines; auto. }
    assert (HN' : NodeAt x0 (p ++ [length l1]) c).
    { apply (NodeAt_snoc p x0 (length l1) c (Elem t tx a l)); auto. }
    apply val_kid_inv in Hc. destruct Hc as (cs' & c' & E1 & E2 & Er). rewrite Ecs in E1. injection E1 as E1. subst cs'.
    pose proof (val_drops rd c s cs c' E2 Ecs) as V.
    destruct (validate_drops rd cs c').
    - subst r. cbn [concat app]. apply prl_out; auto. intro q. apply NoneAbove_out. exists cs, c. split; auto. split; auto. apply V. auto.
    - subst r. cbn [concat app]. apply prl_in; auto. apply (IH c Ic cs); auto. apply NoneAbove_snoc; auto.
      intros (sq & n & Hq & Hn & Vn). pose proof (SchemaAt_fun _ _ _ _ _ W0 Hq HS'). pose proof (NodeAt_fun _ _ _ _ Hn HN').
      subst sq n. apply V in Vn. discriminate. }
  exact (G l [] kss eq_refl Hk).
Qed.
End VAL.

Theorem validate_spec : forall rd s x y, known s x -> validate rd s x = Ok y -> Pruned (fun p => ~ Voided rd s x p) x y.
Proof.
  intros rd s x y W H.
  apply (Pruned_iff (NoneAbove (fun p => exists sq n, SchemaAt s x p sq /\ NodeAt x p n /\ Void rd sq n))).
  - intro p. unfold NoneAbove, Voided. split.
    + intros G (q & i & sq & n & P & HS & HN & A). apply (G q i P). eauto.
    + intros G q i P (sq & n & HS & HN & A). apply G. exists q, i, sq, n. auto.
  - apply Pr_Pruned. assert (V : val_sub rd s x = Ok y \/ xkids x = [] /\ y = x).
    { unfold val_sub. destruct (xkids x) eqn:E; auto. right. split; auto. apply validate_inv in H.
      destruct H as (_ & kss & F & Ey). rewrite E in F. inversion F; subst. destruct x as [t tx a ks]. simpl in *. subst. reflexivity. }
    destruct V as [V | (V & E)].
    + apply (validate_Pr rd s x W x s [] y); auto using sa_here, na_here, NoneAbove_root.
    + subst y. destruct x as [t tx a ks]. simpl in V. subst ks. apply pr_node; [apply NoneAbove_root | apply prl_nil].
Qed.

(** *** What is left *)
Lemma val_back : forall rd s x y c', val_sub rd s x = Ok y -> In c' (xkids y) -> exists c cs, In c (xkids x) /\
  schema_child s (xtag c) = Ok cs /\ val_sub rd cs c = Ok c' /\ validate_drops rd cs c' = false /\ xtag c' = xtag c.
Proof.
  intros rd s x y c' H I. destruct (val_sub_inv _ _ _ _ H) as (kss & F & Ek & _). rewrite Ek in I.
  destruct (Forall2_concat_In _ _ _ _ F I) as (c & l & Ic & Hl & Il).
  apply val_kid_inv in Hl. destruct Hl as (cs & c1 & E1 & E2 & El). subst l.
  destruct (validate_drops rd cs c1) eqn:Ed; [destruct Il |]. destruct Il as [Il | []]. subst c1.
  exists c, cs. destruct (val_sub_parts _ _ _ _ E2) as (Et & _). auto.
Qed.

Lemma has_attr_iff : forall n x, has_attr n x = true <-> exists v, get_attr n x = Some v /\ v <> "".
Proof.
  intros n x. unfold has_attr. destruct (get_attr n x) as [v |].
  - destruct (String.eqb_spec v ""); simpl; split; try discriminate; eauto.
    + subst. intros (v & E & N). congruence.
  - split; [discriminate | intros (v & E & _); discriminate].
Qed.

Lemma validate_own_iff : forall s x, validate_own s x = true <->
  sty s = TRoot \/ ((sty s = TList -> forall k, In k (s_keys (si s)) -> HasKid k x) /\ ~ EditAttr x).
Proof.
  intros s x. assert (A : forallb (fun t => negb (has_attr t x)) [operation_tag; insert_tag; value_tag; key_tag] = true <-> ~ EditAttr x).
  { rewrite forallb_forall. split.
    - intros H (t & v & I & E & N). specialize (H t I). assert (has_attr t x = true) by (apply has_attr_iff; eauto).
      rewrite H0 in H. discriminate.
    - intros H t I. destruct (has_attr t x) eqn:E; auto. exfalso. apply H. apply has_attr_iff in E. destruct E as (v & E & N).
      exists t, v. auto. }
  assert (B : forallb (fun k => match find_kid k (xkids x) with Some _ => true | None => false end) (s_keys (si s)) = true <->
              forall k, In k (s_keys (si s)) -> HasKid k x).
  { rewrite forallb_forall. split; intros H k I; specialize (H k I).
    - destruct (find_kid k (xkids x)) as [c |] eqn:E; [| discriminate]. unfold find_kid in E. apply find_some in E.
      destruct E as (Ic & Et). apply String.eqb_eq in Et. exists c. auto.
    - destruct H as (c & Ic & Et). destruct (find_kid k (xkids x)) eqn:E; auto. unfold find_kid in E.
      pose proof (find_none _ _ E c Ic) as N. cbn beta in N. rewrite Et, String.eqb_refl in N. discriminate. }
  unfold validate_own. destruct (sty s) eqn:T; try (rewrite andb_true_l, A; intuition congruence).
  - rewrite andb_true_iff, A, B. intuition congruence.
  - intuition congruence.
Qed.

Lemma Within_known : forall s x sn n, Within s x sn n -> known s x -> known sn n.
Proof.
  intros s x sn n H. induction H as [| s x c cs s' n I Dc H IH]; auto. intro W. apply IH.
  rewrite known_iff in W. destruct (W c I) as (cs' & E & Wc). rewrite <- (Defines_schema_child _ _ _ _ E Dc) in Wc. auto.
Qed.

Lemma val_sub_known : forall rd x s y, val_sub rd s x = Ok y -> known s y.
Proof.
  intros rd x. induction x as [x IH] using xml_ind'. intros s y H. apply known_iff. intros c' I.
  destruct (val_back _ _ _ _ _ H I) as (c & cs & Ic & E1 & E2 & _ & Et). exists cs. rewrite Et. split; eauto.
Qed.

(** Every node of the result comes from a validated node. *)
Lemma Within_back : forall rd s y sn n, Within s y sn n -> forall x, val_sub rd s x = Ok y -> exists n0, Within s x sn n0 /\
  val_sub rd sn n0 = Ok n.
Proof.
  intros rd s y sn n H. induction H as [s y | s y c cs s' n I Dc H IH]; intros x V.
  - exists x. split; [constructor | auto].
  - destruct (val_back _ _ _ _ _ V I) as (c0 & cs0 & I0 & E1 & E2 & _ & Et). rewrite Et in Dc.
    pose proof (Defines_schema_child _ _ _ _ E1 Dc) as E. rewrite <- E in E2. destruct (IH c0 E2) as (n0 & W0 & V0).
    exists n0. split; auto. apply (wi_down s x c0 cs); auto.
Qed.

Lemma Below_back : forall rd s x y sn n, val_sub rd s x = Ok y -> Below s y sn n -> exists n0, Below s x sn n0 /\
  val_sub rd sn n0 = Ok n /\ validate_drops rd sn n = false /\ xtag n0 = xtag n.
Proof.
  intros rd s x y sn n V (sm & m & Wm & I & Dn). destruct (Within_back _ _ _ _ _ Wm _ V) as (m0 & W0 & V0).
  destruct (val_back _ _ _ _ _ V0 I) as (n0 & cs & I0 & E1 & E2 & E3 & Et). rewrite Et in Dn.
  pose proof (Defines_schema_child _ _ _ _ E1 Dn) as E. subst cs. exists n0. split; [| auto]. exists sm, m0. auto.
Qed.

Lemma validate_val_sub : forall rd s x y, validate rd s x = Ok y -> val_sub rd s x = Ok y.
Proof.
  intros rd s x y H. unfold val_sub. destruct (xkids x) eqn:E; auto. apply validate_inv in H.
  destruct H as (_ & kss & F & Ey). rewrite E in F. inversion F; subst. destruct x as [t tx a ks]. simpl in *. subst. reflexivity.
Qed.

Theorem validated_nodes : forall rd s x y sn n, validate rd s x = Ok y -> Below s y sn n ->
  s_status (si sn) <> "obsolete" /\ (rd = true -> s_status (si sn) <> "deprecated") /\
  (xkids n = [] -> sty sn <> TList /\ ~ (sty sn = TContainer /\ s_presence (si sn) = false)).
Proof.
  intros rd s x y sn n H B. apply validate_val_sub in H. destruct (Below_back _ _ _ _ _ _ H B) as (n0 & _ & _ & Dn & _).
  assert (N : ~ validate_drops rd sn n = true) by congruence. rewrite drops_cases in N. intuition.
Qed.

(** The checks are made on every node with children. *)
Lemma validate_checks : forall rd x s y, val_sub rd s x = Ok y -> forall sn n, Within s x sn n -> xkids n <> [] ->
  validate_own sn n = true.
Proof.
  intros rd x s y H sn n W. revert y H. induction W as [s x | s x c cs s' n I Dc W IH]; intros y H N.
  - destruct (val_sub_inv _ _ _ _ H) as (kss & _ & _ & _ & Hv). specialize (Hv N). apply validate_inv in Hv. tauto.
  - destruct (val_sub_inv _ _ _ _ H) as (kss & F & _). destruct (Forall2_concat_In' _ _ _ _ F I) as (l & Hl & _).
    apply val_kid_inv in Hl. destruct Hl as (cs' & c' & E1 & E2 & _). pose proof (Defines_schema_child _ _ _ _ E1 Dc). subst cs'.
    eauto.
Qed.

Lemma validate_total : forall rd x s, known s x -> (forall sn n, Within s x sn n -> xkids n <> [] -> validate_own sn n = true) ->
  exists y, val_sub rd s x = Ok y.
Proof.
  intros rd x. induction x as [x IH] using xml_ind'. intros s W H. unfold val_sub. destruct (xkids x) as [| c0 r0] eqn:Ek; eauto.
  rewrite validate_eq. rewrite H; [| constructor | congruence]. cbn [negb]. rewrite known_iff in W.
  assert (G : forall l, (forall c, In c l -> In c (xkids x)) -> exists kss, mapM (val_kid rd s) l = Ok kss).
  { induction l as [| c r IHr]; intro I; [simpl; eauto |]. cbn [mapM].
    destruct (W c) as (cs & E & Wc); [apply I; simpl; auto |].
    destruct (IHr ltac:(intros; apply I; simpl; auto)) as (kss & Ekss). unfold val_kid at 1. rewrite E. cbn [bind].
    destruct (IH c ltac:(rewrite <- Ek; apply I; simpl; auto) cs Wc) as (y & Ey).
    { intros sn n Wn. apply H. apply (wi_down s x c cs); auto; [apply I; simpl; auto | apply schema_child_Defines; auto]. }
    rewrite Ey. cbn [bind]. rewrite Ekss. simpl. eauto. }
  destruct (G (xkids x)) as (kss & Ekss); auto. rewrite Ekss. simpl. eauto.
Qed.

Theorem validate_accepts : forall rd s x, sty s = TRoot -> known s x ->
  ((exists y, validate rd s x = Ok y) <->
   (forall sn n, Within s x sn n -> sty sn <> TRoot -> xkids n <> [] -> Acceptable sn n)).
Proof.
  intros rd s x T W. split.
  - intros (y & H) sn n Wn Tn Nn. apply validate_val_sub in H. pose proof (validate_checks _ _ _ _ H _ _ Wn Nn) as C.
    apply validate_own_iff in C. destruct C as [C | C]; [congruence | exact C].
  - intro H. assert (O : forall sn n, Within s x sn n -> xkids n <> [] -> validate_own sn n = true).
    { intros sn n Wn Nn. apply validate_own_iff. assert (R : sty sn = TRoot \/ sty sn <> TRoot) by (destruct (sty sn); auto; right; discriminate).
      destruct R as [R | R]; auto. right. apply H; auto. }
    destruct (validate_total rd x s W O) as (y & Ey). unfold val_sub in Ey. destruct (xkids x) eqn:Ek; [| eauto].
    exists x. rewrite validate_eq. replace (validate_own s x) with true.
    + rewrite Ek. simpl. destruct x as [t tx a ks]. simpl in *. subst. reflexivity.
    + symmetry. apply validate_own_iff. auto.
Qed.

Theorem validated_inner : forall rd s x y sn n, validate rd s x = Ok y -> Below s y sn n -> sty sn <> TRoot -> xkids n <> [] ->
  ~ EditAttr n.
Proof.
  intros rd s x y sn n H B T N. pose proof H as H'. apply validate_val_sub in H.
  destruct (Below_back _ _ _ _ _ _ H B) as (n0 & B0 & V0 & _ & _).
  destruct B0 as (sm & m & Wm & I & Dn).
  assert (W0 : Within s x sn n0).
  { clear -Wm I Dn. induction Wm as [s x | s x c cs s' m Ic Dc Wm IH].
    - apply (wi_down s x n0 sn); auto. constructor.
    - apply (wi_down s x c cs); auto. }
  assert (N0 : xkids n0 <> []).
  { intro E. destruct (val_sub_inv _ _ _ _ V0) as (kss & _ & _ & Z & _). rewrite (Z E) in N. auto. }
  pose proof (validate_checks _ _ _ _ H _ _ W0 N0) as C. apply validate_own_iff in C. destruct C as [C | (_ & C)]; [congruence |].
  destruct (val_sub_parts _ _ _ _ V0) as (_ & _ & Ea). intros (t & v & It & Ev & Nv). apply C. exists t, v. split; auto. split; auto.
  unfold get_attr in *. rewrite <- Ea. auto.
Qed.

Theorem validated_keys : forall rd s x y sn n k, validate rd s x = Ok y -> Below s y sn n -> sty sn = TList -> KeysLive rd sn ->
  In k (s_keys (si sn)) -> HasKid k n.
Proof.
  intros rd s x y sn n k H B T L Ik. pose proof (validated_nodes _ _ _ _ _ _ H B) as (_ & _ & Ne). apply validate_val_sub in H.
  destruct (Below_back _ _ _ _ _ _ H B) as (n0 & B0 & V0 & _ & _).
  destruct B0 as (sm & m & Wm & I & Dn).
  assert (W0 : Within s x sn n0).
  { clear -Wm I Dn. induction Wm as [s x | s x c cs s' m Ic Dc Wm IH].
    - apply (wi_down s x n0 sn); auto. constructor.
    - apply (wi_down s x c cs); auto. }
  assert (N0 : xkids n0 <> []).
  { intro E. destruct (val_sub_inv _ _ _ _ V0) as (kss & _ & _ & Z & _). rewrite (Z E) in Ne. destruct (Ne E). congruence. }
  pose proof (validate_checks _ _ _ _ H _ _ W0 N0) as C. apply validate_own_iff in C. destruct C as [C | (C & _)]; [congruence |].
  destruct (C T k Ik) as (c & Ic & Et). destruct (val_sub_inv _ _ _ _ V0) as (kss & F & Ek & _ & _).
  destruct (Forall2_concat_In' _ _ _ _ F Ic) as (l & Hl & Hin). apply val_kid_inv in Hl. destruct Hl as (cs & c' & E1 & E2 & El).
  destruct (L k cs Ik) as (T1 & S1 & S2). { rewrite <- Et. apply schema_child_Defines; auto. }
  assert (Nd : validate_drops rd cs c' = false).
  { destruct (validate_drops rd cs c') eqn:Ed; auto. apply drops_cases in Ed. rewrite T1 in Ed.
    destruct Ed as [(_ & [Ed | (Ed & _)]) | [Ed | (Ed1 & Ed2)]]; try congruence.
    exfalso. exact (S2 Ed1 Ed2). }
  rewrite Nd in El. subst l. exists c'. split.
  - rewrite Ek. apply Hin. simpl. auto.
  - destruct (val_sub_parts _ _ _ _ E2) as (E3 & _). congruence.
Qed.
