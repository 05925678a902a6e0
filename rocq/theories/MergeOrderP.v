(** The order of entries when two trees without operations are merged. *)
From Coq Require Import String Ascii List Bool Arith ZArith Lia Permutation.
From Verif Require Import Base BaseP XmlM CalcM CalcP NetconfM ConfigM ListP DataSpec DataP DeltaSpec DeltaR NameP AddP PlainP AddStepP TrimSpec TrimP ConfigSpec TrimPropsP ConfigP EditSpec EditP EditSemP EditValP MergeP OrderEditP JoinSpec.
Import ListNotations.
Open Scope string_scope.
Open Scope list_scope.

(** ** One node *)
Lemma seqt_cons : forall t u c r, seqt t ((u, c) :: r) = if String.eqb (fst u) t then u :: seqt t r else seqt t r.
Proof. reflexivity. Qed.

Lemma plain_new_seq : forall f s t cs l u c l', add_new (node_add f) s l (u, c) = Ok l' -> schema_child s t = Ok cs ->
  sty cs = TList \/ sty cs = TLeafList -> fst u = t -> xtag c = t -> xattrs c = [] -> Tagged l -> seqt t l' = seqt t l ++ [u].
Proof.
  intros f s t cs l u c l' H HS TY U C A T. unfold add_new in H. rewrite (op_merge c A), C, HS in H. cbn [bind] in H.
  assert (P : forall e, place_new cs c (u, e) l = Ok (Some (ins_after_last (has_tag t) (u, e) l))).
  { intro e. unfold place_new. rewrite (no_attrs _ c A), C. destruct (s_user (si cs)); auto. }
  assert (Q : forall e, seqt t (ins_after_last (has_tag t) (u, e) l) = seqt t l ++ [u]).
  { intro e. apply (last_seq t (u, e) l T). unfold tagof. cbn [fst]. rewrite U. apply String.eqb_refl. }
  destruct TY as [TY | TY]; rewrite TY in H.
  - apply bind_ok in H. destruct H as (ks & _ & H). rewrite P in H. cbn [bind] in H. apply bind_ok in H. destruct H as (e & _ & H). injection H as <-.
    rewrite seqt_upd. apply Q.
  - rewrite P in H. cbn [bind] in H. injection H as <-. apply Q.
Qed.

Lemma plain_news_seq : forall f s t cs, schema_child s t = Ok cs -> sty cs = TList \/ sty cs = TLeafList -> forall ns l l',
  foldM (add_new (node_add f) s) l ns = Ok l' -> Tagged l -> (forall v y, In (v, y) ns -> fst v = xtag y /\ xattrs y = []) ->
  Tagged l' /\ seqt t l' = seqt t l ++ seqt t ns.
Proof.
  intros f s t cs HS TY. induction ns as [| [v y] r IH]; intros l l' H T A; cbn [foldM] in H.
  - injection H as <-. unfold seqt at 3. simpl. rewrite app_nil_r. auto.
  - apply bind_ok in H. destruct H as (l1 & H1 & H2). destruct (A v y (or_introl eq_refl)) as [A1 A2].
    destruct (new_keeps t f s l v y l1 H1 A1 T) as [B1 B2].
    destruct (IH l1 l' H2 B1) as [C1 C2]; [intros; apply A; right; auto |]. split; auto. rewrite C2.
    rewrite (seqt_cons t v y r). destruct (String.eqb_spec (fst v) t) as [E | E].
    + rewrite (plain_new_seq f s t cs l v y l1 H1 HS TY E); auto; [| congruence]. rewrite <- app_assoc. reflexivity.
    + rewrite !seqt_part. rewrite B2 by auto. rewrite <- !seqt_part. reflexivity.
Qed.

Lemma plain_peers_seq : forall f s t cs, schema_child s t = Ok cs -> sty cs = TList \/ sty cs = TLeafList -> forall ns l l',
  foldM (add_peer (node_add f) s) l ns = Ok l' -> Tagged l -> (forall v x y, In (v, x, y) ns -> fst v = xtag y /\ xtag x = xtag y /\ xattrs y = []) ->
  seqt t l' = seqt t l.
Proof.
  intros f s t cs HS TY. induction ns as [| [[v x] y] r IH]; intros l l' H T A; cbn [foldM] in H.
  - injection H as <-. auto.
  - apply bind_ok in H. destruct H as (l1 & H1 & H2). destruct (A v x y (or_introl eq_refl)) as (A1 & A2 & A3).
    destruct (peer_keeps t f s l v x y l1 H1 A1 A2 T) as [B1 B2]. rewrite (IH l1 l' H2 B1) by (intros; apply A; right; auto).
    destruct (String.eqb_spec (fst v) t) as [E | E].
    + unfold add_peer in H1. rewrite (op_merge y A3), A2, <- A1, E, HS in H1. cbn [bind] in H1. rewrite plain_move in H1 by auto.
      destruct TY as [TY | TY]; rewrite TY in H1; cbn [bind] in H1.
      * apply bind_ok in H1. destruct H1 as (e & _ & H1). injection H1 as <-. apply seqt_upd.
      * injection H1 as <-. auto.
    + rewrite !seqt_part. rewrite B2 by auto. reflexivity.
Qed.

Lemma seqt_only : forall t ld lx, seqt t (only_in ld lx) = filter (fun v => negb (existsb (uid_eqb v) (seqt t lx))) (seqt t ld).
Proof.
  intros t ld lx. unfold only_in. induction ld as [| [u c] r IH]; auto. cbn [filter fst]. rewrite seqt_cons.
  assert (E : fst u = t -> mem uid_eqb u (uids lx) = existsb (uid_eqb u) (seqt t lx)).
  { intro F. apply eq_true_iff_eq. rewrite (mem_In uid_eqb uid_eqb_ok), existsb_exists. split.
    - intro I. exists u. split; [apply CalcP.seqt_In; auto | apply uid_eqb_refl].
    - intros (v & I & Q). apply uid_eqb_ok in Q. subst v. apply CalcP.seqt_In in I. tauto. }
  destruct (String.eqb (fst u) t) eqn:F.
  - cbn [filter]. rewrite <- E by (apply String.eqb_eq; auto). destruct (mem uid_eqb u (uids lx)); cbn [negb]; auto.
    rewrite seqt_cons, F, IH. auto.
  - destruct (mem uid_eqb u (uids lx)); cbn [negb]; auto. rewrite seqt_cons, F. auto.
Qed.

Theorem merge_step : forall f s x d r, wfs s = true -> validk s x -> validk s d -> edit_ok s d = true -> node_add (S f) s x d = Ok r ->
  exists lx ld lr, Index s (xkids x) lx /\ Index s (xkids d) ld /\ Index s (xkids r) lr /\
    (forall t cs, schema_child s t = Ok cs -> sty cs = TList \/ sty cs = TLeafList -> seqt t lr = joined (seqt t lx) (seqt t ld)) /\
    forall u, match assoc uid_eqb u lx, assoc uid_eqb u ld with
              | None, None => assoc uid_eqb u lr = None
              | Some c, None => assoc uid_eqb u lr = Some c
              | None, Some cd => NewRes (node_add f) s cd (assoc uid_eqb u lr)
              | Some cx, Some cd => PeerRes (node_add f) s cx cd (assoc uid_eqb u lr)
              end.
Proof.
  intros f s x d r W VX VD O H. destruct (step_indexes f s x d r H W O) as (lx & ld & lr & Ix & Id & Ir & E & (l1 & H1 & H2) & HA).
  exists lx, ld, lr. repeat (split; auto). intros t cs HS TY. destruct VD as (_ & KD).
  assert (AT : forall v y, In (v, y) ld -> fst v = xtag y /\ xattrs y = []).
  { intros v y I. split; [apply (Index_tag s (xkids d) ld); auto |]. destruct (KD y (Index_kid s _ ld v y Id I)) as (cy & _ & V). apply (valid_inv cy y V). }
  destruct (plain_news_seq f s t cs HS TY (only_in ld lx) lx l1 H1 (Index_Tagged s _ lx Ix)) as [T1 S1].
  { intros v y I. apply only_in_In in I. apply AT. tauto. }
  rewrite (plain_peers_seq f s t cs HS TY (both_in lx ld) l1 lr H2 T1).
  - rewrite S1, seqt_only. reflexivity.
  - intros v a y I. apply both_in_In in I. destruct I as [I J]. apply (Index_assoc s (xkids d) ld v y Id) in J.
    destruct (AT v y J) as [A1 A2]. assert (B := Index_tag s (xkids x) lx v a Ix I). repeat split; auto; congruence.
Qed.

(** ** Paths *)
Lemma UserOrder_cons : forall s x u p t us, UserOrder s x (u :: p) t us <-> exists cs c, Child s x u cs c /\ UserOrder cs c p t us.
Proof.
  intros s x u p t us. split.
  - intros (s' & n & k & A & R). inversion A; subst. exists cs, c. split; [split; auto |]. exists s', n, k. auto.
  - intros (cs & c & (C1 & C2 & C3) & (s' & n & k & A & R)). exists s', n, k. split; auto. econstructor; eauto.
Qed.

Lemma Present_cons : forall s x u p, Present s x (u :: p) <-> exists cs c, Child s x u cs c /\ Present cs c p.
Proof.
  intros s x u p. split.
  - intros (s' & n & A). inversion A; subst. exists cs, c. split; [split; auto |]. exists s', n. auto.
  - intros (cs & c & (C1 & C2 & C3) & (s' & n & A)). exists s', n. econstructor; eauto.
Qed.

Lemma Index_Order_fun : forall s l es t us, Index s l es -> Order s t l us -> us = seqt t es.
Proof.
  intros s l es t us (E & F & _). subst l. revert us. induction F as [| [u c] r H F IH]; intros us O; [inversion O; auto |].
  cbn [map snd fst] in *. assert (T := uid_tag s c u H). unfold seqt, uids. cbn [map filter fst]. rewrite T. fold (uids r). fold (seqt t r).
  inversion O as [| ? cs v ? us' E1 D I O' | ? ? ? N O']; subst.
  - rewrite String.eqb_refl. f_equal; [| apply IH; auto]. destruct (uid_schema s c u H) as (cs' & HS).
    assert (cs = cs') by (apply (Defines_schema_child s (xtag c)); auto). subst cs'. symmetry. apply (uid_Ident s c cs); auto.
  - rewrite (proj2 (String.eqb_neq (xtag c) t) N). apply IH; auto.
Qed.

Lemma UserOrder_nil : forall s x l t us, Index s (xkids x) l ->
  (UserOrder s x [] t us <-> us = seqt t l /\ exists cs, Defines s t cs /\ s_user (si cs) = true /\ (sty cs = TLeafList \/ sty cs = TList)).
Proof.
  intros s x l t us I. split.
  - intros (s' & n & cs & A & D & U & T & O). inversion A; subst. split; [apply (Index_Order_fun s' (xkids n)); auto | exists cs; auto].
  - intros (-> & cs & D & U & T). exists s, x, cs. split; [constructor |]. repeat (split; auto). apply Index_Order. auto.
Qed.

Lemma Present_nil : forall s x, Present s x [].
Proof. intros. exists s, x. constructor. Qed.

Lemma UserOrder_Present : forall s x p t us, UserOrder s x p t us -> Present s x p.
Proof. intros s x p t us (s' & n & cs & A & _). exists s', n. auto. Qed.

Lemma Joined_down : forall s x d lx ld u cs cx cd p t ws, Index s (xkids x) lx -> Index s (xkids d) ld -> Child s x u cs cx -> Child s d u cs cd ->
  (JoinedAt s x d (u :: p) t ws <-> JoinedAt cs cx cd p t ws).
Proof.
  intros s x d lx ld u cs cx cd p t ws Ix Id Cx Cd.
  assert (X : forall us, UserOrder s x (u :: p) t us <-> UserOrder cs cx p t us).
  { intro us. rewrite UserOrder_cons. split; [| eauto]. intros (cs' & c' & C & H). destruct (Child_fun s x lx u cs cx cs' c' Ix Cx C). subst. auto. }
  assert (Y : forall us, UserOrder s d (u :: p) t us <-> UserOrder cs cd p t us).
  { intro us. rewrite UserOrder_cons. split; [| eauto]. intros (cs' & c' & C & H). destruct (Child_fun s d ld u cs cd cs' c' Id Cd C). subst. auto. }
  assert (PX : Present s x (u :: p) <-> Present cs cx p).
  { rewrite Present_cons. split; [| eauto]. intros (cs' & c' & C & H). destruct (Child_fun s x lx u cs cx cs' c' Ix Cx C). subst. auto. }
  assert (PY : Present s d (u :: p) <-> Present cs cd p).
  { rewrite Present_cons. split; [| eauto]. intros (cs' & c' & C & H). destruct (Child_fun s d ld u cs cd cs' c' Id Cd C). subst. auto. }
  unfold JoinedAt. rewrite X, Y, PX, PY. split; (intros [(us & vs & H1 & H2 & H3) | H]; [left; exists us, vs | right; exact H]).
  - rewrite <- X, <- Y. auto.
  - rewrite X, Y. auto.
Qed.

Lemma Joined_old : forall s x d u p t ws, NoChild s d u -> (JoinedAt s x d (u :: p) t ws <-> UserOrder s x (u :: p) t ws).
Proof.
  intros s x d u p t ws N. assert (NP : ~ Present s d (u :: p)) by (rewrite Present_cons; intros (cs & c & C & _); apply (N cs c C)).
  split.
  - intros [(us & vs & _ & H & _) | [[H _] | [H _]]]; auto; exfalso; apply NP; eapply UserOrder_Present; eauto.
  - intro H. right. left. auto.
Qed.

Lemma Joined_new : forall s x d u p t ws, NoChild s x u -> (JoinedAt s x d (u :: p) t ws <-> UserOrder s d (u :: p) t ws).
Proof.
  intros s x d u p t ws N. assert (NP : ~ Present s x (u :: p)) by (rewrite Present_cons; intros (cs & c & C & _); apply (N cs c C)).
  split.
  - intros [(us & vs & H & _) | [[H _] | [H _]]]; auto; exfalso; apply NP; eapply UserOrder_Present; eauto.
  - intro H. right. right. auto.
Qed.

Lemma leaf_UserOrder : forall cs c c' p t us, xkids c = [] -> xkids c' = [] -> UserOrder cs c p t us -> UserOrder cs c' p t us.
Proof.
  intros cs c c' p t us K K' (s' & n & k & A & D & U & T & O). inversion A as [| ? ? x ? ? ? ? ? I]; subst.
  - exists s', c', k. rewrite K in O. rewrite K'. split; [constructor | auto].
  - rewrite K in I. destruct I.
Qed.

Lemma joined_same : forall us, joined us us = us.
Proof.
  intro us. unfold joined. transitivity (us ++ []); [f_equal | apply app_nil_r].
  assert (G : forall l, (forall v, In v l -> In v us) -> filter (fun v => negb (existsb (uid_eqb v) us)) l = []).
  { induction l as [| v r IH]; intro H; auto. cbn [filter]. assert (E : existsb (uid_eqb v) us = true).
    { apply existsb_exists. exists v. split; [apply H; left; auto | apply uid_eqb_refl]. }
    rewrite E. apply IH. intros w I. apply H. right. auto. }
  apply G. auto.
Qed.

Lemma leaf_Joined : forall cs x d c p t ws, xkids x = [] -> xkids d = [] -> xkids c = [] -> (JoinedAt cs x d p t ws <-> UserOrder cs c p t ws).
Proof.
  intros cs x d c p t ws K1 K2 K3. split.
  - intros [(us & vs & H1 & H2 & E) | [[H _] | [H _]]]; eauto using leaf_UserOrder.
    assert (U : forall y l, xkids y = [] -> UserOrder cs y p t l -> l = []).
    { intros y l K (s' & n & k & A & D & U & T & O). inversion A as [| ? ? z ? ? ? ? ? I]; subst; [rewrite K in O; inversion O; auto | rewrite K in I; destruct I]. }
    rewrite (U x us K1 H1), (U d vs K2 H2) in E. subst ws. rewrite (U x us K1 H1) in H1. eauto using leaf_UserOrder.
  - intro H. left. exists ws, ws. split; [eauto using leaf_UserOrder |]. split; [eauto using leaf_UserOrder | symmetry; apply joined_same].
Qed.

Lemma seqt_schema : forall s l es t v, Index s l es -> In v (seqt t es) -> exists cs, schema_child s t = Ok cs.
Proof.
  intros s l es t v I J. apply CalcP.seqt_In in J. destruct J as [J F]. unfold uids in J. apply in_map_iff in J. destruct J as ([v' c] & E' & J).
  cbn [fst] in E'. subst v'. assert (U := Index_uid s _ es v c I J). destruct (uid_schema s c v U) as (k & K).
  rewrite <- (Index_tag s _ es v c I J), F in K. eauto.
Qed.

Lemma none : forall {A} (l : list A), (forall v, ~ In v l) -> l = [].
Proof. intros A [| v r] H; auto. exfalso. apply (H v). left. auto. Qed.

Lemma joined_nil : forall vs, joined [] vs = vs.
Proof. intro vs. unfold joined. simpl. induction vs; simpl; congruence. Qed.

Lemma Joined_within : forall s x d lx ld p t ws, Index s (xkids x) lx -> Index s (xkids d) ld ->
  (forall t cs, schema_child s t = Ok cs -> sty cs = TList \/ sty cs = TLeafList -> seqt t lx = []) ->
  (forall u c, assoc uid_eqb u lx = Some c -> assoc uid_eqb u ld = Some c /\ xkids c = []) ->
  (JoinedAt s x d p t ws <-> UserOrder s d p t ws).
Proof.
  intros s x d lx ld p t ws Ix Id N Sb. destruct p as [| u p].
  - assert (L : forall cs, Defines s t cs -> sty cs = TLeafList \/ sty cs = TList -> seqt t lx = []).
    { intros cs D T. apply none. intros v J. destruct (seqt_schema s _ lx t v Ix J) as (k & K).
      assert (cs = k) by (apply (Defines_schema_child s t); auto). subst k. rewrite (N t cs K) in J by tauto. destruct J. }
    unfold JoinedAt. rewrite (UserOrder_nil s d ld t ws Id). split.
    + intros [(us & vs & H1 & H2 & E) | [[H1 H2] | [H1 H2]]]; [| exfalso; apply H2; apply Present_nil | exfalso; apply H2; apply Present_nil].
      apply (UserOrder_nil s x lx t us Ix) in H1. apply (UserOrder_nil s d ld t vs Id) in H2. destruct H1 as (E1 & cs & D & _ & T). destruct H2 as (E2 & R).
      split; auto. subst. rewrite (L cs D T). apply joined_nil.
    + intros [E (cs & D & U & T)]. left. exists (seqt t lx), (seqt t ld).
      split; [apply (UserOrder_nil s x lx t _ Ix); eauto |]. split; [apply (UserOrder_nil s d ld t _ Id); eauto |]. subst ws.
      rewrite (L cs D T). symmetry. apply joined_nil.
  - destruct (assoc uid_eqb u lx) as [c |] eqn:A.
    + destruct (Sb u c A) as [B NK]. destruct (uid_schema s c u) as (cs & K). { apply (Index_uid s _ lx u c Ix). apply (Index_assoc s _ lx u c Ix). auto. }
      assert (Cx : Child s x u cs c) by (apply (Child_assoc s x lx); auto). assert (Cd : Child s d u cs c) by (apply (Child_assoc s d ld); auto).
      rewrite (Joined_down s x d lx ld u cs c c p t ws Ix Id Cx Cd). rewrite UserOrder_cons.
      rewrite (leaf_Joined cs c c c p t ws) by auto. split; [eauto |]. intros (cs' & c' & C' & H). destruct (Child_fun s d ld u cs c cs' c' Id Cd C'). subst. auto.
    + apply Joined_new. apply (NoChild_assoc s x lx u Ix). auto.
Qed.

(** A new entry begins with its keys. *)
Lemma keys_within : forall cs cd ks tg p t ws, wfs cs = true -> sty cs = TList -> valid cs cd = true -> key_copies cs cd = Ok ks ->
  (JoinedAt cs (Elem tg None [] ks) cd p t ws <-> UserOrder cs cd p t ws).
Proof.
  intros cs cd ks tg p t ws W T V K. destruct (key_copies_validk cs cd ks tg None [] W T V K) as ((lx & Ix) & KX). cbn [xkids] in Ix, KX.
  destruct (valid_inv cs cd V) as (_ & (ld & Id) & KV). destruct (wfs_keys cs W T) as (_ & WK).
  assert (G : forall y, In y ks -> In y (xkids cd) /\ exists kc, schema_child cs (xtag y) = Ok kc /\ sty kc = TLeaf /\ valid kc y = true).
  { intros y Hy. destruct (key_copies_In cs cd ks y K Hy) as (k & kn & H1 & H2 & E). apply find_tagged in H2. destruct H2 as [H2 H3].
    destruct (KV kn H2) as (cs' & HS & Vk). rewrite (valid_plain kn cs' Vk) in E. subst y. split; auto.
    destruct (WK k H1) as (_ & kc & Sk & Tk & _). exists kc. subst k. rewrite HS in Sk. injection Sk as <-. auto. }
  apply (Joined_within cs _ cd lx ld p t ws); auto.
  - intros t0 c0 HS TY. apply none. intros v J. apply CalcP.seqt_In in J. destruct J as [J F]. unfold uids in J. apply in_map_iff in J.
    destruct J as ([v' c] & E' & J). cbn [fst] in E'. subst v'. assert (TG := Index_tag cs _ lx v c Ix J). assert (KI := Index_kid cs _ lx v c Ix J).
    destruct (G c KI) as (_ & kc & S1 & T1 & _). rewrite <- TG, F in S1. destruct TY; congruence.
  - intros u c A. apply (Index_assoc cs _ lx u c Ix) in A. destruct (G c (Index_kid cs _ lx u c Ix A)) as (I1 & kc & S1 & T1 & V1). split.
    + apply (Index_assoc cs _ ld u c Id). destruct (Index_In cs _ ld c Id I1) as (v & J). assert (U1 := Index_uid cs _ ld v c Id J).
      assert (U2 := Index_uid cs _ lx u c Ix A). congruence.
    + apply (leafish_kids kc c V1). rewrite T1. auto.
Qed.

Lemma nil_within : forall cs cd tg p t ws, valid cs cd = true -> (JoinedAt cs (Elem tg None [] []) cd p t ws <-> UserOrder cs cd p t ws).
Proof.
  intros cs cd tg p t ws V. destruct (valid_inv cs cd V) as (_ & (ld & Id) & _).
  apply (Joined_within cs _ cd [] ld p t ws); auto; [apply Index_nil | intros; discriminate].
Qed.

Theorem merge_orders : forall p f s x d r t ws, wfs s = true -> validk s x -> validk s d -> edit_ok s d = true -> node_add f s x d = Ok r ->
  (UserOrder s r p t ws <-> JoinedAt s x d p t ws).
Proof.
  induction p as [| u p IH]; intros f s x d r t ws W VX VD O H; (destruct f as [| f]; [discriminate |]);
    destruct (merge_step f s x d r W VX VD O H) as (lx & ld & lr & Ix & Id & Ir & SQ & HA).
  - rewrite (UserOrder_nil s r lr t ws Ir).
    assert (SJ : forall cs, Defines s t cs -> sty cs = TLeafList \/ sty cs = TList -> seqt t lr = joined (seqt t lx) (seqt t ld)).
    { intros cs D T. destruct (schema_child s t) as [k |] eqn:K.
      - assert (cs = k) by (apply (Defines_schema_child s t); auto). subst k. apply (SQ t cs K). tauto.
      - assert (Z : forall l es, Index s l es -> seqt t es = []) by (intros l es I; apply none; intros v J; destruct (seqt_schema s l es t v I J); congruence).
        rewrite (Z _ lx Ix), (Z _ ld Id), (Z _ lr Ir). reflexivity. }
    split.
    + intros [E (cs & D & U & T)]. left. exists (seqt t lx), (seqt t ld). split; [apply (UserOrder_nil s x lx); eauto |]. split; [apply (UserOrder_nil s d ld); eauto |].
      rewrite E. apply (SJ cs); auto.
    + intros [(us & vs & H1 & H2 & E) | [[_ H1] | [_ H1]]]; [| exfalso; apply H1; apply Present_nil | exfalso; apply H1; apply Present_nil].
      apply (UserOrder_nil s x lx t us Ix) in H1. apply (UserOrder_nil s d ld t vs Id) in H2. destruct H1 as (E1 & cs & D & U & T). destruct H2 as (E2 & _).
      split; [| eauto]. subst. symmetry. apply (SJ cs); auto.
  - destruct VX as (_ & KX). destruct VD as (_ & KD). destruct (edit_ok_inv s d O) as (_ & OK). specialize (HA u).
    assert (AT : forall y l c, Index s (xkids y) l -> assoc uid_eqb u l = Some c -> In c (xkids y) /\ fst u = xtag c).
    { intros y l c I A. apply (Index_assoc s _ l u c I) in A. split; [apply (Index_kid s _ l u c I A) | apply (Index_tag s _ l u c I A)]. }
    assert (RC : forall cs e, assoc uid_eqb u lr = Some e -> schema_child s (xtag e) = Ok cs -> (UserOrder s r (u :: p) t ws <-> UserOrder cs e p t ws)).
    { intros cs e A HS. assert (C : Child s r u cs e) by (apply (Child_assoc s r lr); auto). rewrite UserOrder_cons. split; [| eauto].
      intros (cs' & c' & C' & X). destruct (Child_fun s r lr u cs e cs' c' Ir C C'). subst. auto. }
    assert (XC : forall cs e, assoc uid_eqb u lx = Some e -> schema_child s (xtag e) = Ok cs -> (UserOrder s x (u :: p) t ws <-> UserOrder cs e p t ws)).
    { intros cs e A HS. assert (C : Child s x u cs e) by (apply (Child_assoc s x lx); auto). rewrite UserOrder_cons. split; [| eauto].
      intros (cs' & c' & C' & X). destruct (Child_fun s x lx u cs e cs' c' Ix C C'). subst. auto. }
    assert (DC : forall cs e, assoc uid_eqb u ld = Some e -> schema_child s (xtag e) = Ok cs -> (UserOrder s d (u :: p) t ws <-> UserOrder cs e p t ws)).
    { intros cs e A HS. assert (C : Child s d u cs e) by (apply (Child_assoc s d ld); auto). rewrite UserOrder_cons. split; [| eauto].
      intros (cs' & c' & C' & X). destruct (Child_fun s d ld u cs e cs' c' Id C C'). subst. auto. }
    assert (PL : forall cd, assoc uid_eqb u ld = Some cd -> op_of cd = OpMerge /\ xattrs cd = [] /\ exists cs, schema_child s (xtag cd) = Ok cs /\ valid cs cd = true /\
                 wfs cs = true /\ edit_ok cs cd = true /\ (Leafy cs \/ Inner cs) /\ bad_insert cs cd = false).
    { intros cd A. destruct (AT d ld cd Id A) as [Hin _]. destruct (KD cd Hin) as (cs & HS & Vc).
      destruct (valid_inv cs cd Vc) as (AA & _). split; [apply op_merge; auto |]. split; auto. exists cs. assert (Wc := wfs_child s _ cs W HS).
      destruct (OK cd Hin) as (cs' & S' & Ty & _ & _ & Ik & Oc). assert (cs' = cs) by congruence. subst cs'.
      repeat (split; auto). unfold bad_insert. rewrite Ik. apply andb_false_r. }
    destruct (assoc uid_eqb u lx) as [cx |] eqn:B1; destruct (assoc uid_eqb u ld) as [cd |] eqn:B2.
    + destruct (PL cd eq_refl) as (Op & AA & cs & HS & Vc & Wc & Oc & Ty & BI). destruct (AT x lx cx Ix B1) as (N1 & T1).
      destruct (AT d ld cd Id B2) as (N2 & T2). assert (Sx : schema_child s (xtag cx) = Ok cs) by congruence.
      destruct (KX cx N1) as (cs' & S' & Vx). assert (cs' = cs) by congruence. subst cs'.
      assert (Cx : Child s x u cs cx) by (apply (Child_assoc s x lx); auto). assert (Cd : Child s d u cs cd) by (apply (Child_assoc s d ld); auto).
      rewrite (Joined_down s x d lx ld u cs cx cd p t ws Ix Id Cx Cd).
      assert (LK : Leafy cs -> xkids cx = [] /\ xkids cd = []).
      { intro L. split; [apply (leafish_kids cs cx Vx) | apply (leafish_kids cs cd Vc)]; destruct L as [L | L]; rewrite L; auto. }
      inversion HA as [c0 ? ? ? EE | c0 ? ? ? EE | c0 ? ? ? EE | c0 ? ? ? EE | c0 e ? I ? R ? EE | c0 e ? NPC ? R EK EE | c0 ? ? ? ? ? EE];
        (assert (c0 = cs) by congruence; subst c0); try (exfalso; intuition congruence).
      * destruct LK as [L1 L2]; [left; auto |]. rewrite (RC cs (set_text (xtext cd) cx)); auto; [| rewrite set_text_tag; auto].
        symmetry. apply leaf_Joined; auto. destruct cx; auto.
      * destruct LK as [L1 L2]; [right; auto |]. rewrite (RC cs cx); auto. symmetry. apply leaf_Joined; auto.
      * rewrite (RC cs e); auto; [| rewrite (add_tag _ _ _ _ _ R); auto]. apply (IH f cs cx cd e t ws); auto; apply valid_validk; auto.
      * exfalso. destruct (merge_validk f cs cx cd e Wc (valid_validk _ _ Vx) (valid_validk _ _ Vc) Oc R) as (_ & _ & _ & Q4).
        apply Q4; auto. apply (np_kids cs cd Vc NPC).
      * exfalso. destruct Ty as [[T | T] | [T | T]]; congruence.
    + destruct (AT x lx cx Ix B1) as (N1 & T1). destruct (KX cx N1) as (cs & HS & Vx).
      rewrite Joined_old by (apply (NoChild_assoc s d ld); auto). rewrite (RC cs cx), (XC cs cx); auto. tauto.
    + destruct (PL cd eq_refl) as (Op & AA & cs & HS & Vc & Wc & Oc & Ty & BI). destruct (AT d ld cd Id B2) as (N2 & T2).
      rewrite Joined_new by (apply (NoChild_assoc s x lx); auto). rewrite (DC cs cd); auto.
      assert (DV : Some (del_attrib cd) = assoc uid_eqb u lr -> (UserOrder s r (u :: p) t ws <-> UserOrder cs cd p t ws)).
      { intro EE. rewrite (valid_plain cd cs Vc) in EE. apply RC; auto. }
      inversion HA as [? EE | c0 ? ? ? EE | c0 ? ? ? EE | c0 ? ? ? ? EE | c0 e ? T ? R EE | c0 ks e ? T ? KC R BI' EE | c0 ? BI' ? ? ? EE | c0 ? ? ? ? ? EE ];
        try (assert (c0 = cs) by congruence; subst c0); try (exfalso; intuition congruence); try (apply DV; auto; fail).
      * rewrite (RC cs e); auto; [| rewrite (add_tag _ _ _ _ _ R); auto].
        rewrite (IH f cs _ cd e t ws Wc (validk_nil _ _ _ _) (valid_validk _ _ Vc) Oc R). apply nil_within. auto.
      * rewrite (RC cs e); auto; [| rewrite (add_tag _ _ _ _ _ R); auto].
        rewrite (IH f cs _ cd e t ws Wc (key_copies_validk cs cd ks _ _ _ Wc T Vc KC) (valid_validk _ _ Vc) Oc R). apply (keys_within cs cd ks); auto.
      * exfalso. destruct Ty as [[T | T] | [T | T]]; congruence.
    + assert (NR : NoChild s r u) by (apply (NoChild_assoc s r lr); auto). rewrite Joined_old by (apply (NoChild_assoc s d ld); auto).
      assert (NX : NoChild s x u) by (apply (NoChild_assoc s x lx); auto). rewrite !UserOrder_cons.
      split; intros (cs & c & C & _); exfalso; [apply (NR cs c C) | apply (NX cs c C)].
Qed.
