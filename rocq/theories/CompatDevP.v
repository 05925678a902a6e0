(** Proofs about CompatM.v. *)
From Coq Require Import String Ascii List Bool Arith Permutation Lia.
From Verif Require Import Base BaseP XmlM CalcM CalcP DataSpec DataP TagM MDiffM MDiffSpec MDiffP DepictM DepictP DeviceM DeviceSpec DeviceP
  CompatM CompatSpec.
Import ListNotations.
Open Scope string_scope.
Open Scope list_scope.

(** ** Sets of names *)
Lemma put_In : forall s l x, In x (put s l) <-> x = s \/ In x l.
Proof.
  intros s l x. induction l as [| y l IH]; cbn [put].
  - cbn. intuition congruence.
  - destruct (String.eqb_spec s y) as [-> |]; [cbn; intuition congruence |].
    destruct (String.leb s y); cbn [In]; [| rewrite IH]; intuition congruence.
Qed.
Lemma sorted_set_In : forall l x, In x (sorted_set l) <-> In x l.
Proof.
  intros l x. unfold sorted_set.
  assert (G : forall a, In x (fold_left (fun a s => put s a) l a) <-> In x a \/ In x l).
  { induction l as [| s l IH]; intro a; cbn [fold_left]; [cbn; tauto |]. rewrite IH, put_In. cbn [In]. intuition congruence. }
  rewrite G. cbn. tauto.
Qed.
Lemma each_ok : forall {A} (f : A -> res unit) l, foldM (fun _ m => f m) tt l = Ok tt <-> forall m, In m l -> f m = Ok tt.
Proof.
  intros A f l. induction l as [| a l IH]; cbn [foldM]; [split; [intros _ m [] | reflexivity] |].
  rewrite bind_ok. split.
  - intros ([] & H1 & H2) m [<- | I]; auto. apply IH; auto.
  - intros H. exists tt. split; [apply H; left; reflexivity |]. apply IH. intros m I. apply H. right. exact I.
Qed.

(** ** Roots *)
Lemma dset_look : forall (l : list (string * string)) k v k', assoc String.eqb k' (dset String.eqb k v l) = if String.eqb k' k then Some v else assoc String.eqb k' l.
Proof. intros. apply dset_assoc. Qed.
Lemma roots_one : forall (n : string) ks (acc : list (string * string)) r, assoc String.eqb r (fold_left (fun a c => dset String.eqb (xtag c) n a) ks acc) =
  if existsb (fun c => String.eqb (xtag c) r) ks then Some n else assoc String.eqb r acc.
Proof.
  intros n ks. induction ks as [| c ks IH]; intros acc r; cbn [fold_left existsb]; [reflexivity |].
  rewrite IH, dset_look. rewrite (String.eqb_sym r (xtag c)). destruct (existsb _ ks); [rewrite orb_true_r; reflexivity |].
  rewrite orb_false_r. reflexivity.
Qed.
Definition has (r : string) (t : xml) : Prop := exists k, In k (xkids t) /\ xtag k = r.
Lemma has_b : forall r t, existsb (fun c => String.eqb (xtag c) r) (xkids t) = true <-> has r t.
Proof.
  intros r t. rewrite existsb_exists. unfold has. split; intros (k & I & E); exists k; split; auto; apply String.eqb_eq; auto.
Qed.
Lemma v_roots_some : forall d r n, assoc String.eqb r (v_roots d) = Some n -> exists t, Loads d n t /\ has r t.
Proof.
  intros d r n. unfold v_roots, Loads.
  assert (G : forall l acc, assoc String.eqb r (fold_left (fun acc '(n, t) => fold_left (fun a c => dset String.eqb (xtag c) n a) (xkids t) acc) l acc) = Some n ->
    assoc String.eqb r acc = Some n \/ exists t, In (n, t) l /\ has r t).
  { induction l as [| (n', t') l IH]; intros acc H; cbn [fold_left] in H; [auto |]. apply IH in H. destruct H as [H | (t & I & Ht)].
    - rewrite roots_one in H. destruct (existsb _ (xkids t')) eqn:E; [| auto]. injection H as ->. right. exists t'. split; [left; reflexivity |].
      apply has_b. exact E.
    - right. exists t. split; [right |]; auto. }
  intro H. apply G in H. destruct H as [H | H]; [discriminate | exact H].
Qed.
Lemma v_roots_none : forall d r n t, Loads d n t -> has r t -> assoc String.eqb r (v_roots d) <> None.
Proof.
  intros d r n t I Ht. unfold v_roots.
  assert (G : forall l acc, (In (n, t) l \/ assoc String.eqb r acc <> None) ->
    assoc String.eqb r (fold_left (fun acc '(n, t) => fold_left (fun a c => dset String.eqb (xtag c) n a) (xkids t) acc) l acc) <> None).
  { induction l as [| (n', t') l IH]; intros acc H; cbn [fold_left]; [destruct H as [[] | H]; exact H |]. apply IH.
    rewrite roots_one. destruct H as [[H | H] | H]; [| left; exact H |].
    - injection H as -> ->. right. apply has_b in Ht. rewrite Ht. discriminate.
    - right. destruct (existsb _ (xkids t')); [discriminate | exact H]. }
  apply G. left. exact I.
Qed.
Lemma v_roots_fine : forall d r n t, Fine d -> Loads d n t -> has r t -> assoc String.eqb r (v_roots d) = Some n.
Proof.
  intros d r n t (N & O) I Ht. destruct (assoc String.eqb r (v_roots d)) as [n' |] eqn:E; [| exfalso; exact (v_roots_none d r n t I Ht E)].
  apply v_roots_some in E. destruct E as (t' & I' & Ht'). f_equal. apply (O n' t' n t r I' I); left; assumption.
Qed.

Lemma cfg_roots_ok : forall c l, cfg_roots c = Ok l ->
  (forall r, In r (c_tops c) -> exists n, assoc String.eqb r (v_roots (c_dev c)) = Some n) /\
  forall n, In n (map snd l) <-> exists r, In r (c_tops c) /\ assoc String.eqb r (v_roots (c_dev c)) = Some n.
Proof.
  intros c l. unfold cfg_roots. generalize (c_tops c) as tops. intros tops H.
  assert (G : forall tops acc l, (forall r n, In (r, n) acc -> assoc String.eqb r (v_roots (c_dev c)) = Some n) ->
    foldM (fun acc t => match assoc String.eqb t (v_roots (c_dev c)) with
      | Some n => Ok (dset String.eqb t n acc)
      | None => match re_brace t with
          | None => Err ConfigError
          | Some (u, _) => let! T := v_namespaces (c_dev c) in if existsb (fun e => String.eqb (e_url e) u) T then Err ModelMissing else Err ConfigError
          end end) acc tops = Ok l ->
    (forall r, In r tops -> exists n, assoc String.eqb r (v_roots (c_dev c)) = Some n) /\
    forall r n, In (r, n) l <-> In (r, n) acc \/ In r tops /\ assoc String.eqb r (v_roots (c_dev c)) = Some n).
  { induction tops0 as [| t tops0 IH]; intros acc l0 A E.
    - injection E as <-. split; [intros r [] |]. cbn. intuition.
    - cbn [foldM] in E. apply bind_ok in E. destruct E as (acc' & E1 & E2).
      destruct (assoc String.eqb t (v_roots (c_dev c))) as [m |] eqn:Em.
      2: { destruct (re_brace t) as [(u, w) |]; [| discriminate]. destruct (v_namespaces (c_dev c)); [| discriminate]. cbn [bind] in E1.
           destruct (existsb _ a); discriminate. }
      assert (Ea : acc' = dset String.eqb t m acc) by congruence. subst acc'.
      assert (D : forall r n, In (r, n) (dset String.eqb t m acc) <-> In (r, n) acc \/ r = t /\ n = m).
      { clear - A Em. intros r n. induction acc as [| (a, b) acc IH]; cbn [dset].
        - cbn. intuition congruence.
        - destruct (String.eqb_spec t a) as [<- |].
          + assert (b = m) by (assert (X := A t b (or_introl eq_refl)); congruence). subst b. cbn [In]. intuition congruence.
          + cbn [In]. rewrite IH by (intros; apply A; right; assumption). intuition congruence. }
      destruct (IH (dset String.eqb t m acc) l0) as (G1 & G2).
      { intros r n I. apply D in I. destruct I as [I | (-> & ->)]; auto. }
      { exact E2. }
      split.
      + intros r [<- | I]; eauto.
      + intros r n. rewrite G2, D. cbn [In]. split.
        * intros [[I | (-> & ->)] | (I & E)]; auto.
        * intros [I | ([<- | I] & E)]; auto. left. right. split; congruence. }
  destruct (G tops [] l) as (G1 & G2); [intros r n [] | exact H |]. split; [exact G1 |].
  intro n. rewrite in_map_iff. split.
  - intros ((r, n') & E & I). cbn in E. subst n'. apply G2 in I. destruct I as [[] | I]. eauto.
  - intros (r & I & E). exists (r, n). split; [reflexivity |]. apply G2. auto.
Qed.
Lemma cfg_models_ok : forall c l, cfg_models c = Ok l ->
  (forall r, In r (c_tops c) -> exists n, assoc String.eqb r (v_roots (c_dev c)) = Some n) /\
  forall n, In n l <-> exists r, In r (c_tops c) /\ assoc String.eqb r (v_roots (c_dev c)) = Some n.
Proof.
  intros c l H. unfold cfg_models in H. apply bind_ok in H. destruct H as (r & Hr & H). injection H as <-.
  destruct (cfg_roots_ok c r Hr) as (G1 & G2). split; auto. intro n. rewrite sorted_set_In. apply G2.
Qed.
Lemma cfg_models_total : forall c, (forall r, In r (c_tops c) -> exists n t, Loads (c_dev c) n t /\ has r t) -> exists l, cfg_models c = Ok l.
Proof.
  intros c H. unfold cfg_models, cfg_roots. revert H. generalize (c_tops c) as tops. intros tops.
  assert (G : forall acc, (forall r, In r tops -> exists n t, Loads (c_dev c) n t /\ has r t) ->
    exists l, foldM (fun acc t => match assoc String.eqb t (v_roots (c_dev c)) with
      | Some n => Ok (dset String.eqb t n acc)
      | None => match re_brace t with
          | None => Err ConfigError
          | Some (u, _) => let! T := v_namespaces (c_dev c) in if existsb (fun e => String.eqb (e_url e) u) T then Err ModelMissing else Err ConfigError
          end end) acc tops = Ok l).
  { induction tops as [| t tops IH]; intros acc H; [eexists; reflexivity |]. cbn [foldM].
    destruct (H t (or_introl eq_refl)) as (n & x & I & Hx). destruct (assoc String.eqb t (v_roots (c_dev c))) as [m |] eqn:E.
    - cbn [bind]. apply IH. intros r Ir. apply H. right. exact Ir.
    - exfalso. exact (v_roots_none _ _ _ _ I Hx E). }
  intro H. destruct (G [] H) as (l & El). rewrite El. cbn [bind]. eauto.
Qed.

(** The names that are checked are those of the models in use. *)
Lemma uses_part : forall o c n, Part o c -> Fine (c_dev c) -> forall l, cfg_models c = Ok l ->
  (In n l <-> exists r t, In r (c_tops c) /\ Loads (c_dev c) n t /\ has r t).
Proof.
  intros o c n P F l H. destruct (cfg_models_ok c l H) as (_ & G). rewrite G. split.
  - intros (r & I & E). apply v_roots_some in E. destruct E as (t & L & Ht). exists r, t. auto.
  - intros (r & t & I & L & Ht). exists r. split; auto. exact (v_roots_fine _ _ _ _ F L Ht).
Qed.
Lemma o_models_ok : forall o l, AllFine o -> o_models o = Ok l -> forall n, In n l <-> Uses o n.
Proof.
  intros [c | s d] l F H n; cbn [o_models] in H.
  - rewrite (uses_part (OCfg c) c n eq_refl (F c eq_refl) l H). unfold Uses. split.
    + intros (r & t & I & L & Ht). exists c, r, t. split; [reflexivity |]. auto.
    + intros (c' & r & t & -> & I & L & Ht). exists r, t. auto.
  - apply bind_ok in H. destruct H as (a & Ha & H). apply bind_ok in H. destruct H as (b & Hb & H). injection H as <-.
    rewrite sorted_set_In, in_app_iff.
    rewrite (uses_part (ODelta s d) s n (or_introl eq_refl) (F s (or_introl eq_refl)) a Ha).
    rewrite (uses_part (ODelta s d) d n (or_intror eq_refl) (F d (or_intror eq_refl)) b Hb). unfold Uses. split.
    + intros [(r & t & I & L & Ht) | (r & t & I & L & Ht)]; [exists s, r, t | exists d, r, t]; (split; [cbn; auto |]); auto.
    + intros (c & r & t & [-> | ->] & I & L & Ht); [left | right]; exists r, t; auto.
Qed.
Lemma o_models_total : forall o, RootsLoaded o -> exists l, o_models o = Ok l.
Proof.
  assert (G : forall o c, RootsLoaded o -> Part o c -> exists l, cfg_models c = Ok l).
  { intros o c H P. apply cfg_models_total. intros r I. destruct (H c r P I) as (n & t & k & L & Ik & E). exists n, t. split; auto. exists k. auto. }
  intros [c | s d] H; cbn [o_models].
  - apply (G (OCfg c) c H). reflexivity.
  - destruct (G _ s H (or_introl eq_refl)) as (a & ->). destruct (G _ d H (or_intror eq_refl)) as (b & ->). cbn [bind]. eauto.
Qed.
Lemma both_models_ok : forall a b l, AllFine a -> AllFine b -> both_models a b = Ok l -> forall n, In n l <-> Uses a n \/ Uses b n.
Proof.
  intros a b l Fa Fb H n. unfold both_models in H. apply bind_ok in H. destruct H as (x & Hx & H). apply bind_ok in H. destruct H as (y & Hy & H).
  injection H as <-. rewrite sorted_set_In, in_app_iff, (o_models_ok a x Fa Hx), (o_models_ok b y Fb Hy). tauto.
Qed.

(** ** The checks *)
Lemma check_ok : forall have a b l, check_models have a b l = Ok tt <->
  forall m, In m l -> In m (have (o_dev a)) /\ In m (have (o_dev b)).
Proof.
  intros have a b l. unfold check_models. rewrite (each_ok (fun d => if forallb (fun m => mem String.eqb m (have d)) l then Ok tt else Err ModelMissing)).
  assert (G : forall d, (if forallb (fun m => mem String.eqb m (have d)) l then Ok tt else Err ModelMissing) = Ok tt <-> forall m, In m l -> In m (have d)).
  { intro d. destruct (forallb _ l) eqn:E.
    - split; auto. intros _ m I. rewrite forallb_forall in E. apply (mem_In String.eqb String.eqb_eq). apply E. exact I.
    - split; [discriminate |]. intro H. exfalso. apply Bool.not_true_iff_false in E. apply E. apply forallb_forall. intros m I.
      apply (mem_In String.eqb String.eqb_eq). auto. }
  split.
  - intros H m I. split; [apply (proj1 (G (o_dev a)) (H (o_dev a) (or_introl eq_refl))) | apply (proj1 (G (o_dev b)) (H (o_dev b) (or_intror (or_introl eq_refl))))]; exact I.
  - intros H d [<- | [<- | []]]; apply G; intros m I; apply H; exact I.
Qed.
Lemma model_of_In : forall d m t, model_of d m = Ok t -> Loads d m t.
Proof.
  intros d m t H. unfold model_of in H. destruct (assoc String.eqb m (v_models d)) as [t' |] eqn:E; [| discriminate]. injection H as <-.
  unfold Loads. clear - E. induction (v_models d) as [| (a, b) l IH]; [discriminate |]. cbn [assoc] in E.
  destruct (String.eqb_spec m a) as [<- |]; [injection E as <-; left; reflexivity | right; auto].
Qed.
Lemma model_of_fine : forall d m t, NoDup (map fst (v_models d)) -> Loads d m t -> model_of d m = Ok t.
Proof.
  intros d m t N L. unfold model_of, Loads in *. induction (v_models d) as [| (a, b) l IH]; [destruct L |].
  cbn [map fst] in N. inversion N as [| ? ? N1 N2]; subst. cbn [assoc]. destruct L as [L | L].
  - injection L as -> ->. rewrite String.eqb_refl. reflexivity.
  - destruct (String.eqb_spec m a) as [<- |]; [| apply IH; auto]. exfalso. apply N1. apply (in_map fst) in L. exact L.
Qed.
Lemma Loads_one : forall d n t t', NoDup (map fst (v_models d)) -> Loads d n t -> Loads d n t' -> t = t'.
Proof. intros d n t t' N A B. assert (X := model_of_fine d n t N A). assert (Y := model_of_fine d n t' N B). congruence. Qed.
Lemma ns_field_ok : forall f d m v, ns_field f d m = Ok v <->
  exists l e r, v_ns d = Some (l ++ e :: r) /\ (forall e', In e' l -> e_name e' <> m) /\ e_name e = m /\ f e = v.
Proof.
  intros f d m v. unfold ns_field, v_namespaces. destruct (v_ns d) as [T |]; cbn [bind].
  2: { split; [discriminate |]. intros (l & e & r & H & _). discriminate. }
  split.
  - intro H. assert (G : exists l e r, T = l ++ e :: r /\ (forall e', In e' l -> e_name e' <> m) /\ e_name e = m /\ f e = v).
    { induction T as [| e T IH]; [discriminate |]. cbn [filter] in H. destruct (String.eqb_spec (e_name e) m) as [E |].
      - injection H as <-. exists [], e, T. split; [reflexivity |]. split; [intros e' [] |]. auto.
      - destruct (IH H) as (l & e0 & r & -> & G1 & G2). exists (e :: l), e0, r. split; [reflexivity |]. split; auto.
        intros e' [<- | I]; auto. }
    destruct G as (l & e & r & -> & G). exists l, e, r. auto.
  - intros (l & e & r & E & N & En & Ef). injection E as ->. assert (G : filter (fun e => String.eqb (e_name e) m) (l ++ e :: r) =
      e :: filter (fun e => String.eqb (e_name e) m) r).
    { induction l as [| x l IH]; cbn [app filter].
      - rewrite En, String.eqb_refl. reflexivity.
      - rewrite (proj2 (String.eqb_neq _ _) (N x (or_introl eq_refl))). apply IH. intros e' I. apply N. right. exact I. }
    rewrite G, Ef. reflexivity.
Qed.
Lemma SameNodes_refl : forall x, SameNodes x x.
Proof.
  assert (R : forall x, Same x x).
  { induction x as [t tx a ks IH] using xml_ind'. apply (same_node _ _ ks); auto. cbn [xkids]. induction IH; constructor; auto. }
  intro x. exists (xkids x). split; auto. induction (xkids x); constructor; auto.
Qed.

Theorem compat_sound : forall a b r, AllFine a -> AllFine b -> OneObject a b -> is_compatible a b = Ok r -> r = true /\ Agree a b.
Proof.
  intros a b r Fa Fb O H. unfold is_compatible in H. apply bind_ok in H. destruct H as (x & Hn & H).
  assert (x = true /\ forall n, Uses a n \/ Uses b n -> v_id (o_dev a) <> v_id (o_dev b) -> exists p u, Entered (o_dev a) n p u /\ Entered (o_dev b) n p u) as (-> & HN).
  { unfold namespaces_compatible in Hn. destruct (Nat.eqb_spec (v_id (o_dev a)) (v_id (o_dev b))) as [E | E].
    - split; [congruence |]. intros n U X. contradiction.
    - apply bind_ok in Hn. destruct Hn as (l & Hl & Hn). apply bind_ok in Hn. destruct Hn as (u0 & Hc & Hn).
      apply bind_ok in Hn. destruct Hn as (u & Hf & Hn). split; [congruence |]. intros n U _.
      destruct u. apply (each_ok (fun m => let! p1 := ns_field e_prefix (o_dev a) m in let! p2 := ns_field e_prefix (o_dev b) m in
        if negb (String.eqb p1 p2) then Err ModelIncompatible else let! u1 := ns_field e_url (o_dev a) m in let! u2 := ns_field e_url (o_dev b) m in
        if negb (String.eqb u1 u2) then Err ModelIncompatible else Ok tt)) with (m := n) in Hf; [| apply (both_models_ok a b l Fa Fb Hl); exact U].
      apply bind_ok in Hf. destruct Hf as (p1 & P1 & Hf). apply bind_ok in Hf. destruct Hf as (p2 & P2 & Hf).
      destruct (String.eqb_spec p1 p2) as [<- |]; [| discriminate]. cbn [negb] in Hf.
      apply bind_ok in Hf. destruct Hf as (u1 & U1 & Hf). apply bind_ok in Hf. destruct Hf as (u2 & U2 & Hf).
      destruct (String.eqb_spec u1 u2) as [<- |]; [| discriminate].
      assert (EN : forall d p u, ns_field e_prefix d n = Ok p -> ns_field e_url d n = Ok u -> Entered d n p u).
      { intros d p u Hp Hu. apply ns_field_ok in Hp. destruct Hp as (l1 & e & r1 & E1 & N1 & M1 & F1).
        assert (Hu' : ns_field e_url d n = Ok (e_url e)) by (apply ns_field_ok; exists l1, e, r1; auto).
        exists l1, e, r1. split; auto. split; auto. split; auto. split; auto. congruence. }
      exists p1, u1. split; apply EN; assumption. }
  unfold models_compatible in H. apply bind_ok in H. destruct H as (l & Hl & H). apply bind_ok in H. destruct H as (u0 & Hc & H).
  apply bind_ok in H. destruct H as (u & Hf & H). split; [congruence |]. intros n U. split; [| apply HN; exact U].
  destruct u. apply (each_ok (fun m => let! t1 := model_of (o_dev a) m in let! t2 := model_of (o_dev b) m in
    let! d := model_diff (Nat.eqb (v_id (o_dev a)) (v_id (o_dev b))) t1 t2 in if nonempty d then Err ModelIncompatible else Ok tt)) with (m := n) in Hf;
    [| apply (both_models_ok a b l Fa Fb Hl); exact U].
  apply bind_ok in Hf. destruct Hf as (t1 & T1 & Hf). apply bind_ok in Hf. destruct Hf as (t2 & T2 & Hf). apply bind_ok in Hf. destruct Hf as (d & Hd & Hf).
  destruct (nonempty d) eqn:Ne; [discriminate |]. exists t1, t2. split; [apply model_of_In; exact T1 |]. split; [apply model_of_In; exact T2 |].
  destruct (Nat.eqb_spec (v_id (o_dev a)) (v_id (o_dev b))) as [E | E].
  - rewrite (O E) in T1. assert (t1 = t2) by congruence. subst t2. apply SameNodes_refl.
  - apply (proj1 (diff_empty _ _ _ Hd)). exact Ne.
Qed.

Theorem compat_complete : forall a b, AllFine a -> AllFine b -> Stored (o_dev a) -> Stored (o_dev b) ->
  RootsLoaded a -> RootsLoaded b -> Agree a b ->
  (v_id (o_dev a) <> v_id (o_dev b) -> Diffable (o_dev a) /\ Diffable (o_dev b)) ->
  (v_id (o_dev a) <> v_id (o_dev b) -> forall n, Uses a n \/ Uses b n -> In n (v_loadable (o_dev a)) /\ In n (v_loadable (o_dev b))) ->
  is_compatible a b = Ok true.
Proof.
  intros a b Fa Fb Sa Sb Ra Rb A HC HL.
  assert (FA : Fine (o_dev a)) by (destruct a; cbn; apply Fa; cbn; auto).
  assert (FB : Fine (o_dev b)) by (destruct b; cbn; apply Fb; cbn; auto).
  assert (B : exists l, both_models a b = Ok l).
  { unfold both_models. destruct (o_models_total a Ra) as (x & ->). destruct (o_models_total b Rb) as (y & ->). cbn [bind]. eauto. }
  destruct B as (l & Hl). assert (U := both_models_ok a b l Fa Fb Hl).
  assert (HN : namespaces_compatible a b = Ok true).
  { unfold namespaces_compatible. destruct (Nat.eqb_spec (v_id (o_dev a)) (v_id (o_dev b))) as [E | E]; [reflexivity |].
    rewrite Hl. cbn [bind]. rewrite (proj2 (check_ok v_loadable a b l)) by (intros m I; apply (HL E); apply U; exact I). cbn [bind].
    rewrite (proj2 (each_ok (fun m => let! p1 := ns_field e_prefix (o_dev a) m in let! p2 := ns_field e_prefix (o_dev b) m in
        if negb (String.eqb p1 p2) then Err ModelIncompatible else let! u1 := ns_field e_url (o_dev a) m in let! u2 := ns_field e_url (o_dev b) m in
        if negb (String.eqb u1 u2) then Err ModelIncompatible else Ok tt) l)); [reflexivity |].
    intros m I. destruct (A m (proj1 (U m) I)) as (_ & X). destruct (X E) as (p & u & (l1 & e1 & r1 & V1 & N1 & M1 & P1 & U1) & (l2 & e2 & r2 & V2 & N2 & M2 & P2 & U2)).
    assert (Q1 : ns_field e_prefix (o_dev a) m = Ok p) by (apply ns_field_ok; exists l1, e1, r1; auto).
    assert (Q2 : ns_field e_prefix (o_dev b) m = Ok p) by (apply ns_field_ok; exists l2, e2, r2; auto).
    assert (Q3 : ns_field e_url (o_dev a) m = Ok u) by (apply ns_field_ok; exists l1, e1, r1; auto).
    assert (Q4 : ns_field e_url (o_dev b) m = Ok u) by (apply ns_field_ok; exists l2, e2, r2; auto).
    rewrite Q1, Q2. cbn [bind]. rewrite String.eqb_refl. cbn [negb]. rewrite Q3, Q4. cbn [bind]. rewrite String.eqb_refl. reflexivity. }
  unfold is_compatible. rewrite HN. cbn [bind]. unfold models_compatible. rewrite Hl. cbn [bind].
  rewrite (proj2 (check_ok v_loaded a b l)).
  2: { intros m I. destruct (A m (proj1 (U m) I)) as ((t1 & t2 & L1 & L2 & _) & _).
       split; unfold v_loaded; [apply (in_map fst) in L1; exact L1 | apply (in_map fst) in L2; exact L2]. }
  cbn [bind]. rewrite (proj2 (each_ok (fun m => let! t1 := model_of (o_dev a) m in let! t2 := model_of (o_dev b) m in
    let! d := model_diff (Nat.eqb (v_id (o_dev a)) (v_id (o_dev b))) t1 t2 in if nonempty d then Err ModelIncompatible else Ok tt) l)); [reflexivity |].
  intros m I. destruct (A m (proj1 (U m) I)) as ((t1 & t2 & L1 & L2 & S) & _).
  rewrite (model_of_fine _ _ _ (proj1 FA) L1), (model_of_fine _ _ _ (proj1 FB) L2). cbn [bind].
  assert (N1 := Sa m t1 L1). assert (N2 := Sb m t2 L2).
  destruct (Nat.eqb_spec (v_id (o_dev a)) (v_id (o_dev b))) as [E | E].
  - unfold model_diff. rewrite N1, N2, String.eqb_refl. cbn [bind]. reflexivity.
  - destruct (HC E) as (C1 & C2). destruct (C1 m t1 L1) as (D1 & Y1). destruct (C2 m t2 L2) as (D2 & Y2).
    destruct (diff_total false t1 t2) as (d & Hd); auto; [congruence |]. rewrite Hd. cbn [bind].
    rewrite (proj2 (diff_empty _ _ _ Hd) S). reflexivity.
Qed.

(** ** Symmetry *)
Lemma Same_sym : forall x y, Same x y -> Same y x.
Proof.
  induction x as [t tx a ks IH] using xml_ind'. intros y H. inversion H as [? ? l H1 H2 H3 H4 H5]; subst. cbn [xkids] in H5.
  assert (F : Forall2 Same l ks).
  { rewrite Forall_forall in IH. clear - H5 IH. induction H5 as [| x y ks l S F IHF]; constructor.
    - apply IH; [left; reflexivity | exact S].
    - apply IHF. intros z I. apply IH. right. exact I. }
  destruct (Permutation_Forall2 (Permutation_sym H4) F) as (l' & P' & F').
  apply (same_node y _ l'); auto.
Qed.
Lemma SameNodes_sym : forall x y, SameNodes x y -> SameNodes y x.
Proof.
  intros x y (l & P & F). assert (F2 : Forall2 Same l (xkids x)) by (clear - F; induction F; constructor; auto using Same_sym).
  destruct (Permutation_Forall2 (Permutation_sym P) F2) as (l' & P' & F'). exists l'. auto.
Qed.
Lemma Agree_sym : forall a b, Agree a b -> Agree b a.
Proof.
  intros a b H n U. destruct (H n) as ((t1 & t2 & L1 & L2 & S) & E); [tauto |]. split.
  - exists t2, t1. split; auto. split; auto. apply SameNodes_sym. exact S.
  - intro N. destruct E as (p & u & E1 & E2); [congruence |]. exists p, u. auto.
Qed.
Lemma o_models_loaded : forall o l, o_models o = Ok l -> RootsLoaded o.
Proof.
  assert (G : forall c l r, cfg_models c = Ok l -> In r (c_tops c) -> exists n t k, Loads (c_dev c) n t /\ In k (xkids t) /\ xtag k = r).
  { intros c l r H I. destruct (cfg_models_ok c l H) as (G & _). destruct (G r I) as (n & E). apply v_roots_some in E.
    destruct E as (t & L & k & Ik & Ek). exists n, t, k. auto. }
  intros [c | s d] l H c' r P I; cbn [o_models] in H.
  - cbn in P. subst c'. eauto.
  - apply bind_ok in H. destruct H as (a & Ha & H). apply bind_ok in H. destruct H as (b & Hb & _). destruct P as [-> | ->]; eauto.
Qed.
Lemma compat_roots : forall a b r, is_compatible a b = Ok r -> RootsLoaded a /\ RootsLoaded b.
Proof.
  intros a b r H. unfold is_compatible in H. apply bind_ok in H. destruct H as (x & Hn & H). destruct x.
  - unfold models_compatible in H. apply bind_ok in H. destruct H as (l & Hl & _). unfold both_models in Hl.
    apply bind_ok in Hl. destruct Hl as (u & Hu & Hl). apply bind_ok in Hl. destruct Hl as (v & Hv & _).
    split; eapply o_models_loaded; eauto.
  - unfold namespaces_compatible in Hn. destruct (Nat.eqb _ _); [discriminate |].
    apply bind_ok in Hn. destruct Hn as (l & Hl & Hn). apply bind_ok in Hn. destruct Hn as (u0 & Hc & Hn).
    apply bind_ok in Hn. destruct Hn as (u & Hf & Hn). discriminate.
Qed.
Lemma compat_loadable : forall a b r, AllFine a -> AllFine b -> is_compatible a b = Ok r -> v_id (o_dev a) <> v_id (o_dev b) ->
  forall n, Uses a n \/ Uses b n -> In n (v_loadable (o_dev a)) /\ In n (v_loadable (o_dev b)).
Proof.
  intros a b r Fa Fb H E n U. unfold is_compatible in H. apply bind_ok in H. destruct H as (x & Hn & H).
  unfold namespaces_compatible in Hn. rewrite (proj2 (Nat.eqb_neq _ _) E) in Hn.
  apply bind_ok in Hn. destruct Hn as (l & Hl & Hn). apply bind_ok in Hn. destruct Hn as ([] & Hc & Hn).
  apply (proj1 (check_ok v_loadable a b l) Hc). apply (both_models_ok a b l Fa Fb Hl). exact U.
Qed.
Theorem compat_symmetric : forall a b, AllFine a -> AllFine b -> OneObject a b -> Stored (o_dev a) -> Stored (o_dev b) ->
  (v_id (o_dev a) <> v_id (o_dev b) -> Diffable (o_dev a) /\ Diffable (o_dev b)) ->
  is_compatible a b = Ok true -> is_compatible b a = Ok true.
Proof.
  intros a b Fa Fb O Sa Sb HC H. destruct (compat_roots a b _ H) as (Ra & Rb). destruct (compat_sound a b _ Fa Fb O H) as (_ & A).
  apply compat_complete; auto.
  - apply Agree_sym. exact A.
  - intro E. destruct HC; [congruence |]. auto.
  - intros E n U. assert (E' : v_id (o_dev a) <> v_id (o_dev b)) by congruence.
    destruct (compat_loadable a b _ Fa Fb H E' n); [tauto |]. auto.
Qed.
(** Configs of one device *)
Theorem compat_same_device : forall c1 c2, c_dev c1 = c_dev c2 -> Fine (c_dev c1) -> Stored (c_dev c1) ->
  RootsLoaded (OCfg c1) -> RootsLoaded (OCfg c2) -> is_compatible (OCfg c1) (OCfg c2) = Ok true.
Proof.
  intros c1 c2 E F S R1 R2. apply compat_complete; auto.
  - intros c ->. exact F.
  - intros c ->. rewrite <- E. exact F.
  - cbn. rewrite <- E. exact S.
  - intros n U. split; [| intro X; exfalso; apply X; cbn; rewrite E; reflexivity].
    cbn [o_dev]. destruct U as [(c & r & t & -> & _ & L & _) | (c & r & t & -> & _ & L & _)].
    + exists t, t. rewrite <- E. split; auto. split; auto. apply SameNodes_refl.
    + exists t, t. rewrite E. split; auto. split; auto. apply SameNodes_refl.
  - intro X. exfalso. apply X. cbn. rewrite E. reflexivity.
  - intro X. exfalso. apply X. cbn. rewrite E. reflexivity.
Qed.

(** ** One schema *)
Lemma read_kids : forall x, skids (read_node x) = map read_node (xkids x).
Proof. intros [t tx a ks]. reflexivity. Qed.
Lemma perm_map : forall {A B} (f : A -> B) l l', Permutation l l' -> Permutation (map f l) (map f l').
Proof. intros. apply Permutation_map. assumption. Qed.
Lemma read_twin : forall x y, Same x y -> Twin (read_node x) (read_node y).
Proof.
  induction x as [t tx a ks IH] using xml_ind'. intros y H. inversion H as [? ? l H1 H2 H3 H4 H5]; subst. cbn [xkids] in H5.
  destruct y as [t' tx' a' ks']. cbn [xtag] in H1. subst t'. cbn [xkids] in H4.
  apply (twin _ _ (map read_node l)); rewrite !read_eq; cbn [stag sty si s_tag s_type s_presence s_user s_default s_is_key s_status s_access skids];
    rewrite ?H3; auto.
  - apply perm_map. exact H4.
  - rewrite Forall_forall in IH. clear - H5 IH. induction H5 as [| x y ks l S F IHF]; cbn [map]; constructor.
    + apply IH; [left; reflexivity | exact S].
    + apply IHF. intros z I. apply IH. right. exact I.
Qed.
Lemma tree_twin : forall x y, SameNodes x y -> xtag x = xtag y -> Twin (read_tree x) (read_tree y).
Proof.
  intros x y (l & P & F) E. apply (twin _ _ (map read_node l)); unfold read_tree; cbn [stag sty si s_tag s_type s_presence s_user s_default s_is_key s_status s_access skids]; auto.
  - apply perm_map. exact P.
  - clear - F. induction F; cbn [map]; constructor; auto using read_twin.
Qed.
Lemma Twin_inv : forall a b, Twin a b -> stag a = stag b /\ sty a = sty b /\ forall k, In k (skids a) -> exists k', In k' (skids b) /\ Twin k k'.
Proof.
  intros a b H. inversion H as [a0 b0 l H1 H2 H3 H4 H5 H6 H7 H8 P F]; subst. split; auto. split; auto. intros k I.
  destruct (Forall2_In_l _ _ _ _ F I) as (k' & I' & T). exists k'. split; auto. apply (Permutation_in _ (Permutation_sym P)). exact I'.
Qed.
Lemma Through_twin : forall a s, Through a s -> forall b, Twin a b -> exists s', Through b s' /\ Twin s s'.
Proof.
  intros a s H. induction H as [s N1 N2 | s k c E I H IH | s k c E I H IH]; intros b T; destruct (Twin_inv _ _ T) as (_ & Ty & K).
  - exists b. split; auto. apply th_here; congruence.
  - destruct (K k I) as (k' & I' & T'). destruct (IH k' T') as (s' & H' & Ts). exists s'. split; auto. apply (th_choice b k'); auto; congruence.
  - destruct (K k I) as (k' & I' & T'). destruct (IH k' T') as (s' & H' & Ts). exists s'. split; auto. apply (th_case b k'); auto; congruence.
Qed.
Lemma Defines_twin : forall a b t s, Twin a b -> Defines a t s -> exists s', Defines b t s' /\ Twin s s'.
Proof.
  intros a b t s T (E & k & I & H). destruct (Twin_inv _ _ T) as (_ & _ & K). destruct (K k I) as (k' & I' & T').
  destruct (Through_twin _ _ H k' T') as (s' & H' & Ts). exists s'. split; auto. split; [| eauto].
  destruct (Twin_inv _ _ Ts) as (Et & _). congruence.
Qed.
Lemma Data_head : forall ms p s, Data ms p s -> exists r q, p = r :: q.
Proof. intros ms p s H. induction H as [m r s M D | p t q s H IH D]; [eauto |]. destruct IH as (r & q' & ->). cbn. eauto. Qed.
(** The data nodes of both devices below the roots in use are the same. *)
Lemma one_schema : forall d1 d2 n, Fine d1 -> Fine d2 -> Stored d1 -> Stored d2 -> AgreeOn d1 d2 n ->
  forall p s, Data (DevModels d1) p s -> forall r q t, p = r :: q -> Loads d1 n t -> Top t r ->
  exists s', Data (DevModels d2) p s' /\ Twin s s'.
Proof.
  intros d1 d2 n F1 F2 S1 S2 ((t1 & t2 & L1 & L2 & Sm) & _) p s H.
  induction H as [m r0 s M D | p t0 q0 s H IH D]; intros r q t E L HT.
  - injection E as -> <-. destruct M as (n' & t' & L' & ->). cbn [m_tree] in D.
    assert (n' = n). { apply (proj2 F1 n' t' n t r L' L); auto. right. eauto. } subst n'.
    assert (t' = t1) by (apply (Loads_one d1 n); auto; apply F1). subst t'.
    assert (Et : xtag t1 = xtag t2) by (rewrite (S1 n t1 L1), (S2 n t2 L2); reflexivity).
    destruct (Defines_twin _ _ _ _ (tree_twin t1 t2 Sm Et) D) as (s' & D' & T'). exists s'. split; auto.
    apply (data_root (DevModels d2) (Model n (read_tree t2))); [exists n, t2; auto | exact D'].
  - destruct (Data_head _ _ _ H) as (r1 & q1 & ->). cbn in E. injection E as -> _.
    destruct (IH r q1 t eq_refl L HT) as (qq & Hq & Tq). destruct (Defines_twin _ _ _ _ Tq D) as (s' & D' & T').
    exists s'. split; auto. apply (data_child (DevModels d2) (r :: q1) t0 qq); auto.
Qed.
Theorem compat_schema : forall a b x, AllFine a -> AllFine b -> OneObject a b -> Stored (o_dev a) -> Stored (o_dev b) ->
  is_compatible a b = Ok x ->
  forall n t r q, Uses a n \/ Uses b n ->
  (Loads (o_dev a) n t -> Top t r -> forall s, Data (DevModels (o_dev a)) (r :: q) s -> exists s', Data (DevModels (o_dev b)) (r :: q) s' /\ Twin s s') /\
  (Loads (o_dev b) n t -> Top t r -> forall s, Data (DevModels (o_dev b)) (r :: q) s -> exists s', Data (DevModels (o_dev a)) (r :: q) s' /\ Twin s s').
Proof.
  intros a b x Fa Fb O Sa Sb H n t r q U.
  assert (FA : Fine (o_dev a)) by (destruct a; cbn; apply Fa; cbn; auto).
  assert (FB : Fine (o_dev b)) by (destruct b; cbn; apply Fb; cbn; auto).
  destruct (compat_sound a b x Fa Fb O H) as (_ & A). split; intros L HT s D.
  - apply (one_schema (o_dev a) (o_dev b) n FA FB Sa Sb (A n U) _ s D r q t eq_refl L HT).
  - apply (one_schema (o_dev b) (o_dev a) n FB FA Sb Sa (Agree_sym a b A n ltac:(tauto)) _ s D r q t eq_refl L HT).
Qed.
Theorem guarded : (forall src dst o, Fine (c_dev src) -> Fine (c_dev dst) -> OneObject (OCfg src) (OCfg dst) ->
    new_delta src dst = Ok o -> o = ODelta src dst /\ Agree (OCfg src) (OCfg dst)) /\
  (forall A c b (k : res A) x, Fine (c_dev c) -> AllFine b -> OneObject (OCfg c) b ->
    add_config c b k = Ok x -> Agree (OCfg c) b /\ exists r, k = Ok r /\ x = Some r).
Proof.
  split.
  - intros s d o Fs Fd O H. unfold new_delta in H. apply bind_ok in H. destruct H as (r & H & E). injection E as <-. split; [reflexivity |].
    apply (compat_sound _ _ r) in H; [tauto | intros c -> | intros c -> |]; auto.
  - intros A c b k x Fc Fb O H. unfold add_config in H. apply bind_ok in H. destruct H as (r & H & E).
    apply compat_sound in H; auto; [| intros ? ->; exact Fc]. destruct H as (-> & H). split; auto. apply bind_ok in E. destruct E as (y & E & E').
    exists y. split; auto. congruence.
Qed.
