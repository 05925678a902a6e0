(** Proofs for C92. *)
From Coq Require Import String List Bool Arith Lia Sorted.
From Verif Require Import Base XmlM CalcM NetconfM DataSpec DeltaSpec DefaultSpec BaseP CalcP DataP CompatP KnownP.
Import ListNotations.
Open Scope string_scope.
Open Scope list_scope.

Definition case_go (pos : list nat) (d : string) := fix cases (m : nat) (ks : list snode) : list (list nat) :=
  match ks with
  | [] => []
  | ca :: rs => if String.eqb (stag ca) d then (m :: pos) :: default_pos (m :: pos) ca else cases (S m) rs
  end.

Definition dp_item (pos : list nat) (n : nat) (c : snode) : list (list nat) :=
  match sty c, s_default (si c) with
  | TLeaf, Some _ | TLeafList, Some _ => [n :: pos]
  | TChoice, Some d => case_go (n :: pos) d 0 (skids c)
  | TContainer, _ => if s_presence (si c) then [] else default_pos (n :: pos) c
  | _, _ => []
  end.

Lemma dp_item_other : forall pos n c, sty c <> TContainer -> sty c <> TLeaf -> sty c <> TLeafList -> sty c <> TChoice -> dp_item pos n c = [].
Proof. intros pos n c H1 H2 H3 H4. unfold dp_item. destruct (sty c); try congruence; destruct (s_default (si c)); reflexivity. Qed.

Lemma dp_item_container : forall pos n c, sty c = TContainer -> dp_item pos n c = if s_presence (si c) then [] else default_pos (n :: pos) c.
Proof. intros pos n c H. unfold dp_item. rewrite H. destruct (s_default (si c)); reflexivity. Qed.

Definition dp_go (pos : list nat) := fix go (n : nat) (l : list snode) : list (list nat) :=
  match l with [] => [] | c :: r => dp_item pos n c ++ go (S n) r end.

Lemma default_pos_eq : forall pos s, default_pos pos s = dp_go pos 0 (skids s).
Proof.
  intros pos [i k]. cbn [default_pos skids]. match goal with |- ?f 0 k = _ => assert (G : forall l n, f n l = dp_go pos n l) end.
  { induction l as [| c r IH]; intro n; [reflexivity |]. change (dp_go pos n (c :: r)) with (dp_item pos n c ++ dp_go pos (S n) r). rewrite <- (IH (S n)). reflexivity. }
  apply G.
Qed.

Lemma case_go_In : forall q pos d ks m, In q (case_go pos d m ks) <->
  exists j k, nth_error ks j = Some k /\ stag k = d /\ (forall j' k', j' < j -> nth_error ks j' = Some k' -> stag k' <> d) /\
    (q = (m + j) :: pos \/ In q (default_pos ((m + j) :: pos) k)).
Proof.
  intros q pos d ks. induction ks as [| c r IH]; intro m; cbn [case_go].
  - split; [intros [] |]. intros (j & k & H & _). destruct j; discriminate.
  - destruct (String.eqb_spec (stag c) d) as [E | E].
    + split.
      * intro H. exists 0, c. rewrite Nat.add_0_r. split; auto. split; auto. split; [intros j' k' L; lia |].
        destruct H as [H | H]; auto.
      * intros (j & k & H1 & H2 & H3 & H4). destruct j as [| j].
        -- injection H1 as ->. rewrite Nat.add_0_r in H4. destruct H4 as [-> | H4]; [left | right]; auto.
        -- exfalso. apply (H3 0 c); auto; lia.
    + rewrite IH. split.
      * intros (j & k & H1 & H2 & H3 & H4). exists (S j), k. split; auto. split; auto. split.
        -- intros j' k' L Hk. destruct j' as [| j']; [injection Hk as <-; auto | apply (H3 j'); auto; lia].
        -- replace (m + S j) with (S m + j) by lia. auto.
      * intros (j & k & H1 & H2 & H3 & H4). destruct j as [| j]; [injection H1 as ->; contradiction |].
        exists j, k. split; auto. split; auto. split.
        -- intros j' k' L Hk. apply (H3 (S j')); auto; lia.
        -- replace (S m + j) with (m + S j) by lia. auto.
Qed.

Lemma dp_go_In : forall q pos l n, In q (dp_go pos n l) <-> exists j c, nth_error l j = Some c /\ In q (dp_item pos (n + j) c).
Proof.
  intros q pos l. induction l as [| c r IH]; intro n; cbn [dp_go].
  - split; [intros [] |]. intros (j & k & H & _). destruct j; discriminate.
  - rewrite in_app_iff, IH. split.
    + intros [H | (j & k & H1 & H2)]; [exists 0, c; rewrite Nat.add_0_r; auto |]. exists (S j), k. split; auto.
      replace (n + S j) with (S n + j) by lia. auto.
    + intros (j & k & H1 & H2). destruct j as [| j].
      * injection H1 as ->. rewrite Nat.add_0_r in H2. auto.
      * right. exists j, k. split; auto. replace (S n + j) with (n + S j) by lia. auto.
Qed.

(** The same with the first step taken first *)
Lemma implied_first : forall s q b, Implied s q b ->
  (q = [] /\ b = s) \/
  (exists n c p, q = p ++ [n] /\ nth_error (skids s) n = Some c /\ NonPresence c /\ Implied c p b) \/
  (exists n m k p, q = p ++ [m; n] /\ DefaultCase s n m k /\ Implied k p b).
Proof.
  intros s q b H. induction H as [| p b n c H IH E N | p b n m k H IH D].
  - left. auto.
  - right. destruct IH as [[-> ->] | [(n0 & c0 & p0 & -> & E0 & N0 & I0) | (n0 & m0 & k0 & p0 & -> & D0 & I0)]].
    + left. exists n, c, []. split; auto. split; auto. split; auto. constructor.
    + left. exists n0, c0, (n :: p0). split; auto. split; auto. split; auto. apply (im_container _ p0 b); auto.
    + right. exists n0, m0, k0, (n :: p0). split; auto. split; auto. apply (im_container _ p0 b); auto.
  - right. destruct IH as [[-> ->] | [(n0 & c0 & p0 & -> & E0 & N0 & I0) | (n0 & m0 & k0 & p0 & -> & D0 & I0)]].
    + right. exists n, m, k, []. split; auto. split; auto. constructor.
    + left. exists n0, c0, (m :: n :: p0). split; auto. split; auto. split; auto. apply (im_case _ p0 b); auto.
    + right. exists n0, m0, k0, (m :: n :: p0). split; auto. split; auto. apply (im_case _ p0 b); auto.
Qed.

Lemma implied_under : forall s c q b, Implied c q b -> forall r, Implied s r c -> Implied s (q ++ r) b.
Proof.
  intros s c q b H. induction H as [| p b n d H IH E N | p b n m k H IH D]; intros r R; cbn [app].
  - auto.
  - apply (im_container _ _ b); auto.
  - apply (im_case _ _ b); auto.
Qed.

Definition Listed (s : snode) (p : list nat) : Prop := (exists c, InUse s p c) \/ (exists k, CaseInUse s p k).

Lemma listed_under : forall s c p r, Listed c p -> Implied s r c -> Listed s (p ++ r).
Proof.
  intros s c p r [(d & b & n & q & -> & I & E & T) | (k & b & n & m & q & -> & I & D)] R.
  - left. exists d, b, n, (q ++ r). split; auto. split; [apply (implied_under s c); auto | auto].
  - right. exists k, b, n, m, (q ++ r). split; auto. split; [apply (implied_under s c); auto | auto].
Qed.

(** Either at the first step or below it *)
Lemma listed_first : forall s p, Listed s p ->
  (exists n c, p = [n] /\ nth_error (skids s) n = Some c /\ (sty c = TLeaf \/ sty c = TLeafList) /\ s_default (si c) <> None) \/
  (exists n m k, p = [m; n] /\ DefaultCase s n m k) \/
  (exists n c q, p = q ++ [n] /\ nth_error (skids s) n = Some c /\ NonPresence c /\ Listed c q) \/
  (exists n m k q, p = q ++ [m; n] /\ DefaultCase s n m k /\ Listed k q).
Proof.
  intros s p [(d & b & n & q & -> & I & E & T & F) | (k & b & n & m & q & -> & I & D)];
    destruct (implied_first s q b I) as [[-> ->] | [(n0 & c0 & p0 & -> & E0 & N0 & I0) | (n0 & m0 & k0 & p0 & -> & D0 & I0)]].
  - left. exists n, d. auto.
  - right. right. left. exists n0, c0, (n :: p0). split; auto. split; auto. split; auto. left. exists d, b, n, p0. auto.
  - right. right. right. exists n0, m0, k0, (n :: p0). split; auto. split; auto. left. exists d, b, n, p0. auto.
  - right. left. exists n, m, k. auto.
  - right. right. left. exists n0, c0, (m :: n :: p0). split; auto. split; auto. split; auto. right. exists k, b, n, m, p0. auto.
  - right. right. right. exists n0, m0, k0, (m :: n :: p0). split; auto. split; auto. right. exists k, b, n, m, p0. auto.
Qed.

Fixpoint ssize (s : snode) : nat := let '(SNode _ k) := s in S (list_sum (map ssize k)).
Lemma ssize_kid : forall s n c, nth_error (skids s) n = Some c -> ssize c < ssize s.
Proof.
  intros [i k] n c H. cbn [skids] in H. cbn [ssize]. apply Nat.lt_succ_r. revert n H. induction k as [| d r IH]; intros n H; [destruct n; discriminate |].
  cbn [map list_sum fold_right]. destruct n as [| n]; [injection H as ->; unfold list_sum; cbn; lia |]. apply IH in H. unfold list_sum in *. cbn. lia.
Qed.

Lemma default_pos_In : forall z s, ssize s < z -> forall pos q, In q (default_pos pos s) <-> exists p, q = p ++ pos /\ Listed s p.
Proof.
  induction z as [| z IH]; intros s Z pos q; [lia |]. rewrite default_pos_eq, dp_go_In. split.
  - intros (n & c & E & H). cbn [Nat.add] in H. pose proof (ssize_kid s n c E) as ZC.
    destruct (sty c) eqn:T; try (rewrite dp_item_other in H by congruence; contradiction);
      try (rewrite dp_item_container in H by auto); try (unfold dp_item in H; rewrite T in H).
    + destruct (s_default (si c)) eqn:D; [| contradiction]. destruct H as [<- | []]. exists [n]. split; auto. left. exists c, s, n, [].
      split; auto. split; [constructor |]. split; auto. split; auto. congruence.
    + destruct (s_default (si c)) eqn:D; [| contradiction]. destruct H as [<- | []]. exists [n]. split; auto. left. exists c, s, n, [].
      split; auto. split; [constructor |]. split; auto. split; auto. congruence.
    + destruct (s_presence (si c)) eqn:P; [contradiction |]. assert (NP : NonPresence c) by (split; auto).
      apply IH in H; [| lia]. destruct H as (p & -> & L). exists (p ++ [n]). split; [rewrite <- app_assoc; auto |].
      apply (listed_under s c); auto. apply (im_container s [] s); auto. constructor.
    + destruct (s_default (si c)) as [d |] eqn:D; [| contradiction]. apply case_go_In in H.
      destruct H as (m & k & K1 & K2 & K3 & K4). cbn [Nat.add] in K4.
      assert (DC : DefaultCase s n m k) by (exists c, d; auto 10).
      destruct K4 as [-> | K4].
      * exists [m; n]. split; auto. right. exists k, s, n, m, []. split; auto. split; [constructor | auto].
      * pose proof (ssize_kid c m k K1). apply IH in K4; [| lia]. destruct K4 as (p & -> & L). exists (p ++ [m; n]).
        split; [rewrite <- app_assoc; auto |]. apply (listed_under s k); auto. apply (im_case s [] s); auto. constructor.
  - intros (p & -> & L). apply listed_first in L.
    destruct L as [(n & c & -> & E & T & F) | [(n & m & k & -> & ch & t & E & T & F & K & G & U) | [(n & c & p' & -> & E & [T P] & L) | (n & m & k & p' & -> & (ch & t & E & T & F & K & G & U) & L)]]].
    + exists n, c. split; auto. cbn [Nat.add]. unfold dp_item. destruct (s_default (si c)); [| congruence].
      destruct T as [-> | ->]; left; auto.
    + exists n, ch. split; auto. cbn [Nat.add]. unfold dp_item. rewrite T, F. apply case_go_In. exists m, k. auto 10.
    + exists n, c. split; auto. cbn [Nat.add]. unfold dp_item. rewrite T, P. pose proof (ssize_kid s n c E).
      apply IH; [lia |]. exists p'. rewrite <- app_assoc. auto.
    + exists n, ch. split; auto. cbn [Nat.add]. unfold dp_item. rewrite T, F. apply case_go_In. exists m, k.
      split; auto. split; auto. split; auto. right. cbn [Nat.add]. pose proof (ssize_kid s n ch E). pose proof (ssize_kid ch m k K).
      apply IH; [lia |]. exists p'. rewrite <- app_assoc. auto.
Qed.

Theorem in_use : forall s p, In p (default_pos [] s) <-> (exists c, InUse s p c) \/ (exists k, CaseInUse s p k).
Proof.
  intros s p. rewrite (default_pos_In (S (ssize s)) s) by lia. split.
  - intros (q & -> & L). rewrite app_nil_r. exact L.
  - intro L. exists p. rewrite app_nil_r. auto.
Qed.

(** Order *)
Lemma earlier_app : forall a p q, Earlier p q -> Earlier (a ++ p) (a ++ q).
Proof. induction a as [| i a IH]; intros p q H; cbn [app]; auto. apply ea_same. auto. Qed.

Lemma sorted_app : forall l1 l2, StronglySorted Earlier l1 -> StronglySorted Earlier l2 ->
  (forall a b, In a l1 -> In b l2 -> Earlier a b) -> StronglySorted Earlier (l1 ++ l2).
Proof.
  induction l1 as [| a l1 IH]; intros l2 H1 H2 H; cbn [app]; auto. inversion H1; subst. constructor.
  - apply IH; auto. intros; apply H; auto; right; auto.
  - apply Forall_app. split; auto. apply Forall_forall. intros b B. apply H; auto. left. auto.
Qed.

Lemma below : forall pos s q, In q (map (@rev nat) (default_pos pos s)) -> exists p, p <> [] /\ q = rev pos ++ p.
Proof.
  intros pos s q H. apply in_map_iff in H. destruct H as (r & <- & H). apply (default_pos_In (S (ssize s)) s) in H; [| lia].
  destruct H as (p & -> & L). exists (rev p). rewrite rev_app_distr. split; auto. intro X. apply (f_equal (@rev nat)) in X.
  rewrite rev_involutive in X. subst. destruct L as [(c & b & n & q & E & _) | (k & b & n & m & q & E & _)]; discriminate.
Qed.

Lemma item_below : forall pos n c q, In q (map (@rev nat) (dp_item pos n c)) -> exists p, q = rev pos ++ n :: p.
Proof.
  intros pos n c q H. destruct (sty c) eqn:T; try (rewrite dp_item_other in H by congruence; contradiction);
    try (rewrite dp_item_container in H by auto); try (unfold dp_item in H; rewrite T in H).
  - destruct (s_default (si c)); [| contradiction]. destruct H as [<- | []]. exists []. reflexivity.
  - destruct (s_default (si c)); [| contradiction]. destruct H as [<- | []]. exists []. reflexivity.
  - destruct (s_presence (si c)); [contradiction |]. apply below in H. destruct H as (p & _ & ->). exists p. cbn [rev]. rewrite <- app_assoc. reflexivity.
  - destruct (s_default (si c)) as [d |]; [| contradiction]. apply in_map_iff in H. destruct H as (r & <- & H). apply case_go_In in H.
    destruct H as (j & k & _ & _ & _ & [-> | H]).
    + exists [0 + j]. cbn [rev]. rewrite <- !app_assoc. reflexivity.
    + assert (B : In (rev r) (map (@rev nat) (default_pos ((0 + j) :: n :: pos) k))) by (apply in_map; auto).
      apply below in B. destruct B as (p & _ & ->). exists ((0 + j) :: p). cbn [rev]. rewrite <- !app_assoc. reflexivity.
Qed.

Lemma sorted_at : forall z s, ssize s < z -> forall pos, StronglySorted Earlier (map (@rev nat) (default_pos pos s)).
Proof.
  induction z as [| z IH]; intros s Z pos; [lia |]. rewrite default_pos_eq.
  assert (G : forall l, (forall c, In c l -> ssize c < z) -> forall n, StronglySorted Earlier (map (@rev nat) (dp_go pos n l)) /\
              forall q, In q (map (@rev nat) (dp_go pos n l)) -> exists j p, n <= j /\ q = rev pos ++ j :: p).
  { induction l as [| c r IHl]; intros L n; cbn [dp_go map]; [split; [constructor | intros q []] |].
    destruct (IHl (fun d D => L d (or_intror D)) (S n)) as [S1 S2]. rewrite map_app. split.
    - apply sorted_app; auto.
      + destruct (sty c) eqn:T; try (rewrite dp_item_other by congruence; constructor); try (rewrite dp_item_container by auto); try (unfold dp_item; rewrite T).
        * destruct (s_default (si c)); repeat constructor.
        * destruct (s_default (si c)); repeat constructor.
        * destruct (s_presence (si c)); [constructor |]. apply IH. apply L. left. auto.
        * destruct (s_default (si c)) as [d |]; [| constructor].
          assert (K : forall ks m, (forall k, In k ks -> ssize k < z) -> StronglySorted Earlier (map (@rev nat) (case_go (n :: pos) d m ks))).
          { induction ks as [| k ks IHk]; intros m Hk; cbn [case_go map]; [constructor |]. destruct (String.eqb (stag k) d).
            - cbn [map]. constructor; [apply IH; apply Hk; left; auto |]. apply Forall_forall. intros q Q. apply below in Q.
              destruct Q as (p & Np & ->). rewrite <- (app_nil_r (rev (m :: n :: pos))) at 1. apply earlier_app. destruct p; [congruence | constructor].
            - apply IHk. intros; apply Hk; right; auto. }
          apply K. intros k Hk. assert (ssize c < z) by (apply L; left; auto). apply In_nth_error in Hk. destruct Hk as (j & Hj). apply ssize_kid in Hj. lia.
      + intros a b A B. apply item_below in A. destruct A as (p & ->). apply S2 in B. destruct B as (j & p' & J & ->). apply earlier_app. apply ea_less. lia.
    - intros q Q. apply in_app_or in Q. destruct Q as [Q | Q].
      + apply item_below in Q. destruct Q as (p & ->). exists n, p. auto.
      + apply S2 in Q. destruct Q as (j & p & J & ->). exists j, p. split; auto. lia. }
  apply G. intros c Hc. apply In_nth_error in Hc. destruct Hc as (j & Hj). apply ssize_kid in Hj. lia.
Qed.

Theorem in_use_order : forall s, StronglySorted Earlier (map (@rev nat) (default_pos [] s)).
Proof. intro s. apply (sorted_at (S (ssize s))). lia. Qed.

(** ** set_create_operation *)
Lemma flat_locus : forall s e, In e (flat s) -> Locus s (ce_pos e) (ce_node e).
Proof.
  intros s e H. unfold flat in H. rewrite flat_list_go in H. apply flat_go_In in H. destruct H as (m & k & K & H). cbn [Nat.add] in H.
  assert (G : forall k p inc, Locus s p k -> forall e, In e (flat_node p inc k) -> Locus s (ce_pos e) (ce_node e)).
  { intro k0. induction k0 as [i ks IH] using snode_ind'. intros p inc L e0 H0. rewrite flat_node_eq in H0.
    destruct (is_choice_or_case (sty (SNode i ks))) eqn:C; [| destruct H0 as [<- | []]; auto].
    apply flat_go_In in H0. destruct H0 as (j & c & J & H0). cbn [Nat.add skids] in *. rewrite Forall_forall in IH.
    apply (IH c (nth_error_In _ _ J) (j :: p) (stype_eqb (sty (SNode i ks)) TCase)); auto.
    apply (loc_down s p (SNode i ks)); auto. destruct (sty (SNode i ks)); try discriminate; auto. }
  apply (G k [m] false); auto. apply loc_top. auto.
Qed.

Lemma entry_locus : forall s t e, schema_entry s t = Ok e -> Locus s (ce_pos e) (ce_node e) /\ Defines s t (ce_node e).
Proof.
  intros s t e H. apply schema_entry_In in H. destruct H as [H1 H2]. split; [apply flat_locus; auto |]. apply Defines_flat. exists e. auto.
Qed.

Lemma np_iff : forall s, np_container s = true <-> NonPresence s.
Proof.
  intro s. unfold np_container, NonPresence. destruct (sty s); cbn; split; try tauto; try (intros [X _]; discriminate); try discriminate;
    destruct (s_presence (si s)); cbn; try tauto; try discriminate. intros [_ X]; discriminate.
Qed.

Lemma locus_fun : forall s p k, Locus s p k -> forall k2, Locus s p k2 -> k = k2.
Proof.
  intros s p k H. induction H as [i c H | p k i c H IH T E]; intros k2 H2; inversion H2; subst; try congruence;
    repeat match goal with L : Locus _ [] _ |- _ => inversion L end.
  match goal with L : Locus _ p ?k0 |- _ => assert (k = k0) by auto end. subst. congruence.
Qed.

(** In the same position there is one node. *)
Inductive Deep (s : snode) : list nat -> snode -> Prop :=
| de_here : Deep s [] s
| de_kid : forall p b n c, Deep s p b -> nth_error (skids b) n = Some c -> Deep s (n :: p) c.
Lemma deep_fun : forall s p k, Deep s p k -> forall k2, Deep s p k2 -> k = k2.
Proof.
  intros s p k H. induction H as [| p b n c H IH E]; intros k2 H2; inversion H2; subst; auto.
  match goal with L : Deep _ p ?k0 |- _ => assert (b = k0) by auto end. subst. congruence.
Qed.
Lemma implied_deep : forall s p k, Implied s p k -> Deep s p k.
Proof.
  intros s p k H. induction H as [| p b n c H IH E N | p b n m k H IH (ch & t & E & _ & _ & K & _)].
  - constructor.
  - apply (de_kid s p b); auto.
  - apply (de_kid s (n :: p) ch); auto. apply (de_kid s p b); auto.
Qed.
Lemma locus_deep : forall s p k, Locus s p k -> Deep s p k.
Proof.
  intros s p k H. induction H as [i c H | p k i c H IH T E].
  - apply (de_kid s [] s); auto. constructor.
  - apply (de_kid s p k); auto.
Qed.
Lemma listed_deep : forall s p, (forall c, InUse s p c -> Deep s p c) /\ (forall k, CaseInUse s p k -> Deep s p k).
Proof.
  intros s p. split.
  - intros c (b & n & q & -> & I & E & _). apply (de_kid s q b); auto. apply implied_deep. auto.
  - intros k (b & n & m & q & -> & I & (ch & t & E & _ & _ & K & _)). apply (de_kid s (n :: q) ch); auto. apply (de_kid s q b); auto. apply implied_deep. auto.
Qed.

Lemma pos_eqb_iff : forall p q, pos_eqb p q = true <-> p = q.
Proof.
  unfold pos_eqb. induction p as [| i p IH]; intros [| j q]; cbn; split; try discriminate; auto.
  - intro H. apply andb_prop in H. destruct H as [H1 H2]. apply Nat.eqb_eq in H1. apply IH in H2. congruence.
  - intro H. injection H as -> ->. rewrite Nat.eqb_refl. cbn. apply IH. auto.
Qed.

Lemma mem_pos : forall p l, mem pos_eqb p l = true <-> In p l.
Proof.
  intros p l. induction l as [| q l IH]; cbn [mem In]; [split; [discriminate | tauto] |]. rewrite orb_true_iff, IH, pos_eqb_iff.
  split; intros [H | H]; auto.
Qed.

Lemma mapM_nth : forall {A B} (f : A -> res B) l l', mapM f l = Ok l' -> forall i,
  (forall c, nth_error l i = Some c -> exists d, nth_error l' i = Some d /\ f c = Ok d) /\
  (forall d, nth_error l' i = Some d -> exists c, nth_error l i = Some c /\ f c = Ok d).
Proof.
  intros A B f. induction l as [| a l IH]; intros l' H i.
  - cbn in H. injection H as <-. split; intros c E; destruct i; discriminate.
  - cbn [mapM] in H. apply bind_ok in H. destruct H as (b & Hb & H). apply bind_ok in H. destruct H as (r & Hr & H). injection H as <-.
    destruct i as [| i]; [| exact (IH r Hr i)]. cbn. split; intros c E; injection E as <-; eauto.
Qed.

Lemma kids_set_attr : forall k v x, xkids (set_attr k v x) = xkids x.
Proof. intros k v [t tx a ks]. reflexivity. Qed.

Lemma node_kid : forall x y, xkids x = xkids y -> forall i q n, Node x (i :: q) n -> Node y (i :: q) n.
Proof. intros x y E i q n H. inversion H; subst. apply (nd_kid y i c); auto. congruence. Qed.

Lemma node_fun : forall x q n, Node x q n -> forall m, Node x q m -> n = m.
Proof. intros x q n H. induction H as [| x i c q n E H IH]; intros m H2; inversion H2; subst; auto. apply IH. congruence. Qed.

Theorem created : forall s x y, set_create s x = Ok y -> AttrsOnly x y /\
  forall q n m, Node x q n -> Node y q m ->
    (ToCreate s x q -> m = set_attr operation_tag "create" n) /\ (~ ToCreate s x q -> xattrs m = xattrs n).
Proof.
  intros s x. revert s. induction x as [t tx a ks IH] using xml_ind'. intros s y H. rewrite Forall_forall in IH.
  rewrite set_create_mapM in H. destruct (np_container s) eqn:NP.
  - apply bind_ok in H. destruct H as (ls & HL & H). cbn [xkids set_kids] in *. injection H as <-.
    pose proof (mapM_nth _ _ _ HL) as N. clear HL. assert (NPs : NonPresence s) by (apply np_iff; auto).
    assert (KID : forall c d, In c ks -> create_kid s c = Ok d -> exists e, schema_entry s (xtag c) = Ok e /\
              ((d = c /\ In (ce_pos e) (default_pos [] s)) \/ (set_create (ce_node e) c = Ok d /\ ~ In (ce_pos e) (default_pos [] s)))).
    { intros c d _ K. unfold create_kid in K. apply bind_ok in K. destruct K as (e & He & K). exists e. split; auto.
      destruct (mem pos_eqb (ce_pos e) (default_pos [] s)) eqn:M.
      - left. split; [congruence | apply mem_pos; auto].
      - right. split; auto. intro X. apply mem_pos in X. congruence. }
    split; [split |].
    + intros q n Hn. inversion Hn as [| x0 i c q' n' Hc Hq]; subst.
      * eexists. split; [constructor |]. split; reflexivity.
      * cbn [xkids] in Hc. destruct (N i) as [N1 _]. destruct (N1 c Hc) as (d & Hd & K). pose proof (nth_error_In _ _ Hc) as Ic.
        destruct (KID c d Ic K) as (e & He & [[-> _] | [K2 _]]).
        -- exists n. split; [apply (nd_kid _ i c); auto | auto].
        -- destruct (IH c Ic _ _ K2) as [[F _] _]. destruct (F q' n Hq) as (m & M1 & M2). exists m. split; auto. apply (nd_kid _ i d); auto.
    + intros q m Hm. inversion Hm as [| x0 i d q' n' Hd Hq]; subst; [eexists; constructor |]. cbn [xkids] in Hd.
      destruct (N i) as [_ N2]. destruct (N2 d Hd) as (c & Hc & K). pose proof (nth_error_In _ _ Hc) as Ic.
      destruct (KID c d Ic K) as (e & He & [[-> _] | [K2 _]]).
      * exists m. apply (nd_kid _ i c); auto.
      * destruct (IH c Ic _ _ K2) as [[_ F] _]. destruct (F q' m Hq) as (n & Hn). exists n. apply (nd_kid _ i c); auto.
    + intros q n m Hn Hm. inversion Hn as [| x0 i c q' n' Hc Hq]; subst.
      * inversion Hm; subst. split; [| reflexivity]. intro T. inversion T; subst. contradiction.
      * inversion Hm as [| x0 i' d q'' n' Hd Hq2]; subst. cbn [xkids] in *. destruct (N i) as [N1 _]. destruct (N1 c Hc) as (d' & Hd' & K).
        assert (d' = d) by congruence. subst d'. pose proof (nth_error_In _ _ Hc) as Ic.
        destruct (KID c d Ic K) as (e & He & KD). destruct (entry_locus s (xtag c) e He) as [L1 L2].
        assert (POS : ToCreate s (Elem t tx a ks) (i :: q') -> ~ In (ce_pos e) (default_pos [] s) /\ ToCreate (ce_node e) c q').
        { intro T. inversion T as [| s0 x0 i0 c0 p cs q0 P1 P2 P3 P4 P5 P6 P7]; subst. cbn [xkids] in P2. assert (c0 = c) by congruence. subst c0.
          assert (sty cs <> TChoice /\ sty cs <> TCase) as [C1 C2] by (destruct P4 as (_ & k & _ & Th); apply (Through_data k); auto).
          assert (ST : stag cs = xtag c) by apply P4.
          destruct (entry_pos s (xtag c) e cs p He ST P3 C1 C2) as [E1 _]. subst p.
          assert (cs = ce_node e) by (apply (locus_fun s (ce_pos e)); auto). subst cs. split; auto. intro X. apply in_use in X.
          destruct (listed_deep s (ce_pos e)) as [D1 D2].
          destruct X as [(k & X) | (k & X)].
          - assert (k = ce_node e) by (apply (deep_fun s (ce_pos e)); [apply D1; auto | apply locus_deep; auto]). subst. auto.
          - assert (k = ce_node e) by (apply (deep_fun s (ce_pos e)); [apply D2; auto | apply locus_deep; auto]). subst. auto. }
        destruct KD as [[-> M] | [K2 M]].
        -- assert (n = m) by (apply (node_fun c q'); auto). subst. split; auto. intro T. apply POS in T. tauto.
        -- destruct (IH c Ic _ _ K2) as [_ F]. destruct (F q' n m Hq Hq2) as [F1 F2]. split.
           ++ intro T. apply F1. apply POS. auto.
           ++ intro T. apply F2. intro X. apply T. apply (tc_kid s _ i c (ce_pos e) (ce_node e)); auto.
              ** intro U. apply M. apply in_use. eauto.
              ** intro U. apply M. apply in_use. eauto.
  - assert (y = set_attr operation_tag "create" (Elem t tx a ks)) by congruence. subst y.
    assert (NPs : ~ NonPresence s) by (intro X; apply np_iff in X; congruence). clear H. split; [split |].
    + intros q n Hn. destruct q as [| i q].
      * inversion Hn; subst. eexists. split; [constructor |]. split; reflexivity.
      * exists n. split; auto. apply (node_kid (Elem t tx a ks)); auto.
    + intros q m Hm. destruct q as [| i q]; [eexists; constructor |]. exists m. apply (node_kid (set_attr operation_tag "create" (Elem t tx a ks))); auto.
    + intros q n m Hn Hm. destruct q as [| i q].
      * inversion Hn; inversion Hm; subst. split; auto. intro T. exfalso. apply T. constructor. auto.
      * apply (node_kid _ (Elem t tx a ks)) in Hm; [| reflexivity]. assert (n = m) by (apply (node_fun (Elem t tx a ks) (i :: q)); auto). subst.
        split; auto. intro T. inversion T; subst. contradiction.
Qed.
