(** Moving orderless lines. *)
From Coq Require Import String Ascii List Bool Arith ZArith Lia Permutation.
From Verif Require Import Base BaseP RunningM RunSpec RunDiffP.
Import ListNotations.
Open Scope string_scope.
Open Scope list_scope.
Open Scope nat_scope.

(** ** Positions *)

Lemma index_of_nth : forall x l n, index_of x l = Ok n -> nth_error l n = Some x.
Proof.
  induction l as [| y r IH]; intros n H; [discriminate |]. cbn [index_of] in H. destruct (String.eqb y x) eqn:E.
  - injection H as H. subst n. apply String.eqb_eq in E. subst. auto.
  - apply bind_ok in H. destruct H as (m & H1 & H2). injection H2 as H2. subst n. simpl. auto.
Qed.
Lemma index_of_In : forall x l, In x l -> exists n, index_of x l = Ok n.
Proof.
  induction l as [| y r IH]; intro H; [destruct H |]. cbn [index_of]. destruct (String.eqb y x) eqn:E; [eauto |].
  destruct H as [H | H]. { subst. rewrite String.eqb_refl in E. discriminate. }
  destruct (IH H) as (n & N). rewrite N. cbn [bind]. eauto.
Qed.
Lemma nth_inj : forall (A : Type) (l : list A) i j x, NoDup l -> nth_error l i = Some x -> nth_error l j = Some x -> i = j.
Proof.
  intros A l i j x N H1 H2. apply (proj1 (NoDup_nth_error l) N). { apply nth_error_Some. congruence. } congruence.
Qed.
Lemma index_of_at : forall x l n, NoDup l -> nth_error l n = Some x -> index_of x l = Ok n.
Proof.
  intros x l n N H. destruct (index_of_In x l) as (m & M). { apply nth_error_In in H. auto. }
  rewrite M. f_equal. apply (nth_inj _ l m n x); auto. apply index_of_nth. auto.
Qed.

Lemma nth_firstn : forall (A : Type) n (l : list A) p, p < n -> nth_error (firstn n l) p = nth_error l p.
Proof. induction n as [| n IH]; intros [| x l] [| p] H; simpl; auto; try lia. apply IH. lia. Qed.
Lemma nth_skipn : forall (A : Type) n (l : list A) p, nth_error (skipn n l) p = nth_error l (n + p).
Proof. induction n as [| n IH]; intros [| x l] p; simpl; auto. destruct p; auto. Qed.

Definition below (p : nat) (b : option nat) : Prop := match b with None => True | Some n => p < n end.
Lemma slice_In : forall (l : list string) a b x, In x (slice a b l) <-> exists p, a <= p /\ below p b /\ nth_error l p = Some x.
Proof.
  intros l a b x. unfold slice. split.
  - intro H. apply In_nth_error in H. destruct H as (q & H). rewrite nth_skipn in H. exists (a + q). split; [lia |]. destruct b as [n |]; simpl; auto.
    assert (L : a + q < n). { assert (a + q < length (firstn n l)) by (apply nth_error_Some; congruence). rewrite firstn_length in H0. lia. }
    split; auto. rewrite nth_firstn in H; auto.
  - intros (p & P1 & P2 & P3). apply (nth_error_In _ (p - a)). rewrite nth_skipn. replace (a + (p - a)) with p by lia.
    destruct b as [n |]; auto. simpl in P2. rewrite nth_firstn; auto.
Qed.

Lemma NoDup_app_l : forall (A : Type) (a b : list A), NoDup (a ++ b) -> NoDup a.
Proof. induction a as [| x r IH]; intros b N; [constructor |]. simpl in N. inversion N; subst. constructor; [| apply (IH b); auto]. intro H. apply H1. apply in_or_app. auto. Qed.
Lemma NoDup_app_r : forall (A : Type) (a b : list A), NoDup (a ++ b) -> NoDup b.
Proof. induction a as [| x r IH]; intros b N; auto. simpl in N. inversion N; subst. auto. Qed.

Lemma slice_NoDup : forall (l : list string) a b, NoDup l -> NoDup (slice a b l).
Proof.
  intros l a b N. unfold slice. assert (F : forall n, NoDup (firstn n l)). { intro n. rewrite <- (firstn_skipn n l) in N. apply NoDup_app_l in N. auto. }
  assert (S : forall (m : list string), NoDup m -> NoDup (skipn a m)). { intros m M. rewrite <- (firstn_skipn a m) in M. apply NoDup_app_r in M. auto. }
  destruct b; auto.
Qed.

Lemma NoDup_filter' : forall (A : Type) (p : A -> bool) l, NoDup l -> NoDup (filter p l).
Proof.
  induction l as [| x r IH]; simpl; intro N; auto. inversion N as [| ? ? N1 N2]; subst. destruct (p x); auto. constructor; auto.
  intro H. apply filter_In in H. tauto.
Qed.

(** ** Insertion *)

Lemma removed_item_ok : forall k l, In k (keys l) -> exists x, removed_item k l = Ok x /\ In x l /\ ikey x = k.
Proof.
  induction l as [| y r IH]; intro H; [destruct H |]. cbn [removed_item]. destruct (String.eqb (ikey y) k) eqn:E.
  - apply String.eqb_eq in E. exists y. repeat split; auto. left. auto.
  - destruct H as [H | H]. { simpl in H. subst. rewrite String.eqb_refl in E. discriminate. }
    destruct (IH H) as (x & X1 & X2 & X3). exists x. repeat split; auto. right. auto.
Qed.

Lemma insert_at_split : forall (A : Type) n (x : A) l, firstn (S n) (insert_at n x l) = firstn n l ++ [x] /\ skipn (S n) (insert_at n x l) = skipn n l.
Proof.
  unfold insert_at. induction n as [| n IH]; intros x l; [simpl; auto |]. destruct l as [| y r]; [simpl; auto |].
  cbn [firstn skipn app]. destruct (IH x r) as [E1 E2]. split; [| auto]. f_equal. exact E1.
Qed.

Lemma insert_all_ok : forall l1 ks st, (forall k, In k ks -> In k (keys l1)) ->
  exists xs, insert_all l1 ks st = Ok (HState (firstn (h_off1 st) (h_list st) ++ xs ++ skipn (h_off1 st) (h_list st)) (h_off1 st + length ks) (h_off2 st) (h_ins st ++ ks) (h_anchor st)) /\
    keys xs = ks /\ incl xs l1.
Proof.
  intros l1. induction ks as [| k r IH]; intros st H.
  - exists []. split; [| split; [auto | intros x []]]. unfold insert_all. simpl. rewrite firstn_skipn, app_nil_r, Nat.add_0_r. destruct st; auto.
  - destruct (removed_item_ok k l1) as (x & X1 & X2 & X3); [apply H; left; auto |].
    unfold insert_all in *. cbn [foldM]. rewrite X1. cbn [bind].
    destruct (IH (HState (insert_at (h_off1 st) x (h_list st)) (S (h_off1 st)) (h_off2 st) (h_ins st ++ [k]) (h_anchor st))) as (xs & E & K & I).
    { intros q Q. apply H. right. auto. }
    exists (x :: xs). split; [| split].
    + rewrite E. cbn [h_list h_off1 h_off2 h_ins h_anchor length]. destruct (insert_at_split _ (h_off1 st) x (h_list st)) as [S1 S2]. rewrite S1, S2.
      rewrite <- !app_assoc. cbn [app]. rewrite Nat.add_succ_r. reflexivity.
    + cbn [keys map]. fold (keys xs). rewrite X3, K. auto.
    + intros y [Y | Y]; [subst; auto | apply I; auto].
Qed.

(** ** The common lines *)

Lemma keys_app : forall a b, keys (a ++ b) = keys a ++ keys b.
Proof. intros. apply map_app. Qed.

Lemma smem_filter_In : forall (f : string -> bool) l x, In x (filter f l) <-> In x l /\ f x = true.
Proof. intros. apply filter_In. Qed.

Lemma nub_In : forall l seen x, In x (nub seen l) <-> In x l /\ ~ In x seen.
Proof.
  induction l as [| y r IH]; intros seen x; simpl; [tauto |]. destruct (smem y seen) eqn:E.
  - rewrite IH. apply smem_In in E. split; [tauto |]. intros [[H | H] N]; [subst; contradiction | auto].
  - apply smem_nIn in E. simpl. rewrite IH. simpl. destruct (String.eqb y x) eqn:Q.
    + apply String.eqb_eq in Q. subst. tauto.
    + apply String.eqb_neq in Q. tauto.
Qed.

Lemma match_keys_In : forall ol k1 k2 k, In k (match_keys ol k1 k2) <-> In k k1 /\ In k k2 /\ ol k = true.
Proof.
  intros. unfold match_keys. rewrite nub_In, filter_In, andb_true_iff, smem_In. simpl. tauto.
Qed.

(** The common lines are found in both lists in the same order. *)
Inductive Sub {A : Type} : list A -> list A -> Prop :=
| sub_nil : forall l, Sub [] l
| sub_take : forall x l1 l2, Sub l1 l2 -> Sub (x :: l1) (x :: l2)
| sub_skip : forall x l1 l2, Sub l1 l2 -> Sub l1 (x :: l2).
Lemma Sub_In : forall (A : Type) (l1 l2 : list A), Sub l1 l2 -> incl l1 l2.
Proof.
  induction 1 as [l | x l1 l2 H IH | x l1 l2 H IH]; intros y Y; [destruct Y | destruct Y as [Y | Y]; [left; auto | right; auto] | right; auto].
Qed.
Lemma Sub_skips : forall (A : Type) (a l1 l2 : list A), Sub l1 l2 -> Sub l1 (a ++ l2).
Proof. induction a; simpl; intros; auto. constructor. auto. Qed.
Lemma Sub_refl : forall (A : Type) (l : list A), Sub l l.
Proof. induction l; constructor; auto. Qed.

Lemma common_keys_Sub : forall k2 l cs, common_keys l k2 = Ok cs -> Sub cs (keys l) /\ Sub cs k2.
Proof.
  induction k2 as [| k r IH]; intros l cs H; cbn [common_keys] in H.
  - injection H as H. subst. split; constructor.
  - destruct (smem k (keys l)) eqn:E.
    + apply bind_ok in H. destruct H as ([[a x] b] & H1 & H). apply bind_ok in H. destruct H as (cs' & H2 & H). injection H as H. subst cs.
      destruct (split_key_ok k l) as (a' & x' & b' & S & L & K & _). { apply smem_In. auto. }
      rewrite H1 in S. injection S as S1 S2 S3. subst a' x' b'. destruct (IH b cs' H2) as [I1 I2]. split.
      * rewrite L, keys_app. apply Sub_skips. cbn [keys map]. rewrite K. constructor. auto.
      * constructor. auto.
    + destruct (IH l cs H) as [I1 I2]. split; auto. constructor. auto.
Qed.


Lemma Sub_trans : forall (A : Type) (l2 l3 : list A), Sub l2 l3 -> forall l1, Sub l1 l2 -> Sub l1 l3.
Proof.
  induction 1 as [l | x l2 l3 H IH | x l2 l3 H IH]; intros l1 S.
  - inversion S. constructor.
  - inversion S; subst; [apply sub_nil | apply sub_take | apply sub_skip]; auto.
  - apply sub_skip. auto.
Qed.
Lemma Sub_filter : forall (A : Type) (p : A -> bool) l, Sub (filter p l) l.
Proof. induction l as [| x r IH]; simpl; [constructor |]. destruct (p x); constructor; auto. Qed.
Lemma Sub_map : forall (A B : Type) (f : A -> B) l1 l2, Sub l1 l2 -> Sub (map f l1) (map f l2).
Proof. induction 1; simpl; constructor; auto. Qed.

Lemma Sub_pos : forall (A : Type) (l1 l2 : list A), Sub l1 l2 -> NoDup l2 -> forall i j a b p q, i < j ->
  nth_error l1 i = Some a -> nth_error l1 j = Some b -> nth_error l2 p = Some a -> nth_error l2 q = Some b -> p < q.
Proof.
  induction 1 as [l | x l1 l2 H IH | x l1 l2 H IH]; intros N i j a b p q L Ha Hb Pa Pb.
  - destruct i; discriminate.
  - inversion N as [| ? ? N1 N2]; subst. destruct j as [| j]; [lia |]. simpl in Hb.
    destruct q as [| q]. { simpl in Pb. injection Pb as Pb. subst x. exfalso. apply N1. apply (Sub_In _ _ _ H). apply nth_error_In in Hb. auto. }
    destruct i as [| i].
    + simpl in Ha. injection Ha as Ha. subst x. destruct p as [| p]; [lia |]. simpl in Pa. exfalso. apply N1. apply nth_error_In in Pa. auto.
    + simpl in Ha. destruct p as [| p]; [lia |]. simpl in Pa, Pb. apply -> Nat.succ_lt_mono. apply (IH N2 i j a b); auto. lia.
  - inversion N as [| ? ? N1 N2]; subst. destruct p as [| p]. { simpl in Pa. injection Pa as Pa. subst x. exfalso. apply N1. apply (Sub_In _ _ _ H). apply nth_error_In in Ha. auto. }
    destruct q as [| q]. { simpl in Pb. injection Pb as Pb. subst x. exfalso. apply N1. apply (Sub_In _ _ _ H). apply nth_error_In in Hb. auto. }
    simpl in Pa, Pb. apply -> Nat.succ_lt_mono. apply (IH N2 i j a b); auto.
Qed.

(** ** One level *)

Section Level.
Variable ol : string -> bool.
Variables l1 l2 : list item.
Let k1 := keys l1.
Let k2 := keys l2.
Let mk := match_keys ol k1 k2.
Let base := filter (fun x => negb (smem (ikey x) mk)) l1.
Variable com : list string.
Hypothesis Hcom : common_keys base k2 = Ok com.

Lemma com_base : Sub com (keys base).
Proof. apply (common_keys_Sub k2). auto. Qed.
Lemma com_k2 : Sub com k2.
Proof. apply (common_keys_Sub k2 base). auto. Qed.
Lemma base_k1 : Sub (keys base) k1.
Proof. apply Sub_map. apply Sub_filter. Qed.
Lemma com_k1 : Sub com k1.
Proof. apply (Sub_trans _ _ _ base_k1). apply com_base. Qed.

Lemma base_keys : forall k, In k (keys base) <-> In k k1 /\ ~ In k mk.
Proof.
  intro k. unfold keys at 1. rewrite in_map_iff. split.
  - intros (x & E & H). apply filter_In in H. destruct H as [H1 H2]. apply negb_true_iff in H2. apply smem_nIn in H2. subst k. split; auto. apply in_map. auto.
  - intros [H1 H2]. unfold k1, keys in H1. apply in_map_iff in H1. destruct H1 as (x & E & H1). exists x. split; auto. apply filter_In. split; auto.
    apply negb_true_iff. apply smem_nIn. subst. auto.
Qed.
Lemma mk_k1 : forall k, In k mk -> In k k1.
Proof. intros k H. apply match_keys_In in H. tauto. Qed.
Lemma mk_k2 : forall k, In k mk -> In k k2.
Proof. intros k H. apply match_keys_In in H. tauto. Qed.
Lemma com_mk : forall k, In k com -> ~ In k mk.
Proof. intros k H. apply (Sub_In _ _ _ com_base) in H. apply base_keys in H. tauto. Qed.

(** No exception is raised, whatever the lists. *)
Definition tinv (st : hstate) : Prop :=
  incl (keys base) (keys (h_list st)) /\ (forall n, h_anchor st = Some n -> exists a, nth_error k2 n = Some a /\ In a com) /\ incl (h_list st) l1.

Lemma tinv_insert : forall st xs o1 o2 ins, tinv st -> incl xs l1 ->
  tinv (HState (firstn (h_off1 st) (h_list st) ++ xs ++ skipn (h_off1 st) (h_list st)) o1 o2 ins (h_anchor st)).
Proof.
  intros st xs o1 o2 ins [T1 [T2 T3]] X. split; [| split; auto].
  2: { cbn [h_list]. intros y Y. apply in_app_or in Y. destruct Y as [Y | Y]; [apply T3; rewrite <- (firstn_skipn (h_off1 st)); apply in_or_app; auto |].
       apply in_app_or in Y. destruct Y as [Y | Y]; auto. apply T3. rewrite <- (firstn_skipn (h_off1 st)). apply in_or_app. auto. }
  cbn [h_list]. intros k K. apply T1 in K. rewrite !keys_app. rewrite <- (firstn_skipn (h_off1 st) (h_list st)), keys_app in K.
  apply in_app_or in K. apply in_or_app. destruct K as [K | K]; auto. right. apply in_or_app. auto.
Qed.

Lemma step_total : forall st line, tinv st -> In line k1 -> exists st', orderless_step l1 k2 mk com st line = Ok st' /\ tinv st'.
Proof.
  intros st line T L. pose proof T as [T1 [T2 T3]]. unfold orderless_step. fold k1. destruct (smem line mk) eqn:M.
  - destruct (smem line (h_ins st)); [eauto |].
    assert (A : exists nl, match (match h_anchor st with None => None | Some n => nth_error k2 n end) with
        | None => Ok (nth_error com 0) | Some a => let! n := index_of a com in Ok (nth_error com (n + 1)) end = Ok nl /\ (forall a, nl = Some a -> In a com)).
    { destruct (h_anchor st) as [n |] eqn:E; [| eexists; split; [reflexivity |]; intros a; apply nth_error_In].
      destruct (T2 n eq_refl) as (a & A1 & A2). rewrite A1. destruct (index_of_In a com A2) as (m & Q). rewrite Q. cbn [bind]. eexists. split; [reflexivity |]. intro b. apply nth_error_In. }
    destruct A as (nl & A1 & A2). rewrite A1. cbn [bind].
    assert (B : exists v, match nl with None => Ok None | Some a => let! n := index_of a k2 in Ok (Some n) end = Ok v).
    { destruct nl as [a |]; [| eauto]. destruct (index_of_In a k2) as (m & Q). { apply (Sub_In _ _ _ com_k2). auto. } rewrite Q. cbn [bind]. eauto. }
    destruct B as (v & B). rewrite B. cbn [bind].
    assert (C : exists v, match (match h_anchor st with None => None | Some n => nth_error k2 n end) with None => Ok 0 | Some a => index_of a k1 end = Ok v).
    { destruct (h_anchor st) as [n |] eqn:E; [| eauto]. destruct (T2 n eq_refl) as (a & Q1 & Q2). rewrite Q1. apply index_of_In. apply (Sub_In _ _ _ com_k1). auto. }
    destruct C as (c & C). rewrite C. cbn [bind].
    assert (D : exists v, match nl with None => Ok None | Some a => let! n := index_of a k1 in Ok (Some n) end = Ok v).
    { destruct nl as [a |]; [| eauto]. destruct (index_of_In a k1) as (m & Q). { apply (Sub_In _ _ _ com_k1). auto. } rewrite Q. cbn [bind]. eauto. }
    destruct D as (w & D). rewrite D. cbn [bind]. apply smem_In in M.
    match goal with |- context [if ?b then _ else _] => destruct b end.
    + destruct (index_of_In line k2) as (i2 & I2). { apply mk_k2. auto. } rewrite I2. cbn [bind].
      match goal with |- context [insert_all l1 ?ks st] => destruct (insert_all_ok l1 ks st) as (xs & X & _ & XI) end.
      { intros k K. apply filter_In in K. destruct K as [_ K]. apply andb_true_iff in K. destruct K as [K _]. apply andb_true_iff in K. destruct K as [K _]. apply smem_In in K. apply mk_k1. auto. }
      rewrite X. cbn [bind]. eexists. split; [reflexivity |]. cbn [h_list h_off1 h_off2 h_ins h_anchor]. apply tinv_insert; auto.
    + destruct (insert_all_ok l1 [line] st) as (xs & X & _ & XI). { intros k [K | []]. subst. auto. }
      rewrite X. eexists. split; [reflexivity |]. apply tinv_insert; auto.
  - destruct (smem line com) eqn:C.
    + apply smem_In in C. destruct (index_of_In line k2) as (a2 & A2). { apply (Sub_In _ _ _ com_k2). auto. } rewrite A2. cbn [bind].
      destruct (index_of_In line k1 L) as (a1 & A1). rewrite A1. cbn [bind].
      assert (D : exists st1, (if h_off2 st <=? a2 then
         insert_all l1 (filter (fun k => smem k mk && smem k (slice (h_off1 st) (Some a1) k1) && negb (smem k (h_ins st))) (slice (h_off2 st) (Some a2) k2)) st
         else Ok st) = Ok st1 /\ tinv st1).
      { destruct (h_off2 st <=? a2); [| eauto].
        match goal with |- context [insert_all l1 ?ks st] => destruct (insert_all_ok l1 ks st) as (xs & X & _ & XI) end.
        { intros k K. apply filter_In in K. destruct K as [_ K]. apply andb_true_iff in K. destruct K as [K _]. apply andb_true_iff in K. destruct K as [K _]. apply smem_In in K. apply mk_k1. auto. }
        rewrite X. eexists. split; [reflexivity |]. apply tinv_insert; auto. }
      destruct D as (st1 & D & [D1 [D2 D3]]). rewrite D. cbn [bind]. destruct (index_of_In line (keys (h_list st1))) as (n & N). { apply D1. apply (Sub_In _ _ _ com_base). auto. }
      rewrite N. cbn [bind]. eexists. split; [reflexivity |]. split; [auto | split; auto]. cbn [h_anchor]. intros m E. injection E as E. subst m. exists line. split; [apply index_of_nth |]; auto.
    + destruct (index_of_In line (keys (h_list st))) as (n & N). { apply T1. apply base_keys. split; auto. apply smem_nIn. auto. }
      rewrite N. cbn [bind]. eexists. split; [reflexivity |]. split; [auto | split; auto].
Qed.
End Level.

Lemma level_total : forall ol l1 l2, exists l, orderless_level ol l1 l2 = Ok l /\ incl l l1.
Proof.
  intros ol l1 l2. unfold orderless_level. cbv zeta. set (base := filter _ l1). destruct (common_keys_ok (keys l2) base) as (com & C). rewrite C. cbn [bind].
  assert (G : forall ks st, incl ks (keys l1) -> tinv ol l1 l2 com st -> exists st', foldM (orderless_step l1 (keys l2) (match_keys ol (keys l1) (keys l2)) com) st ks = Ok st' /\ tinv ol l1 l2 com st').
  { induction ks as [| k r IH]; intros st I T; [simpl; eauto |]. destruct (step_total ol l1 l2 com C st k T) as (st1 & E & T'); [apply I; left; auto |].
    cbn [foldM]. rewrite E. cbn [bind]. apply IH; auto. intros x X. apply I. right. auto. }
  destruct (G (keys l1) (HState base 0 0 [] None)) as (st & E & T); [apply incl_refl | split; [apply incl_refl | split; [discriminate | intros y Y; apply filter_In in Y; tauto]] |]. rewrite E. cbn [bind].
  match goal with |- context [insert_all l1 ?ks st] => destruct (insert_all_ok l1 ks st) as (xs & X & _ & XI) end.
  { intros k K. apply filter_In in K. destruct K as [_ K]. apply andb_true_iff in K. destruct K as [K _]. apply smem_In in K. apply match_keys_In in K. tauto. }
  rewrite X. cbn [bind]. eexists. split; [reflexivity |].
  destruct (tinv_insert ol l1 l2 com st xs 0 0 [] T XI) as (_ & _ & G3). exact G3.
Qed.

(** ** One step, with positions instead of indexes *)

Section Distinct.
Variable ol : string -> bool.
Variables l1 l2 : list item.
Let k1 := keys l1.
Let k2 := keys l2.
Let mk := match_keys ol k1 k2.
Let base := filter (fun x => negb (smem (ikey x) mk)) l1.
Variable com : list string.
Hypothesis Hcom : common_keys base k2 = Ok com.
Hypothesis N1 : NoDup k1.
Hypothesis N2 : NoDup k2.

(** Position [p] of list [k] lies between the common lines number [n - 1] and [n]. *)
Definition inwin (k : list string) (n p : nat) : Prop :=
  (forall i a r, n = S i -> nth_error com i = Some a -> nth_error k r = Some a -> r <= p) /\
  (forall a r, nth_error com n = Some a -> nth_error k r = Some a -> p < r).

(** [t] lines were visited, [n] of them common. *)
Definition passed (t n : nat) : Prop :=
  n <= length com /\ forall i a p, nth_error com i = Some a -> nth_error k1 p = Some a -> (i < n <-> p < t).
Definition anchored (st : hstate) (n : nat) : Prop :=
  match n with
  | 0 => h_anchor st = None
  | S i => exists a p, nth_error com i = Some a /\ nth_error k2 p = Some a /\ h_anchor st = Some p
  end.

Definition inserted (st : hstate) (xs : list item) (ks : list string) : hstate :=
  HState (firstn (h_off1 st) (h_list st) ++ xs ++ skipn (h_off1 st) (h_list st)) (h_off1 st + length ks) (h_off2 st) (h_ins st ++ ks) (h_anchor st).

Inductive Step (t n : nat) (st : hstate) (line : string) : hstate -> Prop :=
| st_already : In line mk -> In line (h_ins st) -> Step t n st line st
| st_inwin : forall q f xs, In line mk -> ~ In line (h_ins st) -> nth_error k2 q = Some line -> inwin k2 n q ->
    (forall k, f k = true <-> In k mk /\ (exists p, nth_error k1 p = Some k /\ inwin k1 n p) /\ ~ In k (h_ins st)) ->
    keys xs = filter f (slice (h_off2 st) (Some (q + 1)) k2) -> incl xs l1 ->
    Step t n st line (let st' := inserted st xs (keys xs) in HState (h_list st') (h_off1 st') (q + 1) (h_ins st') (h_anchor st'))
| st_outwin : forall q xs, In line mk -> ~ In line (h_ins st) -> nth_error k2 q = Some line -> ~ inwin k2 n q ->
    keys xs = [line] -> incl xs l1 -> Step t n st line (inserted st xs [line])
| st_common : forall q f xs m, nth_error com n = Some line -> nth_error k2 q = Some line ->
    (forall k, f k = true <-> In k mk /\ (exists p, nth_error k1 p = Some k /\ h_off1 st <= p < t) /\ ~ In k (h_ins st)) ->
    keys xs = filter f (slice (h_off2 st) (Some q) k2) -> incl xs l1 ->
    index_of line (keys (h_list (inserted st xs (keys xs)))) = Ok m ->
    Step t n st line (let st' := inserted st xs (keys xs) in HState (h_list st') (m + 1) (Nat.max (q + 1) (h_off2 st)) (h_ins st') (Some q))
| st_other : forall o, ~ In line mk -> ~ In line com -> Step t n st line (HState (h_list st) o (h_off2 st) (h_ins st) (h_anchor st)).

Lemma inwin_slice : forall k n last nxt x, NoDup k -> (forall a, In a com -> In a k) ->
  match n with 0 => last = 0 | S i => exists a, nth_error com i = Some a /\ nth_error k last = Some a end ->
  match nth_error com n with None => nxt = None | Some a => exists r, nth_error k r = Some a /\ nxt = Some r end ->
  (In x (slice last nxt k) <-> exists p, nth_error k p = Some x /\ inwin k n p).
Proof.
  intros k n last nxt x Nk Ck L X. rewrite slice_In. split; intros (p & P).
  - destruct P as (P1 & P2 & P3). exists p. split; auto. split.
    + intros i a r E A R. subst n. destruct L as (a' & A' & L). rewrite A in A'. injection A' as A'. subst a'. rewrite (nth_inj _ k r last a); auto.
    + intros a r A R. rewrite A in X. destruct X as (r' & R' & X). subst nxt. simpl in P2. rewrite (nth_inj _ k r r' a); auto.
  - destruct P as (P1 & P2 & P3). exists p. split; [| split; auto].
    + destruct n as [| i]; [subst; lia |]. destruct L as (a & A & L). apply (P2 i a last); auto.
    + destruct (nth_error com n) as [a |] eqn:A; [| subst; simpl; auto]. destruct X as (r & R & X). subst nxt. simpl. apply (P3 a r); auto.
Qed.

Lemma slice_empty : forall (l : list string) a b, b < a -> slice a (Some b) l = [].
Proof.
  intros l a b H. destruct (slice a (Some b) l) as [| x r] eqn:E; auto. exfalso. assert (In x (slice a (Some b) l)) by (rewrite E; left; auto).
  apply slice_In in H0. destruct H0 as (p & P1 & P2 & _). simpl in P2. lia.
Qed.

Lemma N_com : NoDup com.
Proof.
  assert (G : forall (l l' : list string), Sub l l' -> NoDup l' -> NoDup l).
  { induction 1 as [l | x a b H IH | x a b H IH]; intro N; [constructor | |].
    - inversion N; subst. constructor; auto. intro Q. apply (Sub_In _ _ _ H) in Q. contradiction.
    - inversion N; subst. auto. }
  apply (G com k2); auto. apply (com_k2 ol l1 l2). auto.
Qed.

Lemma step_inv : forall t n st line st', passed t n -> anchored st n -> nth_error k1 t = Some line ->
  incl (keys base) (keys (h_list st)) ->
  orderless_step l1 k2 mk com st line = Ok st' -> Step t n st line st'.
Proof.
  intros t n st line st' P A L T H. assert (C1 : forall a, In a com -> In a k1) by (intros a Q; apply (Sub_In _ _ _ (com_k1 ol l1 l2 com Hcom)); auto).
  assert (C2 : forall a, In a com -> In a k2) by (intros a Q; apply (Sub_In _ _ _ (com_k2 ol l1 l2 com Hcom)); auto).
  unfold orderless_step in H. fold k1 in H. destruct (smem line mk) eqn:M.
  - apply smem_In in M. destruct (smem line (h_ins st)) eqn:I. { injection H as H. subst st'. apply st_already; auto. apply smem_In. auto. }
    apply smem_nIn in I.
    set (ll := match h_anchor st with None => None | Some n => nth_error k2 n end) in *.
    assert (LL : ll = match n with 0 => None | S i => nth_error com i end).
    { unfold ll. destruct n as [| i]; simpl in A; [rewrite A; auto |]. destruct A as (a & p & A1 & A2 & A3). rewrite A3. congruence. }
    assert (NL : match ll with None => Ok (nth_error com 0) | Some a => let! n := index_of a com in Ok (nth_error com (n + 1)) end = Ok (nth_error com n)).
    { rewrite LL. destruct n as [| i]; auto. simpl in A. destruct A as (a & p & A1 & _). rewrite A1. rewrite (index_of_at a com i N_com A1). cbn [bind]. do 2 f_equal. lia. }
    rewrite NL in H. cbn [bind] in H. clear NL.
    assert (XX : forall k, NoDup k -> (forall a, In a com -> In a k) -> exists nx, match nth_error com n with None => Ok None | Some a => let! n := index_of a k in Ok (Some n) end = Ok nx /\
       match nth_error com n with None => nx = None | Some a => exists r, nth_error k r = Some a /\ nx = Some r end).
    { intros k Nk Ck. destruct (nth_error com n) as [a |] eqn:E; [| exists None; auto]. destruct (index_of_In a k) as (m & Q). { apply Ck. apply nth_error_In in E. auto. }
      exists (Some m). rewrite Q. split; auto. exists m. split; auto. apply index_of_nth. auto. }
    destruct (XX k2 N2 C2) as (nx2 & X2 & Y2). destruct (XX k1 N1 C1) as (nx1 & X1 & Y1). rewrite X2 in H. cbn [bind] in H.
    assert (LA : exists la, match ll with None => Ok 0 | Some a => index_of a k1 end = Ok la /\
       match n with 0 => la = 0 | S i => exists a, nth_error com i = Some a /\ nth_error k1 la = Some a end).
    { rewrite LL. destruct n as [| i]; [exists 0; auto |]. simpl in A. destruct A as (a & p & A1 & _). rewrite A1. destruct (index_of_In a k1) as (m & Q). { apply C1. apply nth_error_In in A1. auto. }
      exists m. split; auto. exists a. split; auto. apply index_of_nth. auto. }
    destruct LA as (la & LA & LB). rewrite LA in H. cbn [bind] in H. rewrite X1 in H. cbn [bind] in H.
    destruct (index_of_In line k2) as (q & Q). { apply (mk_k2 ol l1 l2). auto. } pose proof (index_of_nth _ _ _ Q) as Q'.
    assert (W2 : In line (slice (match h_anchor st with None => 0 | Some n => n end) nx2 k2) <-> inwin k2 n q).
    { rewrite (inwin_slice k2 n); auto.
      - split; [| exists q; auto]. intros (p & P1 & P2). rewrite (nth_inj _ k2 q p line); auto.
      - destruct n as [| i]; simpl in A; [rewrite A; auto |]. destruct A as (a & p & A1 & A2 & A3). rewrite A3. exists a. auto. }
    match type of H with (if smem line ?s then _ else _) = _ => destruct (smem line s) eqn:S end.
    + apply smem_In in S. apply W2 in S. rewrite Q in H. cbn [bind] in H.
      match type of H with (let! _ := insert_all l1 (filter ?ff _) st in _) = _ => set (f := ff) in * end.
      assert (F : forall k, f k = true <-> In k mk /\ (exists p, nth_error k1 p = Some k /\ inwin k1 n p) /\ ~ In k (h_ins st)).
      { intro k. unfold f. rewrite !andb_true_iff, !smem_In, negb_true_iff, smem_nIn, (inwin_slice k1 n); auto. tauto. }
      destruct (insert_all_ok l1 (filter f (slice (h_off2 st) (Some (q + 1)) k2)) st) as (xs & X & K & J).
      { intros k Hk. apply filter_In in Hk. destruct Hk as [_ Hk]. apply F in Hk. apply (mk_k1 ol l1 l2). tauto. }
      rewrite X in H. cbn [bind] in H. injection H as H. subst st'. rewrite <- K. apply (st_inwin t n st line q f xs); auto.
    + apply smem_nIn in S. destruct (insert_all_ok l1 [line] st) as (xs & X & K & J). { intros k [Hk | []]. subst. apply (mk_k1 ol l1 l2). auto. }
      rewrite X in H. injection H as H. subst st'. apply (st_outwin t n st line q xs); auto. intro Z. apply S. apply W2. auto.
  - apply smem_nIn in M. destruct (smem line com) eqn:C.
    + apply smem_In in C. destruct (index_of_In line k2 (C2 _ C)) as (q & Q). rewrite Q in H. cbn [bind] in H.
      rewrite (index_of_at line k1 t N1 L) in H. cbn [bind] in H. pose proof (index_of_nth _ _ _ Q) as Q'.
      assert (CN : nth_error com n = Some line).
      { apply In_nth_error in C. destruct C as (i & C). destruct P as [P1 P2]. pose proof (P2 i line t C L) as P3.
        assert (NI : ~ i < n) by lia. destruct (Nat.eq_dec i n) as [| NE]; [subst; auto |]. exfalso.
        destruct (nth_error com n) as [b |] eqn:B; [| apply nth_error_None in B; assert (i < length com) by (apply nth_error_Some; congruence); lia].
        destruct (In_nth_error k1 b) as (r & R). { apply C1. apply nth_error_In in B. auto. }
        pose proof (P2 n b r B R) as P4. assert (r < t). { apply (Sub_pos _ com k1 (com_k1 ol l1 l2 com Hcom) N1 n i b line); auto. lia. } lia. }
      match type of H with (let! st1 := (if _ then insert_all l1 (filter ?ff _) st else _) in _) = _ => set (f := ff) in * end.
      assert (F : forall k, f k = true <-> In k mk /\ (exists p, nth_error k1 p = Some k /\ h_off1 st <= p < t) /\ ~ In k (h_ins st)).
      { intro k. unfold f. rewrite !andb_true_iff, !smem_In, negb_true_iff, smem_nIn, slice_In. simpl. split.
        - intros [[Z1 (p & Z2 & Z3 & Z4)] Z5]. split; auto. split; auto. exists p. auto.
        - intros (Z1 & (p & Z2 & Z3) & Z4). split; auto. split; auto. exists p. split; [lia |]. split; [lia | auto]. }
      destruct (insert_all_ok l1 (filter f (slice (h_off2 st) (Some q) k2)) st) as (xs & X & K & J).
      { intros k Hk. apply filter_In in Hk. destruct Hk as [_ Hk]. apply F in Hk. apply (mk_k1 ol l1 l2). tauto. }
      assert (E : (if h_off2 st <=? q then insert_all l1 (filter f (slice (h_off2 st) (Some q) k2)) st else Ok st) = Ok (inserted st xs (keys xs))).
      { rewrite K. destruct (h_off2 st <=? q) eqn:B; auto. apply Nat.leb_gt in B. rewrite slice_empty in K by auto. simpl in K. rewrite slice_empty by auto. unfold inserted.
        destruct xs; [| discriminate]. simpl. rewrite app_nil_r, Nat.add_0_r, firstn_skipn. destruct st; auto. }
      rewrite E in H. cbn [bind] in H. apply bind_ok in H. destruct H as (m & M1 & H). injection H as H. subst st'.
      replace (if h_off2 st <? q + 1 then q + 1 else h_off2 st) with (Nat.max (q + 1) (h_off2 st)).
      * apply (st_common t n st line q f xs m); auto.
      * destruct (h_off2 st <? q + 1) eqn:B; [apply Nat.ltb_lt in B | apply Nat.ltb_ge in B]; lia.
    + apply smem_nIn in C. apply bind_ok in H. destruct H as (m & _ & H). injection H as H. subst st'. apply st_other; auto.
Qed.

(** ** Every orderless line is put back *)

Record Frame (t n : nat) (st : hstate) : Prop := {
  fr_passed : passed t n;
  fr_anchor : anchored st n;
  fr_next : forall a p, nth_error com n = Some a -> nth_error k2 p = Some a -> h_off2 st <= p;
  fr_done : forall m p, In m mk -> nth_error k1 p = Some m -> p < t -> In m (h_ins st);
  fr_win : forall m p q, In m mk -> nth_error k1 p = Some m -> nth_error k2 q = Some m -> inwin k1 n p -> inwin k2 n q -> q < h_off2 st -> In m (h_ins st);
  fr_ins : NoDup (h_ins st) /\ incl (h_ins st) mk;
  fr_base : filter (fun x => negb (smem (ikey x) mk)) (h_list st) = base;
  fr_items : incl (h_list st) l1;
  fr_keys : Permutation (keys (h_list st)) (keys base ++ h_ins st) }.

Lemma C1 : forall a, In a com -> In a k1.
Proof. intros a Q. apply (Sub_In _ _ _ (com_k1 ol l1 l2 com Hcom)). auto. Qed.
Lemma C2 : forall a, In a com -> In a k2.
Proof. intros a Q. apply (Sub_In _ _ _ (com_k2 ol l1 l2 com Hcom)). auto. Qed.
Lemma CM : forall a, In a com -> ~ In a mk.
Proof. intros a Q. apply (com_mk ol l1 l2 com Hcom). auto. Qed.

Lemma ins_base : forall st xs ks, keys xs = ks -> incl ks mk -> filter (fun x => negb (smem (ikey x) mk)) (h_list st) = base ->
  filter (fun x => negb (smem (ikey x) mk)) (h_list (inserted st xs ks)) = base.
Proof.
  intros st xs ks K I H. cbn [inserted h_list]. rewrite !filter_app. replace (filter (fun x => negb (smem (ikey x) mk)) xs) with (@nil item).
  - simpl. rewrite <- filter_app, firstn_skipn. auto.
  - symmetry. destruct (filter _ xs) as [| y r] eqn:E; auto. exfalso. assert (Y : In y (filter (fun x => negb (smem (ikey x) mk)) xs)) by (rewrite E; left; auto).
    apply filter_In in Y. destruct Y as [Y1 Y2]. apply negb_true_iff in Y2. apply smem_nIn in Y2. apply Y2. apply I. rewrite <- K. apply in_map. auto.
Qed.
Lemma ins_items : forall st xs ks, incl xs l1 -> incl (h_list st) l1 -> incl (h_list (inserted st xs ks)) l1.
Proof.
  intros st xs ks X H y Y. cbn [inserted h_list] in Y. apply in_app_or in Y. destruct Y as [Y | Y].
  - apply H. rewrite <- (firstn_skipn (h_off1 st)). apply in_or_app. auto.
  - apply in_app_or in Y. destruct Y as [Y | Y]; auto. apply H. rewrite <- (firstn_skipn (h_off1 st)). apply in_or_app. auto.
Qed.
Lemma ins_keys : forall st xs ks b, keys xs = ks -> Permutation (keys (h_list st)) (b ++ h_ins st) -> Permutation (keys (h_list (inserted st xs ks))) (b ++ h_ins st ++ ks).
Proof.
  intros st xs ks b K H. cbn [inserted h_list]. rewrite !keys_app, K. rewrite (app_assoc b).
  rewrite <- (firstn_skipn (h_off1 st) (h_list st)), keys_app in H. rewrite <- H. rewrite <- !app_assoc. apply Permutation_app_head. apply Permutation_app_comm.
Qed.

Lemma NoDup_app' : forall (A : Type) (a b : list A), NoDup a -> NoDup b -> (forall x, In x a -> ~ In x b) -> NoDup (a ++ b).
Proof.
  induction a as [| x r IH]; intros b Na Nb D; auto. inversion Na as [| ? ? Na1 Na2]; subst. simpl. constructor.
  - intro H. apply in_app_or in H. destruct H as [H | H]; auto. apply (D x); auto. left. auto.
  - apply IH; auto. intros y Y. apply D. right. auto.
Qed.

Lemma passed_skip : forall t n line, passed t n -> nth_error k1 t = Some line -> ~ In line com -> passed (S t) n.
Proof.
  intros t n line [P1 P2] L C. split; auto. intros i a p A R. rewrite (P2 i a p A R). split; [lia |]. intro H.
  destruct (Nat.eq_dec p t) as [| NE]; [| lia]. subst p. exfalso. apply C. rewrite L in R. injection R as R. subst. apply nth_error_In in A. auto.
Qed.
Lemma passed_next : forall t n line, passed t n -> nth_error k1 t = Some line -> nth_error com n = Some line -> passed (S t) (S n).
Proof.
  intros t n line [P1 P2] L C. split. { assert (n < length com) by (apply nth_error_Some; congruence). lia. }
  intros i a p A R. pose proof (P2 i a p A R) as P3. split; intro H.
  - destruct (Nat.eq_dec i n) as [| NE]; [| lia]. subst i. rewrite C in A. injection A as A. subst a. rewrite (nth_inj _ k1 p t line); auto.
  - destruct (Nat.eq_dec p t) as [| NE]; [| lia]. subst p. assert (line = a) by congruence. subst a. rewrite (nth_inj _ com i n line); auto. apply N_com.
Qed.
Lemma passed_inwin : forall t n line, passed t n -> nth_error k1 t = Some line -> ~ In line com -> inwin k1 n t.
Proof.
  intros t n line [P1 P2] L C. split.
  - intros i a r E A R. subst n. apply (P2 i a r A) in R. lia.
  - intros a r A R. pose proof (P2 n a r A R). destruct (Nat.eq_dec r t) as [| NE]; [| lia]. subst r. exfalso. apply C. rewrite L in R. injection R as R. subst. apply nth_error_In in A. auto.
Qed.

Lemma Frame_step : forall t n st line st', Frame t n st -> nth_error k1 t = Some line -> Step t n st line st' ->
  exists n', Frame (S t) n' st'.
Proof.
  intros t n st line st' F L S. pose proof F as [FP FA FN FD FW FI FB FT FK]. destruct FI as [FI1 FI2].
  destruct S as [M I | q f xs M I Q W HF K J | q xs M I Q W K J | q f xs m C Q HF K J IX | o M C].
  - (* already inserted *)
    assert (NC : ~ In line com) by (intro Z; apply (CM line); auto). exists n. constructor; auto.
    + apply (passed_skip t n line); auto.
    + intros k p K P B. destruct (Nat.eq_dec p t) as [| NE]; [| apply (FD k p); auto; lia]. subst p. rewrite L in P. injection P as P. subst k. auto.
  - (* in the window *)
    assert (NC : ~ In line com) by (intro Z; apply (CM line); auto). assert (PW := passed_inwin t n line FP L NC).
    assert (OQ : h_off2 st <= q). { destruct (le_lt_dec (h_off2 st) q) as [| Z]; auto. exfalso. apply I. apply (FW line t q); auto. }
    set (ks := keys xs) in *. assert (KS : forall k, In k ks <-> (exists p, h_off2 st <= p < q + 1 /\ nth_error k2 p = Some k) /\ f k = true).
    { intro k. rewrite K, filter_In, slice_In. simpl. split; intros [Z1 Z2]; split; auto; destruct Z1 as (p & Z1); exists p; tauto. }
    assert (KM : incl ks mk) by (intros k Z; apply KS in Z; destruct Z as [_ Z]; apply HF in Z; tauto).
    assert (KI : forall k, In k (h_ins st) -> ~ In k ks) by (intros k Z1 Z; apply KS in Z; destruct Z as [_ Z]; apply HF in Z; tauto).
    assert (KL : In line ks). { apply KS. split. { exists q. split; auto. lia. } apply HF. split; auto. split; auto. exists t. auto. }
    exists n. constructor; cbn [h_list h_off1 h_off2 h_ins h_anchor inserted].
    + apply (passed_skip t n line); auto.
    + exact FA.
    + intros a p A R. assert (Z : q < p) by (apply (proj2 W a p); auto). lia.
    + intros k p Z P B. apply in_or_app. destruct (Nat.eq_dec p t) as [| NE]; [| left; apply (FD k p); auto; lia]. subst p. rewrite L in P. injection P as P. subst k. auto.
    + intros k p r Z1 Z2 Z3 Z4 Z5 Z6. apply in_or_app. destruct (in_dec string_dec k (h_ins st)) as [| NI]; auto. right. apply KS. split.
      * exists r. split; auto. split; [| lia]. destruct (le_lt_dec (h_off2 st) r) as [| Z]; auto. exfalso. apply NI. apply (FW k p r); auto.
      * apply HF. split; auto. split; auto. exists p. auto.
    + split. { apply NoDup_app'; auto. rewrite K. apply NoDup_filter'. apply slice_NoDup. auto. } intros k Z. apply in_app_or in Z. destruct Z; auto.
    + apply (ins_base st xs ks); auto.
    + apply (ins_items st xs ks); auto.
    + apply (ins_keys st xs ks); auto.
  - (* outside of the window *)
    assert (NC : ~ In line com) by (intro Z; apply (CM line); auto).
    assert (KM : incl [line] mk) by (intros k [Z | []]; subst; auto).
    exists n. constructor; cbn [h_off1 h_off2 h_ins h_anchor].
    + apply (passed_skip t n line); auto.
    + exact FA.
    + exact FN.
    + intros k p Z P B. cbn [inserted h_ins]. apply in_or_app. destruct (Nat.eq_dec p t) as [| NE]; [| left; apply (FD k p); auto; lia]. subst p. rewrite L in P. injection P as P. subst k. right. left. auto.
    + intros k p r Z1 Z2 Z3 Z4 Z5 Z6. cbn [inserted h_ins h_off2] in *. apply in_or_app. left. apply (FW k p r); auto.
    + cbn [inserted h_ins]. split. { apply NoDup_app'; auto. { constructor; [intros [] | constructor]. } intros k Z [Z' | []]. subst. auto. } intros k Z. apply in_app_or in Z. destruct Z; auto.
    + apply (ins_base st xs [line]); auto.
    + apply (ins_items st xs [line]); auto.
    + apply (ins_keys st xs [line]); auto.
  - (* a common line *)
    assert (E : keys xs = []).
    { rewrite K. destruct (filter f _) as [| k r] eqn:Z; auto. exfalso. assert (Y : In k (filter f (slice (h_off2 st) (Some q) k2))) by (rewrite Z; left; auto).
      apply filter_In in Y. destruct Y as [_ Y]. apply HF in Y. destruct Y as (Y1 & (p & Y2 & Y3) & Y4). apply Y4. apply (FD k p); auto. lia. }
    destruct xs; [| discriminate]. assert (OQ : h_off2 st <= q) by (apply (FN line q); auto).
    assert (EL : h_list (inserted st [] (keys [])) = h_list st) by (cbn [inserted h_list]; simpl; rewrite firstn_skipn; auto).
    assert (EI : h_ins (inserted st [] (keys [])) = h_ins st) by (cbn [inserted h_ins]; simpl; rewrite app_nil_r; auto).
    exists (S n). cbv zeta. rewrite EL, EI. constructor; cbn [h_list h_off1 h_off2 h_ins h_anchor].
    + apply (passed_next t n line); auto.
    + exists line, q. auto.
    + intros a p A R. assert (q < p). { apply (Sub_pos _ com k2 (com_k2 ol l1 l2 com Hcom) N2 n (S n) line a); auto. } lia.
    + intros k p Z P B. destruct (Nat.eq_dec p t) as [| NE]; [| apply (FD k p); auto; lia]. subst p. assert (k = line) by congruence. subst k. exfalso. apply (CM line); auto. apply nth_error_In in C. auto.
    + intros k p r Z1 Z2 Z3 Z4 Z5 Z6. assert (r = q). { assert (q <= r) by (apply (proj1 Z5 n line q); auto). lia. } subst r. assert (k = line) by congruence. subst k. exfalso. apply (CM line); auto. apply nth_error_In in C. auto.
    + auto.
    + auto.
    + auto.
    + auto.
  - (* another line *)
    exists n. constructor; cbn [h_list h_off1 h_off2 h_ins h_anchor]; auto.
    + apply (passed_skip t n line); auto.
    + intros k p Z P B. destruct (Nat.eq_dec p t) as [| NE]; [| apply (FD k p); auto; lia]. subst p. assert (k = line) by congruence. subst k. contradiction.
Qed.

Lemma filter_idem : forall (A : Type) (p : A -> bool) l, filter p (filter p l) = filter p l.
Proof. induction l as [| x r IH]; auto. cbn [filter]. destruct (p x) eqn:E; auto. cbn [filter]. rewrite E. f_equal. auto. Qed.

Lemma keys_filter_NoDup : forall p l, NoDup (keys l) -> NoDup (keys (filter p l)).
Proof.
  induction l as [| x r IH]; intro N; [constructor |]. cbn [keys map] in N. inversion N as [| ? ? Q1 Q2]; subst. cbn [filter]. destruct (p x); [| apply IH; auto].
  cbn [keys map]. constructor; [| apply IH; auto]. intro Z. apply Q1. apply in_map_iff in Z. destruct Z as (y & Z1 & Z2). apply filter_In in Z2. rewrite <- Z1. apply in_map. tauto.
Qed.
Lemma same_key : forall l x y, NoDup (keys l) -> In x l -> In y l -> ikey y = ikey x -> x = y.
Proof.
  induction l as [| z r IH]; intros x y N X Y K; [destruct X |]. cbn [keys map] in N. inversion N as [| ? ? Q1 Q2]; subst.
  destruct X as [X | X], Y as [Y | Y]; subst; auto; exfalso; apply Q1; [rewrite <- K | rewrite K]; apply in_map; auto.
Qed.

Lemma Frame_start : Frame 0 0 (HState base 0 0 [] None).
Proof.
  constructor; cbn [h_list h_off1 h_off2 h_ins h_anchor]; auto; try (intros; lia).
  - split; [lia |]. intros. lia.
  - reflexivity.
  - split; [constructor | intros x []].
  - apply filter_idem.
  - intros x X. apply filter_In in X. tauto.
  - rewrite app_nil_r. auto.
Qed.

Lemma Frame_all : forall ks t n st st', Frame t n st -> skipn t k1 = ks -> foldM (orderless_step l1 k2 mk com) st ks = Ok st' -> exists n', Frame (length k1) n' st'.
Proof.
  induction ks as [| k r IH]; intros t n st st' F S H.
  - simpl in H. injection H as H. subst st'. exists n. assert (B : length k1 <= t). { assert (length (skipn t k1) = 0) by (rewrite S; auto). rewrite skipn_length in H. lia. }
    destruct F as [FP FA FN FD FW FI FB FT FK]. constructor; auto.
    + destruct FP as [P1 P2]. split; auto. intros i a p A R. rewrite (P2 i a p A R). assert (p < length k1) by (apply nth_error_Some; congruence). lia.
    + intros m p M P L. apply (FD m p); auto. lia.
  - cbn [foldM] in H. apply bind_ok in H. destruct H as (st1 & H1 & H). assert (L : nth_error k1 t = Some k). { replace t with (t + 0) by lia. rewrite <- nth_skipn, S. auto. }
    assert (T : incl (keys base) (keys (h_list st))). { intros x X. apply (Permutation_in x (Permutation_sym (fr_keys _ _ _ F))). apply in_or_app. auto. }
    pose proof (step_inv t n st k st1 (fr_passed _ _ _ F) (fr_anchor _ _ _ F) L T H1) as ST. destruct (Frame_step t n st k st1 F L ST) as (n1 & F1).
    apply (IH (Datatypes.S t) n1 st1 st'); auto. clear - S. revert t S. induction k1 as [| y l IHl]; intros [| t] S; simpl in *; try discriminate; [injection S; auto | apply IHl; auto].
Qed.

(** The final loop finds nothing to insert. *)
Lemma level_ok : forall l, orderless_level ol l1 l2 = Ok l ->
  Permutation l1 l /\ filter (fun x => negb (smem (ikey x) mk)) l = base /\
  (exists n st, Frame (length k1) n st /\ foldM (orderless_step l1 k2 mk com) (HState base 0 0 [] None) k1 = Ok st /\ l = h_list st).
Proof.
  intros l H. unfold orderless_level in H. cbv zeta in H. fold k1 k2 in H. fold mk in H. fold base in H. rewrite Hcom in H. cbn [bind] in H.
  apply bind_ok in H. destruct H as (st & H1 & H). destruct (Frame_all k1 0 0 _ st Frame_start eq_refl H1) as (n & F).
  assert (A : forall m, In m mk -> In m (h_ins st)).
  { intros m M. destruct (In_nth_error k1 m) as (p & P). { apply (mk_k1 ol l1 l2). auto. } apply (fr_done _ _ _ F m p); auto. apply nth_error_Some. congruence. }
  match type of H with (let! _ := insert_all l1 ?ks st in _) = _ => assert (E : ks = []) end.
  { match goal with |- ?ks = [] => destruct ks as [| k r] eqn:Z; auto end. exfalso.
    assert (Y : In k (filter (fun k => smem k mk && negb (smem k (h_ins st))) (slice (h_off2 st) None k2))) by (rewrite Z; left; auto).
    apply filter_In in Y. destruct Y as [_ Y]. apply andb_true_iff in Y. destruct Y as [Y1 Y2]. apply smem_In in Y1. apply negb_true_iff in Y2. apply smem_nIn in Y2. auto. }
  rewrite E in H. unfold insert_all in H. cbn [foldM bind] in H. injection H as H. subst l.
  split; [| split; [exact (fr_base _ _ _ F) | exists n, st; auto]].
  assert (KP : Permutation k1 (keys (h_list st))).
  { rewrite (fr_keys _ _ _ F). assert (NB : NoDup (keys base)) by (apply keys_filter_NoDup; exact N1).
    destruct (fr_ins _ _ _ F) as [I1 I2]. apply NoDup_Permutation; auto.
    - apply NoDup_app'; auto. intros x X Y. apply (base_keys ol l1 l2) in X. destruct X as [_ X]. apply X. apply I2. auto.
    - intro x. rewrite in_app_iff. pose proof (base_keys ol l1 l2 x) as BK. fold k1 k2 in BK. fold mk in BK. fold base in BK. rewrite BK. split; intro X.
      + destruct (in_dec string_dec x mk) as [Y | Y]; auto.
      + destruct X as [[X _] | X]; auto. apply (mk_k1 ol l1 l2). apply I2. auto. }
  assert (N1' : NoDup (keys (h_list st))) by (apply (Permutation_NoDup KP); auto).
  apply NoDup_Permutation.
  - apply (NoDup_map_inv ikey). exact N1.
  - apply (NoDup_map_inv ikey). exact N1'.
  - intro x. split; [| apply (fr_items _ _ _ F)]. intro X. assert (K : In (ikey x) (keys (h_list st))). { apply (Permutation_in _ KP). apply in_map. auto. }
    apply in_map_iff in K. destruct K as (y & Y1 & Y2). assert (x = y); [| subst; auto]. pose proof (fr_items _ _ _ F y Y2) as Y3.
    apply (same_key l1); auto.
Qed.

(** ** Lines that moved only among each other are put in the order of list2 *)

Section Same.
Hypothesis Hset : forall k, In k k1 <-> In k k2.
Hypothesis Hfull : com = keys base.
Hypothesis Hord : forall a b p q p' q', In a com \/ In b com -> nth_error k1 p = Some a -> nth_error k1 q = Some b ->
  nth_error k2 p' = Some a -> nth_error k2 q' = Some b -> (p < q <-> p' < q').

Lemma com_or_mk : forall k, In k k1 -> In k com \/ In k mk.
Proof.
  intros k K. destruct (in_dec string_dec k mk) as [| M]; auto. left. rewrite Hfull. apply (base_keys ol l1 l2). auto.
Qed.

Lemma inwin_both : forall m p q n, ~ In m com -> nth_error k1 p = Some m -> nth_error k2 q = Some m -> (inwin k1 n p <-> inwin k2 n q).
Proof.
  intros m p q n NC P Q.
  assert (D : forall a r r', In a com -> nth_error k1 r = Some a -> nth_error k2 r' = Some a -> (r <= p <-> r' <= q) /\ (p < r <-> q < r')).
  { intros a r r' A R R'. assert (r <> p) by (intro; subst; apply NC; congruence). assert (r' <> q) by (intro; subst; apply NC; congruence).
    pose proof (Hord a m r p r' q (or_introl A) R P R' Q). pose proof (Hord m a p r q r' (or_intror A) P R Q R'). lia. }
  assert (P1 : forall a, In a com -> exists r, nth_error k1 r = Some a) by (intros a A; apply In_nth_error; apply C1; auto).
  assert (P2 : forall a, In a com -> exists r, nth_error k2 r = Some a) by (intros a A; apply In_nth_error; apply C2; auto).
  split; intros [W1 W2]; split.
  - intros i a r E A R. pose proof (nth_error_In _ _ A) as IA. destruct (P1 a IA) as (r' & R'). apply (D a r' r); auto. apply (W1 i a r'); auto.
  - intros a r A R. pose proof (nth_error_In _ _ A) as IA. destruct (P1 a IA) as (r' & R'). apply (D a r' r); auto. apply (W2 a r'); auto.
  - intros i a r E A R. pose proof (nth_error_In _ _ A) as IA. destruct (P2 a IA) as (r' & R'). apply (D a r r'); auto. apply (W1 i a r'); auto.
  - intros a r A R. pose proof (nth_error_In _ _ A) as IA. destruct (P2 a IA) as (r' & R'). apply (D a r r'); auto. apply (W2 a r'); auto.
Qed.

Record Exact (n : nat) (st : hstate) : Prop := {
  ex_list : exists M R, h_list st = M ++ R /\ keys M = firstn (h_off2 st) k2 /\ keys R = skipn n com /\ h_off1 st = length M /\ length M = h_off2 st;
  ex_ins : forall m q, In m mk -> nth_error k2 q = Some m -> (In m (h_ins st) <-> q < h_off2 st);
  ex_low : forall i a q, i < n -> nth_error com i = Some a -> nth_error k2 q = Some a -> q < h_off2 st }.

Lemma filter_true : forall (A : Type) (p : A -> bool) l, (forall x, In x l -> p x = true) -> filter p l = l.
Proof. induction l as [| x r IH]; intro H; auto. cbn [filter]. rewrite (H x) by (left; auto). f_equal. apply IH. intros y Y. apply H. right. auto. Qed.

Lemma firstn_slice : forall (l : list string) a b, a <= b -> firstn a l ++ slice a (Some b) l = firstn b l.
Proof.
  intros l a b H. unfold slice. rewrite <- (firstn_skipn a (firstn b l)) at 2. f_equal. rewrite firstn_firstn. f_equal. lia.
Qed.

Lemma skipn_nth : forall (A : Type) n (l : list A) x, nth_error l n = Some x -> skipn n l = x :: skipn (S n) l.
Proof. induction n as [| n IH]; intros [| y l] x H; try discriminate; simpl in *; [injection H as H; subst; auto | apply IH; auto]. Qed.

Lemma Exact_step : forall t n st line st', Frame t n st -> Exact n st -> nth_error k1 t = Some line -> Step t n st line st' ->
  exists n', Frame (S t) n' st' /\ Exact n' st'.
Proof.
  intros t n st line st' F X L S. pose proof F as [FP FA FN FD FW FI FB FT FK]. pose proof X as [XL XI XW]. destruct XL as (M0 & R0 & XL & XM & XR & XO & XN).
  assert (K2 : forall p k, nth_error k2 p = Some k -> exists r, nth_error k1 r = Some k).
  { intros p k P. apply In_nth_error. apply Hset. apply nth_error_In in P. auto. }
  pose proof S as S0.
  destruct S as [M I | q f xs M I Q W HF K J | q xs M I Q W K J | q f xs m C Q HF K J IX | o M C].
  - exists n. split; auto. assert (NC : ~ In line com) by (intro Z; apply (CM line); auto). constructor; auto.
    + apply (passed_skip t n line); auto.
    + intros k p Z P B. destruct (Nat.eq_dec p t) as [| NE]; [| apply (FD k p); auto; lia]. subst p. rewrite L in P. injection P as P. subst k. auto.
  - destruct (Frame_step t n st line _ F L S0) as (n' & F'). assert (NC : ~ In line com) by (intro Z; apply (CM line); auto).
    assert (n' = n). { (* the anchor tells the number of common lines *)
      pose proof (fr_passed _ _ _ F') as [P1 P2]. pose proof (passed_skip t n line FP L NC) as [P3 P4]. destruct (Nat.lt_trichotomy n n') as [Z | [Z | Z]]; auto; exfalso.
      - destruct (nth_error com n) as [a |] eqn:A; [| apply nth_error_None in A; lia]. destruct (In_nth_error k1 a) as (r & R). { apply C1. apply nth_error_In in A. auto. }
        pose proof (P2 n a r A R). pose proof (P4 n a r A R). lia.
      - destruct (nth_error com n') as [a |] eqn:A; [| apply nth_error_None in A; lia]. destruct (In_nth_error k1 a) as (r & R). { apply C1. apply nth_error_In in A. auto. }
        pose proof (P2 n' a r A R). pose proof (P4 n' a r A R). lia. }
    subst n'. exists n. split; auto.
    assert (OQ : h_off2 st <= q). { destruct (le_lt_dec (h_off2 st) q) as [| Z]; auto. exfalso. apply I. apply (XI line q); auto. }
    assert (AF : filter f (slice (h_off2 st) (Some (q + 1)) k2) = slice (h_off2 st) (Some (q + 1)) k2).
    { apply filter_true. intros k Z. apply slice_In in Z. destruct Z as (p & Z1 & Z2 & Z3). simpl in Z2. destruct (K2 p k Z3) as (r & R).
      assert (NK : ~ In k com).
      { intro Z. destruct (In_nth_error _ _ Z) as (i & A). destruct (le_lt_dec n i) as [G | G]; [| pose proof (XW i k p G A Z3); lia].
        assert (p <> q) by (intro; subst; apply NC; congruence).
        destruct (nth_error com n) as [b |] eqn:B; [| apply nth_error_None in B; assert (i < length com) by (apply nth_error_Some; congruence); lia].
        destruct (In_nth_error k2 b) as (r2 & R2). { apply C2. apply nth_error_In in B. auto. }
        assert (q < r2) by (apply (proj2 W b r2); auto).
        destruct (Nat.eq_dec i n) as [| NE]; [subst i; assert (k = b) by congruence; subst b; assert (r2 = p) by (apply (nth_inj _ k2 r2 p k); auto); lia |].
        assert (r2 < p) by (apply (Sub_pos _ com k2 (com_k2 ol l1 l2 com Hcom) N2 n i b k); auto; lia). lia. }
      apply HF. split. { destruct (com_or_mk k) as [Z | Z]; auto; [| contradiction]. apply nth_error_In in R. auto. }
      split. { exists r. split; auto. apply (inwin_both k r p n NK R Z3). split.
               - intros i a r2 E A R2. apply Nat.lt_le_incl. assert (r2 < h_off2 st) by (apply (XW i a r2); auto; lia). lia.
               - intros a r2 A R2. assert (q < r2) by (apply (proj2 W a r2); auto). lia. }
      intro Z. apply (XI k p) in Z; auto. 2: { destruct (com_or_mk k) as [Y | Y]; auto; [| contradiction]. apply nth_error_In in R. auto. } lia. }
    rewrite AF in K. assert (QL : q + 1 <= length k2). { assert (q < length k2) by (apply nth_error_Some; congruence). lia. }
    assert (LK : length xs = q + 1 - h_off2 st). { rewrite <- (map_length ikey xs). change (map ikey xs) with (keys xs). rewrite K. unfold slice. rewrite skipn_length, firstn_length. lia. }
    assert (F1 : firstn (h_off1 st) (h_list st) = M0). { rewrite XL, XO. rewrite firstn_app, Nat.sub_diag, firstn_all. simpl. apply app_nil_r. }
    assert (F2 : skipn (h_off1 st) (h_list st) = R0). { rewrite XL, XO. rewrite skipn_app, Nat.sub_diag, skipn_all. auto. }
    constructor; cbn [inserted h_list h_off1 h_off2 h_ins h_anchor].
    + exists (M0 ++ xs), R0. rewrite F1, F2. split; [apply app_assoc |]. rewrite keys_app, XM, K. split; [apply firstn_slice; lia |]. split; auto.
      rewrite app_length. unfold keys. split; [rewrite <- K; unfold keys; rewrite map_length; lia | lia].
    + intros k p Z P. rewrite in_app_iff. rewrite (XI k p Z P). fold k2. rewrite K. rewrite slice_In. simpl. split.
      * intros [Y | (p' & Y1 & Y2 & Y3)]; [lia |]. rewrite (nth_inj _ k2 p p' k); auto.
      * intro Y. destruct (le_lt_dec (h_off2 st) p) as [G | G]; auto. right. exists p. auto.
    + intros i a p G A P. pose proof (XW i a p G A P). lia.
  - exfalso. apply W. assert (NC : ~ In line com) by (intro Z; apply (CM line); auto). apply (inwin_both line t q n NC L Q). apply (passed_inwin t n line); auto.
  - assert (NC : In line com) by (apply nth_error_In in C; auto).
    assert (OE : h_off2 st = q).
    { apply Nat.le_antisymm; [apply (FN line q); auto |]. destruct (le_lt_dec q (h_off2 st)) as [| Z]; auto. exfalso.
      destruct (nth_error k2 (h_off2 st)) as [k |] eqn:P. 2: { apply nth_error_None in P. assert (q < length k2) by (apply nth_error_Some; congruence). lia. }
      destruct (K2 _ _ P) as (r & R). assert (RT : r < t). { apply (Hord k line r t (h_off2 st) q); auto. }
      destruct (com_or_mk k) as [Y | Y]. { apply nth_error_In in R. auto. }
      - destruct (In_nth_error _ _ Y) as (i & A). assert (i < n) by (apply (proj2 FP i k r); auto). pose proof (XW i k _ H A P). lia.
      - pose proof (FD k r Y R RT) as V. apply (XI k _ Y P) in V. lia. }
    assert (E : xs = []). { rewrite OE in K. unfold slice in K. rewrite skipn_all2 in K by (rewrite firstn_length; lia). destruct xs; [auto | discriminate]. }
    subst xs. assert (EL : h_list (inserted st [] (keys [])) = h_list st) by (cbn [inserted h_list]; simpl; rewrite firstn_skipn; auto).
    assert (EI : h_ins (inserted st [] (keys [])) = h_ins st) by (cbn [inserted h_ins]; simpl; rewrite app_nil_r; auto).
    rewrite EL in IX. cbv zeta. rewrite EL, EI.
    rewrite (skipn_nth _ n com line C) in XR. destruct R0 as [| x0 R0]; [discriminate |]. cbn [keys map] in XR. injection XR as XK XR.
    assert (NM : nth_error (keys (h_list st)) q = Some line). { rewrite XL, keys_app, nth_error_app2; rewrite XM, firstn_length; [| lia]. assert (q < length k2) by (apply nth_error_Some; congruence). replace (q - Nat.min (h_off2 st) (length k2)) with 0 by lia. simpl. congruence. }
    assert (IM : m = q). { assert (NL : NoDup (keys (h_list st))).
        { apply (Permutation_NoDup (Permutation_sym FK)). apply NoDup_app'; [apply keys_filter_NoDup; exact N1 | tauto |]. intros y Y Y'. apply (base_keys ol l1 l2) in Y. destruct Y as [_ Y]. apply Y. apply (proj2 FI). auto. }
        rewrite (index_of_at _ _ _ NL NM) in IX. injection IX as IX. auto. }
    subst m. rewrite (Nat.max_l (q + 1) (h_off2 st)) by lia.
    exists (S n). split.
    + constructor; cbn [h_list h_off1 h_off2 h_ins h_anchor]; auto.
      * apply (passed_next t n line); auto.
      * exists line, q. auto.
      * intros a p A R. assert (q < p). { apply (Sub_pos _ com k2 (com_k2 ol l1 l2 com Hcom) N2 n (S n) line a); auto. } lia.
      * intros k p Z P B. destruct (Nat.eq_dec p t) as [| NE]; [| apply (FD k p); auto; lia]. subst p. assert (k = line) by congruence. subst k. exfalso. apply (CM line); auto.
      * intros k p r Z1 Z2 Z3 Z4 Z5 Z6. assert (r = q). { assert (q <= r) by (apply (proj1 Z5 n line q); auto). lia. } subst r. assert (k = line) by congruence. subst k. exfalso. apply (CM line); auto.
    + constructor; cbn [h_list h_off1 h_off2 h_ins h_anchor].
      * exists (M0 ++ [x0]), R0. split; [rewrite XL; rewrite <- app_assoc; auto |]. split.
        { rewrite keys_app, XM, OE. cbn [keys map]. rewrite XK. replace (q + 1) with (S q) by lia. clear - Q. revert q Q. induction k2 as [| y r IH]; intros [| q] Q; try discriminate; simpl in *; [injection Q as Q; subst; auto | f_equal; auto]. }
        split; auto. rewrite app_length. simpl. lia.
      * intros k p Z P. rewrite (XI k p Z P). assert (p <> q) by (intro; subst p; assert (k = line) by congruence; subst k; apply (CM line); auto). lia.
      * intros i a p G A P. destruct (Nat.eq_dec i n) as [| NE]; [subst i; assert (a = line) by congruence; subst a; rewrite (nth_inj _ k2 p q line); auto; lia |].
        assert (p < h_off2 st) by (apply (XW i a p); auto; lia). lia.
  - exfalso. destruct (com_or_mk line) as [Z | Z]; auto. apply nth_error_In in L. auto.
Qed.

Lemma Exact_all : forall ks t n st st', Frame t n st -> Exact n st -> skipn t k1 = ks -> foldM (orderless_step l1 k2 mk com) st ks = Ok st' -> keys (h_list st') = k2.
Proof.
  induction ks as [| k r IH]; intros t n st st' F X S H.
  - simpl in H. injection H as H. subst st'. assert (B : length k1 <= t). { assert (length (skipn t k1) = 0) by (rewrite S; auto). rewrite skipn_length in H. lia. }
    destruct X as [(M0 & R0 & XL & XM & XR & XO & XN) XI XW]. destruct (fr_passed _ _ _ F) as [P1 P2].
    assert (AN : n = length com). { destruct (Nat.eq_dec n (length com)) as [| NE]; auto. exfalso. destruct (nth_error com n) as [a |] eqn:A; [| apply nth_error_None in A; lia].
      destruct (In_nth_error k1 a) as (q & Q). { apply C1. apply nth_error_In in A. auto. } pose proof (P2 n a q A Q). assert (q < length k1) by (apply nth_error_Some; congruence). lia. }
    subst n. rewrite skipn_all in XR. destruct R0; [| discriminate]. rewrite XL, app_nil_r, XM. apply firstn_all2.
    destruct (le_lt_dec (length k2) (h_off2 st)) as [| Z]; auto. exfalso. destruct (nth_error k2 (h_off2 st)) as [k |] eqn:P; [| apply nth_error_None in P; lia].
    pose proof (nth_error_In _ _ P) as IK. apply Hset in IK. destruct (In_nth_error _ _ IK) as (q & Q). assert (q < length k1) by (apply nth_error_Some; congruence).
    destruct (com_or_mk k IK) as [Y | Y].
    + destruct (In_nth_error _ _ Y) as (i & A). assert (i < length com) by (apply nth_error_Some; congruence). pose proof (XW i k _ H0 A P). lia.
    + assert (V : In k (h_ins st)) by (apply (fr_done _ _ _ F k q); auto; lia). apply (XI k _ Y P) in V. lia.
  - cbn [foldM] in H. apply bind_ok in H. destruct H as (st1 & H1 & H). assert (L : nth_error k1 t = Some k). { replace t with (t + 0) by lia. rewrite <- nth_skipn, S. auto. }
    assert (T : incl (keys base) (keys (h_list st))). { intros x Hx. apply (Permutation_in x (Permutation_sym (fr_keys _ _ _ F))). apply in_or_app. auto. }
    pose proof (step_inv t n st k st1 (fr_passed _ _ _ F) (fr_anchor _ _ _ F) L T H1) as ST. destruct (Exact_step t n st k st1 F X L ST) as (n1 & F1 & X1).
    apply (IH (Datatypes.S t) n1 st1 st'); auto. clear - S. revert t S. induction k1 as [| y l IHl]; intros [| t] S; simpl in *; try discriminate; [injection S; auto | apply IHl; auto].
Qed.

Lemma level_exact : forall l, orderless_level ol l1 l2 = Ok l -> keys l = k2.
Proof.
  intros l H. destruct (level_ok l H) as (_ & _ & n & st & F & E & El). subst l. apply (Exact_all k1 0 0 _ st Frame_start); auto.
  constructor; cbn [h_list h_off1 h_off2 h_ins h_anchor].
  - exists [], base. repeat split; auto.
  - intros m q _ _. split; [intros [] | lia].
  - intros i a q G. lia.
Qed.
End Same.
End Distinct.

(** ** All levels *)

Lemma last_kids_In : forall k l v, last_kids k l = Some v -> exists x, In x l /\ ikey x = k /\ ival x = Some v /\ v <> [].
Proof.
  intros k l. unfold last_kids. revert l. assert (G : forall l o v, fold_left (fun o x => match ival x with Some (y :: r) => if String.eqb (ikey x) k then Some (y :: r) else o | _ => o end) l o = Some v ->
    o = Some v \/ exists x, In x l /\ ikey x = k /\ ival x = Some v /\ v <> []).
  { induction l as [| x r IH]; intros o v H; [simpl in H; auto |]. cbn [fold_left] in H. apply IH in H. destruct H as [H | (y & Y & H)]; [| right; exists y; split; [right; auto | auto]].
    destruct (ival x) as [[| z zs] |] eqn:V; auto. destruct (String.eqb (ikey x) k) eqn:E; auto. apply String.eqb_eq in E. right. exists x. split; [left; auto |]. split; auto.
    injection H as H. subst v. split; auto. discriminate. }
  intros l v H. apply G in H. destruct H as [H | H]; [discriminate | auto].
Qed.

Lemma last_kids_at : forall l k v i, NoDup (keys l) -> In (It k (Some v) i) l -> v <> [] -> last_kids k l = Some v.
Proof.
  intros l k v i N H V. unfold last_kids.
  assert (G : forall l o, NoDup (keys l) -> (In (It k (Some v) i) l \/ (~ In k (keys l) /\ o = Some v)) -> fold_left (fun o x => match ival x with Some (y :: r) => if String.eqb (ikey x) k then Some (y :: r) else o | _ => o end) l o = Some v).
  { clear N H l. induction l as [| x r IH]; intros o N H; [simpl; destruct H as [[] | [_ H]]; auto |]. cbn [keys map] in N. inversion N as [| ? ? N1 N2]; subst. cbn [fold_left]. apply IH; auto.
    destruct H as [[H | H] | [H1 H2]].
    - right. subst x. cbn [ikey] in N1. split; auto. cbn [ival ikey]. rewrite String.eqb_refl. destruct v; [congruence | auto].
    - left. auto.
    - right. split. { intro Z. apply H1. right. auto. } destruct (ival x) as [[| z zs] |]; auto. destruct (String.eqb (ikey x) k) eqn:E; auto. apply String.eqb_eq in E. exfalso. apply H1. left. auto. }
  apply G; auto.
Qed.

Lemma depth_incl : forall l l', incl l l' -> depth l <= depth l'.
Proof.
  induction l as [| x r IH]; intros l' I; [simpl; lia |]. unfold depth. cbn [fold_right]. fold (depth r). assert (depth r <= depth l') by (apply IH; intros y Y; apply I; right; auto).
  assert (depth_item x <= depth l') by (apply depth_In; apply I; left; auto). unfold depth in *. lia.
Qed.

Lemma deep_total : forall rec mk l2 d l, (forall a b, depth a < d -> exists c, rec a b = Ok c) -> depth l <= d -> exists l', deep_items rec mk l2 l = Ok l'.
Proof.
  intros rec mk l2 d. induction l as [| x r IH]; intros H D; [simpl; eauto |]. unfold depth in D. cbn [fold_right] in D. fold (depth r) in D.
  cbn [deep_items]. destruct IH as (r' & R); auto. { unfold depth in *. lia. } rewrite R. cbn [bind]. destruct x as [k v i]. cbn [ival ikey iinfo]. destruct v as [[| y ys] |]; eauto.
  destruct (has_later k r && negb (smem k mk)); eauto. destruct (last_kids k l2) as [v2 |]; eauto. destruct (H (y :: ys) v2) as (c & C).
  { change (depth_item (It k (Some (y :: ys)) i)) with (S (depth (y :: ys))) in D. lia. } rewrite C. cbn [bind]. eauto.
Qed.

Lemma handle_orderless_total : forall f ol d l1 l2, depth l1 < f -> exists l, handle_orderless f ol d l1 l2 = Ok l.
Proof.
  induction f as [| f IH]; intros ol d l1 l2 D; [lia |]. cbn [handle_orderless]. destruct (level_total (ol d) l1 l2) as (l & L & I). rewrite L. cbn [bind].
  apply (deep_total _ _ _ f). { intros a b A. apply IH. auto. } apply depth_incl in I. lia.
Qed.

Lemma orderless_total : forall ol l1 l2, exists l, orderless ol l1 l2 = Ok l.
Proof. intros. apply handle_orderless_total. lia. Qed.

Lemma distinct_kids : forall l k v i, distinct l -> In (It k (Some v) i) l -> distinct v.
Proof.
  intros l k v i [_ D] H. rewrite Forall_forall in D. specialize (D _ H). cbn [distinct_item] in D. destruct D as [D1 D2]. split; auto.
  clear - D2. induction v as [| x r IH]; constructor; destruct D2; auto.
Qed.

Lemma deep_Inside : forall ol d rec mk l2, (forall a b c, distinct a -> distinct b -> rec a b = Ok c -> Moved ol (S d) a c) -> distinct l2 ->
  forall l l', Forall distinct_item l -> deep_items rec mk l2 l = Ok l' -> Inside ol d l l'.
Proof.
  intros ol d rec mk l2 H D2. induction l as [| x r IH]; intros l' D E; cbn [deep_items] in E.
  - injection E as E. subst. constructor.
  - inversion D as [| ? ? Dx Dr]; subst. apply bind_ok in E. destruct E as (r' & E1 & E). specialize (IH r' Dr E1). destruct x as [k v i]. cbn [ival ikey iinfo] in E.
    assert (Z : Ok (It k v i :: r') = Ok l' -> Inside ol d (It k v i :: r) l') by (intro Q; injection Q as Q; subst; apply in_same; auto).
    destruct v as [[| y ys] |]; auto. destruct (has_later k r && negb (smem k mk)); auto. destruct (last_kids k l2) as [v2 |] eqn:L; auto.
    apply bind_ok in E. destruct E as (c & C & E). injection E as E. subst l'. apply in_deep; auto. apply (H _ v2); auto.
    + apply (distinct_kids [It k (Some (y :: ys)) i] k _ i); [| left; auto]. split; [constructor; [intros [] | constructor] | constructor; auto].
    + apply last_kids_In in L. destruct L as ([k' v' i'] & X1 & X2 & X3 & _). cbn [ival] in X3. subst v'. apply (distinct_kids l2 k' v2 i'); auto.
Qed.

Lemma filter_filter : forall (A : Type) (p q : A -> bool) l, (forall x, p x = true -> q x = true) -> filter p (filter q l) = filter p l.
Proof.
  intros A p q l H. induction l as [| x r IH]; auto. cbn [filter]. destruct (q x) eqn:Q; cbn [filter].
  - destruct (p x); rewrite IH; auto.
  - destruct (p x) eqn:P; auto. apply H in P. congruence.
Qed.

Lemma handle_orderless_moved : forall f ol d l1 l2 l, distinct l1 -> distinct l2 -> handle_orderless f ol d l1 l2 = Ok l -> Moved ol d l1 l.
Proof.
  induction f as [| f IH]; intros ol d l1 l2 l D1 D2 H; [discriminate |]. cbn [handle_orderless] in H. apply bind_ok in H. destruct H as (m & L & H).
  destruct (common_keys_ok (keys l2) (filter (fun x => negb (smem (ikey x) (match_keys (ol d) (keys l1) (keys l2)))) l1)) as (com & C).
  destruct (level_ok (ol d) l1 l2 com C (proj1 D1) (proj1 D2) m L) as (P & B & _). apply (mv_level ol d l1 m l); auto.
  - rewrite <- (filter_filter _ _ (fun x => negb (smem (ikey x) (match_keys (ol d) (keys l1) (keys l2)))) l1). 
    + rewrite <- B. apply filter_filter. intros x X. apply negb_true_iff in X. apply negb_true_iff. apply smem_nIn. intro Z. apply match_keys_In in Z. destruct Z as (_ & _ & Z). congruence.
    + intros x X. apply negb_true_iff in X. apply negb_true_iff. apply smem_nIn. intro Z. apply match_keys_In in Z. destruct Z as (_ & _ & Z). congruence.
  - apply (deep_Inside ol d _ _ l2) in H; auto.
    + intros a b c A Bb E. apply (IH ol (S d) a b c); auto.
    + apply Forall_forall. intros x X. destruct D1 as [_ D1]. rewrite Forall_forall in D1. apply D1. apply (Permutation_in x (Permutation_sym P)). auto.
Qed.

Lemma orderless_moved : forall ol l1 l2 l, distinct l1 -> distinct l2 -> orderless ol l1 l2 = Ok l -> Moved ol 0 l1 l.
Proof. intros ol l1 l2 l D1 D2 H. apply (handle_orderless_moved (S (depth l1)) ol 0 l1 l2); auto. Qed.

(** Lines that are not orderless keep their order in any case. *)
Lemma Precedes_pos : forall a b l, Precedes a b l <-> exists p q, p < q /\ nth_error l p = Some a /\ nth_error l q = Some b.
Proof.
  intros a b l. split.
  - intros (x & y & z & E). exists (length x), (length x + S (length y)). subst l. split; [lia |]. split.
    + rewrite nth_error_app2, Nat.sub_diag by lia. auto.
    + rewrite nth_error_app2 by lia. replace (length x + S (length y) - length x) with (S (length y)) by lia. cbn [nth_error]. rewrite nth_error_app2, Nat.sub_diag by lia. auto.
  - intros (p & q & L & P & Q). apply nth_error_split in P. destruct P as (x & r & E & LX). subst l p. rewrite nth_error_app2 in Q by lia. replace (q - length x) with (S (q - length x - 1)) in Q by lia.
    cbn [nth_error] in Q. apply nth_error_split in Q. destruct Q as (y & z & E & _). subst r. exists x, y, z. auto.
Qed.

Lemma common_full : forall k2 l, NoDup k2 -> Sub (keys l) k2 -> common_keys l k2 = Ok (keys l).
Proof.
  induction k2 as [| k r IH]; intros l N S; cbn [common_keys].
  - inversion S. auto.
  - inversion N as [| ? ? N1 N2]; subst. destruct (smem k (keys l)) eqn:E.
    + apply smem_In in E. destruct l as [| x l]; [destruct E |]. cbn [keys map] in S. inversion S as [| ? ? ? S' | ? ? ? S']; subst.
      * cbn [split_key]. rewrite String.eqb_refl. cbn [bind]. rewrite IH; auto.
      * exfalso. apply N1. apply (Sub_In _ _ _ S'). auto.
    + apply smem_nIn in E. apply IH; auto. inversion S as [? EQ | ? ? ? S' EQ | ? ? ? S']; subst; auto; [constructor |]. exfalso. apply E. rewrite <- EQ. left. auto.
Qed.

Lemma Sub_order : forall (a b : list string), NoDup b -> NoDup a -> incl a b -> (forall x y, Precedes x y a -> Precedes x y b) -> Sub a b.
Proof.
  intros a b. revert a. induction b as [| u b IH]; intros a N NA I P.
  - destruct a as [| x a]; [constructor |]. destruct (I x). left. auto.
  - inversion N as [| ? ? N1 N2]; subst. destruct (in_dec string_dec u a) as [U | U].
    + destruct a as [| x a]; [destruct U |]. inversion NA as [| ? ? NA1 NA2]; subst.
      assert (x = u).
      { destruct U as [U | U]; auto. exfalso. apply in_split in U. destruct U as (y & z & E). assert (Q : Precedes x u (x :: a)) by (exists [], y, z; subst; auto).
        apply P in Q. destruct Q as (x1 & y1 & z1 & Q). destruct x1 as [| w x1].
        - simpl in Q. injection Q as Q1 Q2. subst. apply N1. apply in_or_app. right. left. auto.
        - simpl in Q. injection Q as Q1 Q2. subst b. apply N1. apply in_or_app. right. right. apply in_or_app. right. left. auto. }
      subst x. apply sub_take. apply IH; auto.
      * intros y Y. destruct (I y) as [Z | Z]; [right; auto | | auto]. subst. contradiction.
      * intros y z (x1 & y1 & z1 & Q). destruct (P y z) as (x2 & y2 & z2 & Q2). { exists (u :: x1), y1, z1. rewrite Q. auto. }
        destruct x2 as [| w x2]; [| simpl in Q2; injection Q2 as Q3 Q4; exists x2, y2, z2; auto]. simpl in Q2. injection Q2 as Q3 Q4. subst y. exfalso. apply NA1. rewrite Q. apply in_or_app. right. left. auto.
    + apply sub_skip. apply IH; auto.
      * intros y Y. destruct (I y Y) as [Z | Z]; auto. subst. contradiction.
      * intros y z Q. assert (Y : In y a) by (destruct Q as (x1 & y1 & z1 & Q); rewrite Q; apply in_or_app; right; left; auto).
        destruct (P y z Q) as (x2 & y2 & z2 & Q2). destruct x2 as [| w x2]; [| simpl in Q2; injection Q2 as Q3 Q4; exists x2, y2, z2; auto]. simpl in Q2. injection Q2 as Q3 Q4. subst y. contradiction.
Qed.

Lemma keys_filter : forall (p : string -> bool) l, keys (filter (fun x => p (ikey x)) l) = filter p (keys l).
Proof. induction l as [| x r IH]; auto. cbn [keys map filter]. destruct (p (ikey x)); cbn [keys map]; [f_equal |]; auto. Qed.

Lemma Precedes_filter : forall (p : string -> bool) a b l, Precedes a b (filter p l) -> p a = true /\ p b = true /\ Precedes a b l.
Proof.
  intros p a b l H. assert (A : In a (filter p l) /\ In b (filter p l)).
  { destruct H as (x & y & z & E). rewrite E. split; apply in_or_app; right; [left; auto | right; apply in_or_app; right; left; auto]. }
  destruct A as [A B]. apply filter_In in A. apply filter_In in B. split; [tauto |]. split; [tauto |]. clear A B.
  apply Precedes_pos in H. destruct H as (i & j & L & I & J). apply Precedes_pos.
  assert (G : forall l i j, i < j -> nth_error (filter p l) i = Some a -> nth_error (filter p l) j = Some b -> exists p' q', p' < q' /\ nth_error l p' = Some a /\ nth_error l q' = Some b).
  { clear. induction l as [| x r IH]; intros i j L I J; [destruct i; discriminate |]. cbn [filter] in I, J. destruct (p x).
    - destruct j as [| j]; [lia |]. destruct i as [| i].
      + simpl in I, J. injection I as I. subst x. apply nth_error_In in J. apply filter_In in J. destruct J as [J _]. apply In_nth_error in J. destruct J as (q & Q). exists 0, (S q). split; [lia |]. auto.
      + simpl in I, J. destruct (IH i j) as (p' & q' & Z1 & Z2 & Z3); [lia | auto | auto |]. exists (S p'), (S q'). split; [lia |]. auto.
    - destruct (IH i j L I J) as (p' & q' & Z1 & Z2 & Z3). exists (S p'), (S q'). split; [lia |]. auto. }
  apply (G l i j); auto.
Qed.

Lemma Shuffled_level : forall ol l1 l2, NoDup (keys l1) -> NoDup (keys l2) -> (forall k, In k (keys l1) <-> In k (keys l2)) ->
  (forall a b, ol a = false \/ ol b = false -> (Precedes a b (keys l1) <-> Precedes a b (keys l2))) ->
  exists l, orderless_level ol l1 l2 = Ok l /\ Permutation l1 l /\ keys l = keys l2.
Proof.
  intros ol l1 l2 N1 N2 HS HO. set (mk := match_keys ol (keys l1) (keys l2)). set (base := filter (fun x => negb (smem (ikey x) mk)) l1).
  assert (KB : keys base = filter (fun k => negb (smem k mk)) (keys l1)) by apply (keys_filter (fun k => negb (smem k mk))).
  assert (NO : forall k, In k (keys base) -> ol k = false).
  { intros k K. rewrite KB in K. apply filter_In in K. destruct K as [K1 K2]. apply negb_true_iff in K2. apply smem_nIn in K2. destruct (ol k) eqn:O; auto. exfalso. apply K2. apply match_keys_In. split; auto. split; auto. apply HS. auto. }
  assert (C : common_keys base (keys l2) = Ok (keys base)).
  { apply common_full; auto. apply Sub_order; auto.
    - apply keys_filter_NoDup. auto.
    - intros k K. apply HS. rewrite KB in K. apply filter_In in K. tauto.
    - intros x y P. assert (X : In x (keys base)) by (destruct P as (a & b & c & E); rewrite E; apply in_or_app; right; left; auto). rewrite KB in P. apply Precedes_filter in P. apply HO; [left; apply NO; auto | tauto]. }
  destruct (level_total ol l1 l2) as (l & L & _). exists l. split; auto. destruct (level_ok ol l1 l2 (keys base) C N1 N2 l L) as (P & _). split; auto.
  apply (level_exact ol l1 l2 (keys base) C N1 N2); auto.
  intros a b p q p' q' AB P1 Q1 P2 Q2. assert (O : ol a = false \/ ol b = false) by (destruct AB; auto). pose proof (HO a b O) as H. rewrite !Precedes_pos in H. split; intro Z.
  - destruct (proj1 H) as (p3 & q3 & Z1 & Z2 & Z3). { exists p, q. auto. } rewrite (nth_inj _ (keys l2) p' p3 a), (nth_inj _ (keys l2) q' q3 b); auto.
  - destruct (proj2 H) as (p3 & q3 & Z1 & Z2 & Z3). { exists p', q'. auto. } rewrite (nth_inj _ (keys l1) p p3 a), (nth_inj _ (keys l1) q q3 b); auto.
Qed.

Lemma has_later_not : forall k l, ~ In k (keys l) -> has_later k l = false.
Proof.
  intros k l H. unfold has_later. destruct (existsb _ l) eqn:E; auto. exfalso. apply existsb_exists in E. destruct E as (x & X & E). apply andb_true_iff in E. destruct E as [E _]. apply String.eqb_eq in E. subst k. apply H. apply in_map. auto.
Qed.

Lemma handle_orderless_shuffled : forall f ol d l1 l2, depth l1 < f -> Shuffled ol d l1 l2 -> handle_orderless f ol d l1 l2 = Ok l2.
Proof.
  induction f as [| f IH]; intros ol d l1 l2 D H; [lia |]. inversion H as [d' l1' l2' N1 N2 HS HO HK]; subst d' l1' l2'.
  cbn [handle_orderless]. destruct (Shuffled_level (ol d) l1 l2 N1 N2 HS HO) as (l & L & P & K). rewrite L. cbn [bind].
  assert (G : forall a b, keys a = keys b -> incl a l1 -> incl b l2 -> NoDup (keys a) -> deep_items (handle_orderless f ol (S d)) (match_keys (ol d) (keys l1) (keys l2)) l2 a = Ok b).
  { induction a as [| [k v i] r IHr]; intros [| [k' v' i'] r'] KE IA IB NA; try discriminate; [reflexivity |].
    cbn [keys map ikey] in KE. injection KE as E1 E2. subst k'. cbn [keys map ikey] in NA. inversion NA as [| ? ? NA1 NA2]; subst. cbn [deep_items].
    rewrite (IHr r'); auto; [| intros y Y; apply IA; right; auto | intros y Y; apply IB; right; auto]. cbn [bind ival ikey iinfo].
    assert (X1 : In (It k v i) l1) by (apply IA; left; auto). assert (X2 : In (It k v' i') l2) by (apply IB; left; auto).
    destruct (HK k v i v' i' X1 X2) as [EI HV]. subst i'. destruct HV as [[V1 V2] | (w1 & w2 & V1 & V2 & SH)]; subst v v'; [reflexivity |].
    pose proof SH as SH0. inversion SH as [d' a' b' M1 M2 MS MO MK]; subst d' a' b'.
    destruct w1 as [| y ys]. { destruct w2 as [| z zs]; [reflexivity |]. exfalso. destruct (proj2 (MS (ikey z))). left. auto. }
    rewrite (has_later_not k r NA1). cbn [andb]. rewrite (last_kids_at l2 k w2 i); auto.
    2: { intro; subst w2. destruct (proj1 (MS (ikey y))). left. auto. }
    rewrite IH; auto. apply depth_In in X1. change (depth_item (It k (Some (y :: ys)) i)) with (S (depth (y :: ys))) in X1. lia. }
  apply G; auto.
  - intros y Y. apply (Permutation_in y (Permutation_sym P)). auto.
  - intros y Y. auto.
  - rewrite K. auto.
Qed.

Lemma orderless_shuffled : forall ol l1 l2, Shuffled ol 0 l1 l2 -> orderless ol l1 l2 = Ok l2.
Proof. intros. apply handle_orderless_shuffled; auto. Qed.

Lemma Shuffled_refl : forall ol l d, distinct l -> Shuffled ol d l l.
Proof.
  intros ol l. assert (G : forall n d l, depth l < n -> distinct l -> Shuffled ol d l l).
  { induction n as [| n IH]; intros d m B D; [lia |]. constructor; try tauto.
    - exact (proj1 D).
    - exact (proj1 D).
    - intros k v1 i1 v2 i2 H1 H2. assert (E : It k v1 i1 = It k v2 i2) by (apply (same_key m); auto; apply D). injection E as E1 E2. subst v2 i2. split; auto.
      destruct v1 as [w |]; auto. right. exists w, w. split; auto. split; auto. apply IH; [| apply (distinct_kids m k w i1); auto]. apply depth_In in H1. change (depth_item (It k (Some w) i1)) with (S (depth w)) in H1. lia. }
  intros d D. apply (G (S (depth l))); auto.
Qed.
