(** Lemmas about the child lists of NetconfM.v: insertion, update, removal. *)
From Coq Require Import String Ascii List Bool Arith ZArith Lia Permutation.
From Verif Require Import Base BaseP XmlM CalcM CalcP NetconfM.
Import ListNotations.
Open Scope string_scope.
Open Scope list_scope.

(** ** The three insertions put one element somewhere *)
Definition Ins {A} (e : A) (l l' : list A) : Prop := exists l1 l2, l = l1 ++ l2 /\ l' = l1 ++ e :: l2.

Lemma Ins_cons : forall {A} (e x : A) l l', Ins e l l' -> Ins e (x :: l) (x :: l').
Proof. intros A e x l l' (l1 & l2 & E1 & E2). exists (x :: l1), l2. subst. auto. Qed.

Lemma ins_after_last_Ins : forall {A} (p : A -> bool) e l, Ins e l (ins_after_last p e l).
Proof.
  intros A p e l. induction l as [| x r IH]; simpl.
  - exists [], []. auto.
  - destruct (existsb p r); [apply Ins_cons; auto |]. destruct (p x); [| apply Ins_cons; auto].
    exists [x], r. auto.
Qed.

Lemma ins_before_first_Ins : forall {A} (p : A -> bool) e l, Ins e l (ins_before_first p e l).
Proof.
  intros A p e l. induction l as [| x r IH]; simpl.
  - exists [], []. auto.
  - destruct (p x); [| apply Ins_cons; auto]. exists [], (x :: r). auto.
Qed.

Lemma ins_after_first_Ins : forall {A} (p : A -> bool) e l, Ins e l (ins_after_first p e l).
Proof.
  intros A p e l. induction l as [| x r IH]; simpl.
  - exists [], []. auto.
  - destruct (p x); [| apply Ins_cons; auto]. exists [x], r. auto.
Qed.

Lemma app_Ins : forall {A} (e : A) l, Ins e l (l ++ [e]).
Proof. intros A e l. exists l, []. rewrite app_nil_r. auto. Qed.

Lemma Ins_perm : forall {A} (e : A) l l', Ins e l l' -> Permutation (e :: l) l'.
Proof. intros A e l l' (l1 & l2 & E1 & E2). subst. apply Permutation_middle. Qed.

Lemma Ins_In : forall {A} (e x : A) l l', Ins e l l' -> (In x l' <-> x = e \/ In x l).
Proof.
  intros A e x l l' H. apply Ins_perm in H. split; intro G.
  - apply Permutation_sym in H. apply (Permutation_in x H) in G. destruct G; auto.
  - apply (Permutation_in x H). destruct G; [left | right]; auto.
Qed.

Lemma Ins_map : forall {A B} (f : A -> B) e l l', Ins e l l' -> Ins (f e) (map f l) (map f l').
Proof.
  intros A B f e l l' (l1 & l2 & E1 & E2). exists (map f l1), (map f l2). subst. rewrite !map_app. auto.
Qed.

Lemma Ins_filter_out : forall {A} (q : A -> bool) e l l', Ins e l l' -> q e = false -> filter q l' = filter q l.
Proof.
  intros A q e l l' (l1 & l2 & E1 & E2) Hq. subst. rewrite !filter_app'. simpl. rewrite Hq. reflexivity.
Qed.

Lemma Ins_NoDup : forall {A} (e : A) l l', Ins e l l' -> NoDup l -> ~ In e l -> NoDup l'.
Proof.
  intros A e l l' H ND Hn. apply (Permutation_NoDup (Ins_perm e l l' H)). constructor; auto.
Qed.

Lemma Ins_Forall : forall {A} (P : A -> Prop) e l l', Ins e l l' -> Forall P l -> P e -> Forall P l'.
Proof.
  intros A P e l l' H HF He. apply Forall_forall. intros x Hx. apply (Ins_In e x l l' H) in Hx.
  rewrite Forall_forall in HF. destruct Hx; subst; auto.
Qed.

Lemma assoc_Ins : forall u (e : ent) l l', Ins e l l' -> ~ In (fst e) (uids l) ->
  assoc uid_eqb u l' = if uid_eqb u (fst e) then Some (snd e) else assoc uid_eqb u l.
Proof.
  intros u [v x] l l' (l1 & l2 & E1 & E2) Hn. subst. simpl in *.
  unfold ent in *. rewrite !assoc_app. simpl.
  destruct (uid_eqb u v) eqn:E.
  - apply uid_eqb_ok in E. subst v.
    assert (G : assoc uid_eqb u l1 = None).
    { apply (assoc_None uid_eqb uid_eqb_ok). intro H. apply Hn. unfold uids. rewrite map_app.
      apply in_or_app. auto. }
    rewrite G. reflexivity.
  - reflexivity.
Qed.

Lemma assoc_not_In : forall u (l : list ent), ~ In u (uids l) -> assoc uid_eqb u l = None.
Proof. intros u l H. apply (assoc_None uid_eqb uid_eqb_ok). exact H. Qed.

Lemma assoc_None_uids : forall u (l : list ent), assoc uid_eqb u l = None <-> ~ In u (uids l).
Proof. intros. apply (assoc_None uid_eqb uid_eqb_ok). Qed.

Lemma assoc_Some_uids : forall u (l : list ent), In u (uids l) <-> exists x, assoc uid_eqb u l = Some x.
Proof. intros. apply (assoc_Some_In uid_eqb uid_eqb_ok). Qed.

Lemma assoc_Some_In_uids : forall u (l : list ent) x, assoc uid_eqb u l = Some x -> In u (uids l).
Proof. intros u l x H. apply assoc_Some_uids. eauto. Qed.

(** ** Update *)
Lemma uids_upd : forall v x l, uids (upd_uid v x l) = uids l.
Proof.
  intros v x l. unfold uids, upd_uid. rewrite map_map. apply map_ext. intros [w y].
  unfold has_uid. simpl. destruct (uid_eqb v w) eqn:E; auto. apply uid_eqb_ok in E. auto.
Qed.

Lemma assoc_upd : forall u v x l,
  assoc uid_eqb u (upd_uid v x l) =
  if uid_eqb u v then (match assoc uid_eqb u l with Some _ => Some x | None => None end)
  else assoc uid_eqb u l.
Proof.
  intros u v x l. unfold upd_uid. induction l as [| [w y] r IH]; simpl.
  - destruct (uid_eqb u v); auto.
  - unfold has_uid at 1. simpl. destruct (uid_eqb v w) eqn:E; simpl.
    + apply uid_eqb_ok in E. subst w. destruct (uid_eqb u v) eqn:F; auto.
    + destruct (uid_eqb u w) eqn:G.
      * apply uid_eqb_ok in G. subst w. rewrite (eqb_sym uid_eqb uid_eqb_ok u v), E. reflexivity.
      * exact IH.
Qed.

Lemma upd_Forall : forall (P : ent -> Prop) v x l, Forall P l -> P (v, x) -> Forall P (upd_uid v x l).
Proof.
  intros P v x l H Hx. unfold upd_uid. apply Forall_forall. intros e He. apply in_map_iff in He.
  destruct He as (e0 & E & Hin). rewrite Forall_forall in H. destruct (has_uid v e0); subst; auto.
Qed.

(** ** Removal *)
Lemma uids_del : forall v l, uids (del_uid v l) = filter (fun u => negb (uid_eqb v u)) (uids l).
Proof.
  intros v l. unfold uids, del_uid. rewrite filter_map. reflexivity.
Qed.

Lemma assoc_del : forall u v l,
  assoc uid_eqb u (del_uid v l) = if uid_eqb u v then None else assoc uid_eqb u l.
Proof.
  intros u v l. unfold del_uid. induction l as [| [w y] r IH]; simpl.
  - destruct (uid_eqb u v); auto.
  - unfold has_uid at 1. simpl. destruct (uid_eqb v w) eqn:E; simpl.
    + apply uid_eqb_ok in E. subst w. destruct (uid_eqb u v) eqn:F; auto.
    + destruct (uid_eqb u w) eqn:G.
      * apply uid_eqb_ok in G. subst w. rewrite (eqb_sym uid_eqb uid_eqb_ok u v), E. reflexivity.
      * exact IH.
Qed.

Lemma filter_Forall : forall {A} (P : A -> Prop) (q : A -> bool) l, Forall P l -> Forall P (filter q l).
Proof.
  intros A P q l H. apply Forall_forall. intros x Hx. apply filter_In in Hx.
  rewrite Forall_forall in H. apply H. tauto.
Qed.

(** ** Sequences of identities *)
Lemma ins_after_first_map : forall {A B} (f : A -> B) (p : A -> bool) (q : B -> bool) e l,
  (forall x, In x l -> p x = q (f x)) ->
  map f (ins_after_first p e l) = ins_after_first q (f e) (map f l).
Proof.
  intros A B f p q e l. induction l as [| x r IH]; intro H; simpl; auto.
  rewrite (H x) by (left; auto). destruct (q (f x)); simpl; auto.
  rewrite IH; auto. intros y Hy. apply H. right. auto.
Qed.

Lemma ins_before_first_map : forall {A B} (f : A -> B) (p : A -> bool) (q : B -> bool) e l,
  (forall x, In x l -> p x = q (f x)) ->
  map f (ins_before_first p e l) = ins_before_first q (f e) (map f l).
Proof.
  intros A B f p q e l. induction l as [| x r IH]; intro H; simpl; auto.
  rewrite (H x) by (left; auto). destruct (q (f x)); simpl; auto.
  rewrite IH; auto. intros y Hy. apply H. right. auto.
Qed.

Lemma existsb_map : forall {A B} (f : A -> B) (p : A -> bool) (q : B -> bool) l,
  (forall x, In x l -> p x = q (f x)) -> existsb p l = existsb q (map f l).
Proof.
  intros A B f p q l. induction l as [| x r IH]; intro H; simpl; auto.
  rewrite (H x) by (left; auto). rewrite IH; auto. intros y Hy. apply H. right. auto.
Qed.

Lemma ins_after_last_map : forall {A B} (f : A -> B) (p : A -> bool) (q : B -> bool) e l,
  (forall x, In x l -> p x = q (f x)) ->
  map f (ins_after_last p e l) = ins_after_last q (f e) (map f l).
Proof.
  intros A B f p q e l. induction l as [| x r IH]; intro H; simpl; auto.
  rewrite (existsb_map f p q r) by (intros y Hy; apply H; right; auto).
  rewrite (H x) by (left; auto). assert (IH' := IH (fun y Hy => H y (or_intror Hy))).
  destruct (existsb q (map f r)); simpl; [rewrite IH'; auto |].
  destruct (q (f x)); simpl; [auto | rewrite IH'; auto].
Qed.

(** Filtering commutes with insertion after a kept element. *)
Lemma ins_after_first_filter : forall {A} (p q : A -> bool) e l,
  (forall x, In x l -> p x = true -> q x = true) -> q e = true -> existsb p l = true ->
  filter q (ins_after_first p e l) = ins_after_first p e (filter q l).
Proof.
  intros A p q e l Hp He. induction l as [| x r IH]; simpl; intro Hx; [discriminate |].
  destruct (p x) eqn:E.
  - assert (Q : q x = true) by (apply Hp; [left |]; auto). simpl. rewrite Q, He. simpl. rewrite E. reflexivity.
  - simpl in Hx. simpl. assert (IH' := IH (fun y Hy => Hp y (or_intror Hy)) Hx).
    destruct (q x) eqn:Q; simpl; [rewrite E |]; rewrite IH'; reflexivity.
Qed.

(** Insertion before the first [p]-element puts the new one first among them. *)
Lemma ins_before_first_filter : forall {A} (p q : A -> bool) e l,
  (forall x, In x l -> q x = true -> p x = true) -> q e = true ->
  filter q (ins_before_first p e l) = e :: filter q l.
Proof.
  intros A p q e l Hp He. induction l as [| x r IH]; simpl; [rewrite He; reflexivity |].
  destruct (p x) eqn:E.
  - simpl. rewrite He. reflexivity.
  - assert (Q : q x = false).
    { destruct (q x) eqn:Q; auto. rewrite (Hp x (or_introl eq_refl) Q) in E. discriminate. }
    simpl. rewrite Q. apply IH. intros y Hy. apply Hp. right. auto.
Qed.

Lemma ins_after_last_filter : forall {A} (p q : A -> bool) e l,
  (forall x, In x l -> q x = true -> p x = true) -> q e = true ->
  filter q (ins_after_last p e l) = filter q l ++ [e].
Proof.
  intros A p q e l. induction l as [| x r IH]; simpl; intros Hp He; [rewrite He; reflexivity |].
  assert (IH' := IH (fun y Hy => Hp y (or_intror Hy)) He).
  destruct (existsb p r) eqn:E.
  - simpl. rewrite IH'. destruct (q x); reflexivity.
  - assert (R : filter q r = []).
    { apply filter_none. intros y Hy. destruct (q y) eqn:Q; auto.
      assert (X := proj1 (existsb_false p r) E y Hy). rewrite (Hp y (or_intror Hy) Q) in X. discriminate. }
    destruct (p x) eqn:P; simpl.
    + rewrite He, R. destruct (q x); reflexivity.
    + rewrite IH', R. destruct (q x) eqn:Q; auto.
Qed.

(** Moving an element to the place where it already is *)
Lemma ins_after_first_move : forall (v u : uid) p q, NoDup (p ++ v :: u :: q) ->
  ins_after_first (uid_eqb v) u (filter (fun w => negb (uid_eqb u w)) (p ++ v :: u :: q)) = p ++ v :: u :: q.
Proof.
  intros v u p q. induction p as [| x p IH]; simpl; intro ND.
  - inversion ND as [| ? ? H1 H2]; subst. inversion H2 as [| ? ? H3 H4]; subst.
    assert (E : uid_eqb u v = false).
    { apply (eqb_neq uid_eqb uid_eqb_ok). intro E. subst. apply H1. left. auto. }
    rewrite E, uid_eqb_refl. simpl. rewrite uid_eqb_refl. f_equal. f_equal.
    apply filter_all. intros w Hw. apply negb_true_iff. apply (eqb_neq uid_eqb uid_eqb_ok).
    intro X. subst. contradiction.
  - inversion ND as [| ? ? H1 H2]; subst.
    assert (E : uid_eqb u x = false).
    { apply (eqb_neq uid_eqb uid_eqb_ok). intro E. subst. apply H1. apply in_or_app. right. right. left. auto. }
    assert (F : uid_eqb v x = false).
    { apply (eqb_neq uid_eqb uid_eqb_ok). intro F. subst. apply H1. apply in_or_app. right. left. auto. }
    rewrite E. simpl. rewrite F. rewrite IH; auto.
Qed.

Lemma ins_after_first_split : forall (v u : uid) p q, ~ In v p ->
  ins_after_first (uid_eqb v) u (p ++ v :: q) = p ++ v :: u :: q.
Proof.
  intros v u p q. induction p as [| x p IH]; simpl; intro Hn.
  - rewrite uid_eqb_refl. reflexivity.
  - assert (F : uid_eqb v x = false).
    { apply (eqb_neq uid_eqb uid_eqb_ok). intro F. subst. apply Hn. auto. }
    rewrite F, IH; auto.
Qed.

(** ** seqt *)
Lemma seqt_upd : forall t v x l, seqt t (upd_uid v x l) = seqt t l.
Proof. intros. unfold seqt. rewrite uids_upd. reflexivity. Qed.

Lemma seqt_del : forall t v l, seqt t (del_uid v l) = filter (fun u => negb (uid_eqb v u)) (seqt t l).
Proof. intros. unfold seqt. rewrite uids_del. apply filter_comm. Qed.

Lemma seqt_Ins_other : forall t (e : ent) l l', Ins e l l' -> fst (fst e) <> t -> seqt t l' = seqt t l.
Proof.
  intros t e l l' H Hn. unfold seqt, uids. apply (Ins_filter_out _ (fst e)).
  - apply Ins_map. auto.
  - apply String.eqb_neq. auto.
Qed.

(** ** Two sequences in the same relative order *)
Lemma consec_impl : forall {A} (P Q : A -> A -> Prop) l,
  (forall x y, In x l -> In y l -> P x y -> Q x y) -> consec P l -> consec Q l.
Proof.
  intros A P Q l. induction l as [| x r IH]; simpl; auto. intros H [H1 H2]. split.
  - destruct r as [| y r]; auto. apply H; auto. right. left. auto.
  - apply IH; auto.
Qed.

Lemma subl_len : forall {A} (l1 l2 : list A), subl l1 l2 -> length l2 <= length l1 -> l1 = l2.
Proof.
  intros A l1 l2 H. induction H as [l | x l1 l2 H IH | x l1 l2 H IH]; simpl; intro L.
  - destruct l; auto. simpl in L. lia.
  - apply subl_length in H. lia.
  - f_equal. apply IH. lia.
Qed.

Lemma order_filter : forall (L1 L2 : list uid), NoDup L1 -> NoDup L2 ->
  (forall u v, before u v L1 -> In u L2 -> In v L2 -> before u v L2) ->
  filter (fun u => mem uid_eqb u L2) L1 = filter (fun u => mem uid_eqb u L1) L2.
Proof.
  intros L1 L2 N1 N2 H.
  assert (M : forall u l, mem uid_eqb u l = true <-> In u l) by (intros; apply (mem_In uid_eqb uid_eqb_ok)).
  apply subl_len.
  - assert (G : subl (filter (fun u => mem uid_eqb u L2) L1) L2).
    { apply consec_subl; auto.
      - intros x Hx. apply filter_In in Hx. apply M. tauto.
      - apply (consec_impl (fun x y => before x y L1)).
        + intros x y Hx Hy B. apply filter_In in Hx. apply filter_In in Hy. apply H; auto; apply M; tauto.
        + apply subl_consec. apply subl_filter. }
    apply (subl_filter2 (fun u => mem uid_eqb u L1)) in G.
    rewrite filter_all in G; auto. intros x Hx. apply filter_In in Hx. apply M. tauto.
  - apply NoDup_incl_length; [apply NoDup_filter; auto |].
    intros x Hx. apply filter_In in Hx. apply filter_In. destruct Hx as [H1 H2]. apply M in H2.
    split; auto. apply M. auto.
Qed.
