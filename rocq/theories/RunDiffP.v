(** Proofs about ListDiff.compare. *)
From Coq Require Import String Ascii List Bool Arith ZArith Lia Permutation.
From Verif Require Import Base BaseP RunningM RunSpec.
Import ListNotations.
Open Scope string_scope.
Open Scope list_scope.

Lemma item_ind' : forall P : item -> Prop,
  (forall k v i, (forall l, v = Some l -> Forall P l) -> P (It k v i)) -> forall x, P x.
Proof.
  intros P H. fix IH 1. intros [k v i]. apply H. intros l E. destruct v as [l' |]; [| discriminate].
  assert (G : Forall P l') by (clear E; induction l' as [| c r IHr]; constructor; [apply IH | exact IHr]).
  inversion E. subst. exact G.
Qed.

Lemma smem_In : forall k l, smem k l = true <-> In k l.
Proof.
  intros k l. unfold smem. induction l as [| x r IH]; simpl; [intuition discriminate |].
  rewrite orb_true_iff, IH, String.eqb_eq. intuition congruence.
Qed.
Lemma smem_nIn : forall k l, smem k l = false <-> ~ In k l.
Proof. intros k l. rewrite <- smem_In. destruct (smem k l); intuition congruence. Qed.

Lemma info_eqb_eq : forall a b, info_eqb a b = true <-> a = b.
Proof. intros [] []; simpl; intuition (try discriminate); reflexivity. Qed.

Lemma item_eqb_eq : forall x y, item_eqb x y = true <-> x = y.
Proof.
  intro x. induction x as [k v i IH] using item_ind'. intros [k' v' i'].
  assert (G : match v, v' with
              | None, None => true
              | Some l, Some l' => list_eqb item_eqb l l'
              | _, _ => false
              end = true <-> v = v').
  { destruct v as [l |], v' as [l' |]; try (intuition congruence). specialize (IH l eq_refl).
    assert (list_eqb item_eqb l l' = true <-> l = l').
    { revert l' IH. induction l as [| a r IHr]; intros [| b s] IH; simpl; try (intuition congruence).
      inversion IH as [| ? ? H1 H2]; subst. rewrite andb_true_iff, H1, (IHr s H2). intuition congruence. }
    rewrite H. intuition congruence. }
  assert (E : item_eqb (It k v i) (It k' v' i') = String.eqb k k' && info_eqb i i' &&
              match v, v' with None, None => true | Some l, Some l' => list_eqb item_eqb l l' | _, _ => false end).
  { cbn [item_eqb]. destruct v as [l |], v' as [l' |]; auto. f_equal. clear. revert l'. induction l as [| a r IHr]; intros [| b s]; auto.
    cbn [list_eqb]. rewrite IHr. reflexivity. }
  rewrite E, !andb_true_iff, G, info_eqb_eq, String.eqb_eq. intuition congruence.
Qed.

Lemma items_eqb_eq : forall l l', items_eqb l l' = true <-> l = l'.
Proof.
  unfold items_eqb. induction l as [| a r IH]; intros [| b s]; simpl; try (intuition congruence).
  rewrite andb_true_iff, item_eqb_eq, IH. intuition congruence.
Qed.

Lemma val_eqb_eq : forall v v', val_eqb v v' = true <-> v = v'.
Proof.
  intros [l |] [l' |]; unfold val_eqb; simpl; try (intuition congruence). rewrite items_eqb_eq. intuition congruence.
Qed.

Lemma split_key_ok : forall k l, In k (keys l) -> exists a x b, split_key k l = Ok (a, x, b) /\ l = a ++ x :: b /\ ikey x = k /\ ~ In k (keys a).
Proof.
  intros k l. induction l as [| y r IH]; simpl; [intros [] |]. intro H. destruct (String.eqb (ikey y) k) eqn:E.
  - apply String.eqb_eq in E. exists [], y, r. simpl. auto.
  - destruct IH as (a & x & b & E1 & E2 & E3 & E4). { destruct H as [H | H]; auto. rewrite H, String.eqb_refl in E. discriminate. }
    exists (y :: a), x, b. rewrite E1. subst r. simpl. split; auto. split; auto. split; auto.
    intros [H1 | H1]; auto. apply String.eqb_neq in E. auto.
Qed.

Lemma split_key_app : forall k p x r, ~ In k (keys p) -> ikey x = k -> split_key k (p ++ x :: r) = Ok (p, x, r).
Proof.
  induction p as [| y p IH]; intros x r H E; simpl.
  - apply String.eqb_eq in E. rewrite E. auto.
  - destruct (String.eqb (ikey y) k) eqn:F; [apply String.eqb_eq in F; exfalso; apply H; left; auto |].
    rewrite IH; auto. intro G. apply H. right. auto.
Qed.

(** The diff bef the cleanup *)
Inductive Raw (R : list item -> list item -> list item -> Prop) : list item -> list item -> list item -> Prop :=
| raw_nil : Raw R [] [] []
| raw_minus : forall x l1 l2 d, Raw R l1 l2 d -> Raw R (x :: l1) l2 (with_info IMinus x :: d)
| raw_plus : forall x l1 l2 d, Raw R l1 l2 d -> Raw R l1 (x :: l2) (with_info IPlus x :: d)
| raw_common : forall x y c l1 l2 d, ikey x = ikey y ->
    common_item (fun a b => Err OutOfFuel) (ikey x) (ival x) (ival y) = Ok [c] \/
    (exists v1 v2 w, ival x = Some v1 /\ ival y = Some v2 /\ v1 <> v2 /\ R v1 v2 w /\ c = It (ikey x) (Some w) ISame) ->
    Raw R l1 l2 d -> Raw R (x :: l1) (y :: l2) (c :: d).

Lemma Raw_minus : forall R a l1 l2 d, Raw R l1 l2 d -> Raw R (a ++ l1) l2 (minus a ++ d).
Proof. induction a as [| x r IH]; intros; simpl; auto. apply raw_minus. auto. Qed.
Lemma Raw_plus : forall R a l1 l2 d, Raw R l1 l2 d -> Raw R l1 (a ++ l2) (plus a ++ d).
Proof. induction a as [| x r IH]; intros; simpl; auto. apply raw_plus. auto. Qed.

Lemma common_item_ok : forall (R : list item -> list item -> list item -> Prop) rec x y,
  (forall v1 v2, ival x = Some v1 -> exists w, rec v1 v2 = Ok w /\ R v1 v2 w) ->
  exists c, common_item rec (ikey x) (ival x) (ival y) = Ok [c] /\
   (common_item (fun a b => Err OutOfFuel) (ikey x) (ival x) (ival y) = Ok [c] \/
    (exists v1 v2 w, ival x = Some v1 /\ ival y = Some v2 /\ v1 <> v2 /\ R v1 v2 w /\ c = It (ikey x) (Some w) ISame)).
Proof.
  intros R rec x y H. unfold common_item. destruct (val_eqb (ival x) (ival y)) eqn:E; [eexists; split; eauto |].
  destruct (ival x) as [v1 |] eqn:X, (ival y) as [v2 |] eqn:Y.
  - destruct (H v1 v2 eq_refl) as (w & W & HR). rewrite W. simpl. eexists. split; [reflexivity |]. right. exists v1, v2, w.
    repeat split; auto. intro F. subst v2. assert (val_eqb (Some v1) (Some v1) = true) by (apply val_eqb_eq; auto). congruence.
  - eexists. split; [reflexivity |]. auto.
  - eexists. split; [reflexivity |]. auto.
  - assert (val_eqb None None = true) by reflexivity. congruence.
Qed.

Lemma raw_ok : forall (R : list item -> list item -> list item -> Prop) rec l2 l1 cs p,
  (forall x v1 v2, In x l1 -> ival x = Some v1 -> exists w, rec v1 v2 = Ok w /\ R v1 v2 w) ->
  (forall x, In x p -> ~ In (ikey x) (keys l1)) -> common_keys l1 (keys l2) = Ok cs ->
  exists d, raw_diff rec cs l1 (p ++ l2) = Ok d /\ Raw R l1 (p ++ l2) d.
Proof.
  intros R rec l2. induction l2 as [| y r IH]; intros l1 cs p HR HP HC; cbn [keys map common_keys] in HC.
  - inversion HC; subst. simpl. exists (minus l1 ++ plus (p ++ [])). split; auto.
    rewrite <- (app_nil_r (plus (p ++ []))). rewrite <- (app_nil_r l1) at 1. apply Raw_minus.
    replace (p ++ []) with ((p ++ []) ++ []) at 1 by apply app_nil_r. apply Raw_plus. constructor.
  - destruct (smem (ikey y) (keys l1)) eqn:S.
    + apply smem_In in S. destruct (split_key_ok _ _ S) as (a1 & x1 & b1 & E1 & E2 & E3 & E4). rewrite E1 in HC. cbn [bind] in HC.
      change (map ikey r) with (keys r) in HC. destruct (common_keys b1 (keys r)) as [cs' | e] eqn:C; cbn [bind] in HC; [| discriminate].
      inversion HC; subst cs. cbn [raw_diff]. rewrite E1. cbn [bind].
      rewrite (split_key_app (ikey y) p y r); auto. 2: { intro G. unfold keys in G. apply in_map_iff in G. destruct G as (z & Z1 & Z2). apply (HP z Z2). rewrite Z1. auto. }
      cbn [bind]. destruct (common_item_ok R rec x1 y) as (c & C1 & C2).
      { intros v1 v2 V. apply (HR x1); auto. subst l1. apply in_or_app. right. left. auto. }
      rewrite E3 in C1. rewrite C1. cbn [bind]. destruct (IH b1 cs' []) as (d & D1 & D2); auto.
      { intros x v1 v2 Hx. apply HR. subst l1. apply in_or_app. right. right. auto. }
      simpl in D1, D2. rewrite D1. cbn [bind]. eexists. split; [reflexivity |]. subst l1. apply Raw_minus. apply Raw_plus. simpl. apply raw_common; auto.
    + apply smem_nIn in S. change (map ikey r) with (keys r) in HC. replace (p ++ y :: r) with ((p ++ [y]) ++ r) by (rewrite <- app_assoc; auto).
      apply IH; auto. intros x Hx. apply in_app_or in Hx. destruct Hx as [Hx | [Hx | []]]; auto. subst. auto.
Qed.

Lemma common_keys_ok : forall k2 l1, exists cs, common_keys l1 k2 = Ok cs.
Proof.
  induction k2 as [| k r IH]; intro l1; simpl; eauto. destruct (smem k (keys l1)) eqn:S; auto.
  apply smem_In in S. destruct (split_key_ok _ _ S) as (a & x & b & E & _). rewrite E. cbn [bind].
  destruct (IH b) as (cs & C). rewrite C. eexists. reflexivity.
Qed.

Lemma plain_with_info : forall x, plain_item x = true -> with_info ISame x = x.
Proof. intros [k v i] P. simpl in P. apply andb_true_iff in P. destruct P as [P _]. apply info_eqb_eq in P. subst. reflexivity. Qed.

Lemma plain_map : forall l, plain l = true -> map (with_info ISame) l = l.
Proof.
  induction l as [| x r IH]; simpl; intro P; auto. apply andb_true_iff in P. destruct P as [P1 P2]. rewrite plain_with_info, IH; auto.
Qed.

Lemma plain_shape : forall x, plain_item x = true -> exists k v, x = It k v ISame /\ forall l, v = Some l -> plain l = true.
Proof.
  intros [k v i] P. simpl in P. apply andb_true_iff in P. destruct P as [P1 P2]. apply info_eqb_eq in P1. subst i. exists k, v. split; auto.
  intros l E. subst v. auto.
Qed.

Lemma Script_all_minus : forall l, plain l = true -> Script l [] (minus l).
Proof.
  induction l as [| x r IH]; simpl; intro P; [constructor |]. apply andb_true_iff in P. destruct P as [P1 P2].
  destruct (plain_shape x P1) as (k & v & E & _). subst x. apply sc_minus. auto.
Qed.
Lemma Script_all_plus : forall l, plain l = true -> Script [] l (plus l).
Proof.
  induction l as [| x r IH]; simpl; intro P; [constructor |]. apply andb_true_iff in P. destruct P as [P1 P2].
  destruct (plain_shape x P1) as (k & v & E & _). subst x. apply sc_plus. auto.
Qed.

Lemma plain_cons : forall x l, plain (x :: l) = true <-> plain_item x = true /\ plain l = true.
Proof. intros. simpl. apply andb_true_iff. Qed.

Lemma cleanup_Script : forall l1 l2 d,
  Raw (fun a b w => plain a = true -> plain b = true -> Script a b w) l1 l2 d ->
  plain l1 = true -> plain l2 = true -> forall bef, Script l1 l2 (cleanup bef d).
Proof.
  induction 1 as [| x l1 l2 d H IH | x l1 l2 d H IH | x y c l1 l2 d K C H IH]; intros P1 P2 bef.
  - constructor.
  - apply plain_cons in P1. destruct P1 as [Px P1]. destruct (plain_shape x Px) as (k & v & E & _). subst x. cbn. apply sc_minus. auto.
  - apply plain_cons in P2. destruct P2 as [Px P2]. destruct (plain_shape x Px) as (k & v & E & _). subst x. cbn. apply sc_plus. auto.
  - apply plain_cons in P1. apply plain_cons in P2. destruct P1 as [Px P1], P2 as [Py P2].
    destruct (plain_shape x Px) as (k & v & E & F). destruct (plain_shape y Py) as (k' & v' & E' & F'). subst x y. simpl in K, C. subst k'.
    destruct C as [C | (v1 & v2 & w & C1 & C2 & C3 & C4 & C5)].
    + unfold common_item in C. destruct (val_eqb v v') eqn:V.
      * apply val_eqb_eq in V. subst v'. inversion C as [HC]. cbn [cleanup iinfo].
        assert (E : option_map (map (with_info ISame)) v = v) by (destruct v as [l |]; simpl; auto; f_equal; apply plain_map; auto).
        rewrite E. destruct (existsb _ (keys d)); [apply (sc_shown (It k v ISame)); auto | apply sc_hidden; auto].
      * destruct v as [v1 |], v' as [v2 |]; inversion C; subst c; cbn [cleanup iinfo].
        { apply sc_gone; auto. apply Script_all_minus; auto. }
        { apply sc_came; auto. apply Script_all_plus; auto. }
    + subst v v' c. cbn [cleanup iinfo]. apply sc_deep; auto.
Qed.

Lemma depth_In : forall x l, In x l -> depth_item x <= depth l.
Proof.
  induction l as [| y r IH]; [intros [] |]. change (depth (y :: r)) with (Nat.max (depth_item y) (depth r)).
  intros [E | H]; [subst; lia |]. specialize (IH H). lia.
Qed.
Lemma depth_val : forall x v, ival x = Some v -> depth_item x = S (depth v).
Proof. intros [k v' i] v E. simpl in E. subst. reflexivity. Qed.

Lemma compare_script : forall f l1 l2, depth l1 <= f -> exists d, compare (S f) l1 l2 = Ok d /\ (plain l1 = true -> plain l2 = true -> Script l1 l2 d).
Proof.
  induction f as [| f IH]; intros l1 l2 D.
  - cbn [compare]. destruct (common_keys_ok (keys l2) l1) as (cs & C). rewrite C. cbn [bind].
    destruct (raw_ok (fun a b w => plain a = true -> plain b = true -> Script a b w) (compare 0) l2 l1 cs []) as (d & D1 & D2); auto.
    { intros x v1 v2 Hx V. apply depth_In in Hx. rewrite (depth_val x v1 V) in Hx. lia. }
    simpl in D1, D2. rewrite D1. cbn [bind]. eexists. split; [reflexivity |]. intros. apply cleanup_Script; auto.
  - cbn [compare]. destruct (common_keys_ok (keys l2) l1) as (cs & C). rewrite C. cbn [bind].
    destruct (raw_ok (fun a b w => plain a = true -> plain b = true -> Script a b w) (compare (S f)) l2 l1 cs []) as (d & D1 & D2); auto.
    { intros x v1 v2 Hx V. apply IH. apply depth_In in Hx. rewrite (depth_val x v1 V) in Hx. lia. }
    simpl in D1, D2. cbn [compare] in D1. rewrite D1. cbn [bind]. eexists. split; [reflexivity |]. intros. apply cleanup_Script; auto.
Qed.

Lemma list_diff_script : forall l1 l2, exists d, list_diff l1 l2 = Ok d /\ (plain l1 = true -> plain l2 = true -> Script l1 l2 d).
Proof. intros. apply compare_script. auto. Qed.

Lemma Script_nil_eq : forall l1 l2 d, Script l1 l2 d -> d = [] -> l1 = l2.
Proof. induction 1; intro E; try discriminate; auto. f_equal. auto. Qed.

Lemma no_diff_same : forall l1 l2, plain l1 = true -> plain l2 = true -> list_diff l1 l2 = Ok [] -> l1 = l2.
Proof.
  intros l1 l2 P1 P2 H. destruct (list_diff_script l1 l2) as (d & D & S). rewrite D in H. inversion H; subst d. apply (Script_nil_eq _ _ _ (S P1 P2) eq_refl).
Qed.

Lemma Script_lines : forall l1 l2 d, Script l1 l2 d -> forall k v,
  (In (It k v IMinus) d -> (exists x, In x l1 /\ x = It k v ISame) \/ In (It k v IMinus) l1) /\
  (In (It k v IPlus) d -> (exists x, In x l2 /\ x = It k v ISame) \/ In (It k v IPlus) l2).
Proof.
  induction 1; intros k0 v0; simpl; (split; intro G; [destruct (IHScript k0 v0) as [A _] || destruct (IHScript2 k0 v0) as [A _] || idtac | destruct (IHScript k0 v0) as [_ A] || destruct (IHScript2 k0 v0) as [_ A] || idtac]); try contradiction.
  all: try (destruct G as [G | G]; [inversion G; subst; eauto |]).
  all: try (specialize (A G); destruct A as [(x0 & X & Y) | A]; [left; exists x0; auto | auto]).
Qed.

(** ** The diff of a list with itself *)

Lemma common_self : forall l, common_keys l (keys l) = Ok (keys l).
Proof.
  induction l as [| x r IH]; auto. cbn [keys map common_keys]. unfold smem. cbn [mem keys map]. rewrite String.eqb_refl. cbn [orb split_key].
  rewrite String.eqb_refl. cbn [bind]. change (map ikey r) with (keys r). rewrite IH. reflexivity.
Qed.

Definition both (x : item) : item := It (ikey x) (option_map (map (with_info ISame)) (ival x)) IBoth.
Lemma raw_self : forall rec l, raw_diff rec (keys l) l l = Ok (map both l).
Proof.
  induction l as [| x r IH]; auto. cbn [keys map raw_diff split_key]. rewrite String.eqb_refl. cbn [bind]. unfold common_item.
  assert (E : val_eqb (ival x) (ival x) = true) by (apply val_eqb_eq; auto). rewrite E. cbn [bind]. change (map ikey r) with (keys r). rewrite IH. reflexivity.
Qed.

Lemma keys_both : forall l, keys (map both l) = keys l.
Proof. intro l. unfold keys. rewrite map_map. reflexivity. Qed.

Lemma cleanup_self : forall l bef, cleanup bef (map both l) = [] <->
  ~ exists a x b k, l = a ++ x :: b /\ (In k (keys a) \/ In k bef) /\ In k (keys b).
Proof.
  induction l as [| x r IH]; intro bef; cbn [map cleanup].
  - split; auto. intros _ (a & x & b & k & E & _). destruct a; discriminate.
  - cbn [both iinfo]. rewrite keys_both. destruct (existsb (fun k => smem k bef) (keys r)) eqn:E.
    + split; [discriminate |]. intro H. exfalso. apply H. apply existsb_exists in E. destruct E as (k & K1 & K2). apply smem_In in K2.
      exists [], x, r, k. simpl. auto.
    + rewrite (IH (ikey (both x) :: bef)). change (ikey (both x)) with (ikey x). split; intro H; intro G; apply H.
      * destruct G as (a & y & b & k & G1 & G2 & G3). destruct a as [| z a].
        { simpl in G1. inversion G1; subst. exfalso. destruct G2 as [[] | G2]. assert (existsb (fun k => smem k bef) (keys b) = true).
          { apply existsb_exists. exists k. split; auto. apply smem_In. auto. } congruence. }
        { simpl in G1. inversion G1; subst. exists a, y, b, k. split; auto. split; auto. simpl in G2. destruct G2 as [[G2 | G2] | G2]; simpl; auto. }
      * destruct G as (a & y & b & k & G1 & G2 & G3). exists (x :: a), y, b, k. subst r. split; auto. split; auto. simpl in *. intuition.
Qed.

Lemma self_diff : forall l, list_diff l l = Ok [] <-> ~ surrounded l.
Proof.
  intro l. unfold list_diff. cbn [compare]. rewrite common_self. cbn [bind]. rewrite raw_self. cbn [bind]. split; intro H.
  - inversion H as [E]. rewrite E in H. apply cleanup_self in E. intros (a & x & b & k & G). apply E. exists a, x, b, k. intuition.
  - f_equal. apply cleanup_self. intros (a & x & b & k & G1 & [G2 | []] & G3). apply H. exists a, x, b, k. auto.
Qed.

Lemma NoDup_app_disj : forall (A : Type) (a b : list A) k, NoDup (a ++ b) -> In k a -> In k b -> False.
Proof.
  induction a as [| x r IH]; intros b k N H1 H2; [destruct H1 |]. simpl in N. inversion N as [| ? ? N1 N2]; subst. destruct H1 as [H1 | H1].
  - subst. apply N1. apply in_or_app. auto.
  - apply (IH b k); auto.
Qed.

Lemma NoDup_not_surrounded : forall l, NoDup (keys l) -> ~ surrounded l.
Proof.
  intros l N (a & x & b & k & E & K1 & K2). subst l. unfold keys in N. rewrite map_app in N.
  apply (NoDup_app_disj _ _ _ k N K1). right. exact K2.
Qed.

Lemma self_diff_distinct : forall l, NoDup (keys l) -> list_diff l l = Ok [].
Proof. intros l N. apply self_diff. apply NoDup_not_surrounded. auto. Qed.

Lemma Raw_keys : forall R l1 l2 d, Raw R l1 l2 d -> keys (filter not_plus d) = keys l1 /\ keys (filter not_minus d) = keys l2.
Proof.
  intros R l1 l2 d H. induction H as [| x l1 l2 d H IH | x l1 l2 d H IH | x y c l1 l2 d K C H IH]; auto.
  - destruct IH as [I1 I2]. cbn [filter not_plus not_minus iinfo with_info info_eqb negb keys map]. split; [f_equal; exact I1 | exact I2].
  - destruct IH as [I1 I2]. cbn [filter not_plus not_minus iinfo with_info info_eqb negb keys map]. split; [exact I1 | f_equal; exact I2].
  - destruct IH as [I1 I2]. assert (G : ikey c = ikey x /\ (iinfo c = IBoth \/ iinfo c = ISame)).
    { destruct C as [C | (v1 & v2 & w & _ & _ & _ & _ & E)]; [| subst; auto]. unfold common_item in C.
      destruct (val_eqb (ival x) (ival y)); [inversion C; auto |]. destruct (ival x), (ival y); inversion C; auto. }
    destruct G as [G1 G2]. assert (P1 : not_plus c = true) by (unfold not_plus; destruct G2 as [-> | ->]; auto).
    assert (P2 : not_minus c = true) by (unfold not_minus; destruct G2 as [-> | ->]; auto).
    cbn [filter]. rewrite P1, P2. cbn [keys map]. split; f_equal; auto; congruence.
Qed.

(** The diff is the cleaned up form of a list in which the lines without '+' are those
    of the first text and the lines without '-' those of the second. *)
Lemma list_diff_raw : forall l1 l2, exists raw, list_diff l1 l2 = Ok (cleanup [] raw) /\
  keys (filter not_plus raw) = keys l1 /\ keys (filter not_minus raw) = keys l2.
Proof.
  intros l1 l2. unfold list_diff. cbn [compare]. destruct (common_keys_ok (keys l2) l1) as (cs & C). rewrite C. cbn [bind].
  destruct (raw_ok (fun _ _ _ => True) (compare (depth l1)) l2 l1 cs []) as (d & D1 & D2); auto.
  { intros x v1 v2 Hx V. apply depth_In in Hx. rewrite (depth_val x v1 V) in Hx. destruct (depth l1) as [| n]; [lia |].
    destruct (compare_script n v1 v2) as (w & W & _); [lia |]. exists w. auto. }
  simpl in D1, D2. rewrite D1. cbn [bind]. exists d. split; auto. apply (Raw_keys _ _ _ _ D2).
Qed.
