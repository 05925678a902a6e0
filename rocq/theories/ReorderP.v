(** Reordering keeps the nodes; the queue loop marks one level. *)
From Coq Require Import String Ascii List Bool Arith ZArith Lia Permutation.
From Verif Require Import Base BaseP XmlM CalcM CalcP NetconfM ConfigM ReorderM DataSpec DataP RoundP PruneSpec PruneP ReorderSpec.
Import ListNotations.
Open Scope string_scope.
Open Scope list_scope.
Open Scope nat_scope.

(** ** Reordering *)
Lemma num_keys_split : forall s l n, num_keys s l = Ok n -> n <= length l /\
  (forall k, In k (firstn n l) -> exists sk, Defines s (xtag k) sk /\ s_is_key (si sk) = true) /\
  (forall c r, skipn n l = c :: r -> exists sc, Defines s (xtag c) sc /\ s_is_key (si sc) = false).
Proof.
  intros s l. induction l as [| c l IH]; intros n H; simpl in H.
  - injection H as H. subst n. simpl. split; auto. split; [intros k [] | intros c r E; discriminate].
  - apply bind_ok in H. destruct H as (cs & E & H). destruct (s_is_key (si cs)) eqn:Ek.
    + apply bind_ok in H. destruct H as (m & Em & H). injection H as H. subst n. destruct (IH m Em) as (L & A & B).
      simpl. split; [lia |]. split; auto. intros k [I | I]; auto. subst k. exists cs. split; auto. apply schema_child_Defines; auto.
    + injection H as H. subst n. simpl. split; [lia |]. split; [intros k [] |]. intros c' r E'. injection E' as E1 E2. subst c'.
      exists cs. split; auto. apply schema_child_Defines; auto.
Qed.

Lemma mapM_nth_perm : forall (A : Type) (l : list A) n idx cs, n <= length l ->
  Permutation (seq n (length l - n)) idx -> mapM (nth_res l) idx = Ok cs -> Permutation (skipn n l) cs.
Proof.
  intros A l n idx cs L P H.
  assert (G : mapM (nth_res l) (seq n (length l - n)) = Ok (skipn n l)).
  { clear P H. remember (length l - n) as m. assert (E : n + m = length l) by lia. clear Heqm L.
    revert n E. induction m as [| m IH]; intros n E; cbn [seq mapM].
    - rewrite skipn_all2 by lia. reflexivity.
    - unfold nth_res at 1. destruct (nth_error l n) as [a |] eqn:En.
      + cbn [bind]. rewrite IH by lia. cbn [bind]. f_equal. clear -En. revert n En. induction l as [| b l IHl]; intros [| n] En; try discriminate.
        * injection En as En. subst. reflexivity.
        * simpl in En. cbn [skipn]. rewrite <- (IHl n En). reflexivity.
      + apply nth_error_None in En. lia. }
  assert (M : forall d idx cs, mapM (nth_res l) idx = Ok cs -> cs = map (fun i => nth i l d) idx).
  { clear. intros d idx. induction idx as [| i idx IH]; intros cs H; cbn [mapM map] in *; [congruence |].
    apply bind_ok in H. destruct H as (a & Ea & H). apply bind_ok in H. destruct H as (as' & Eas & H). injection H as H. subst cs.
    f_equal; auto. unfold nth_res in Ea. destruct (nth_error l i) as [b |] eqn:E; [| discriminate]. injection Ea as Ea. subst b.
    symmetry. apply nth_error_nth. exact E. }
  destruct l as [| d l].
  - cbn in P. apply Permutation_nil in P. subst idx. cbn in H. injection H as H. subst cs. destruct n; reflexivity.
  - rewrite (M d _ _ G), (M d _ _ H). apply Permutation_map. exact P.
Qed.

Lemma reorder_children_spec : forall draw s x y, FairDraw draw -> reorder_children draw s x = Ok y -> Shuffled 0 s x y.
Proof.
  intros draw s [t tx a l] y F H. unfold reorder_children in H. cbn [xkids] in H.
  apply bind_ok in H. destruct H as (n & En & H). destruct (num_keys_split _ _ _ En) as (L & A & B).
  rewrite <- (firstn_skipn n l) at 1.
  destruct (Nat.eqb_spec (length l - n) 2) as [E2 | E2].
  - apply bind_ok in H. destruct H as (c & Ec & H). injection H as H. subst y. cbn [set_kids]. constructor; auto.
    unfold nth_res in Ec. destruct (nth_error l n) as [c' |] eqn:E; [| discriminate]. injection Ec as Ec. subst c'.
    assert (S : skipn n l = c :: skipn (S n) l).
    { clear -E. revert n E. induction l as [| b l IHl]; intros [| n] E; try discriminate.
      - injection E as E. subst. reflexivity.
      - simpl in E. cbn [skipn]. rewrite (IHl n E). reflexivity. }
    rewrite S. apply Permutation_cons_append.
  - destruct (Nat.ltb_spec 2 (length l - n)) as [G | G].
    + apply bind_ok in H. destruct H as (cs & Ec & H). injection H as H. subst y. cbn [set_kids]. constructor; auto.
      apply (mapM_nth_perm xml l n (draw n (length l)) cs L); auto.
    + injection H as H. subst y. rewrite (firstn_skipn n l).
      replace (Elem t tx a l) with (Elem t tx a (firstn n l ++ skipn n l)) by (rewrite firstn_skipn; reflexivity). constructor; auto.
Qed.

Theorem reorder_spec : forall draw d s x y, FairDraw draw -> reorder draw d s x = Ok y -> Shuffled d s x y.
Proof.
  intros draw d. induction d as [| d IH]; intros s x y F H.
  - apply (reorder_children_spec draw); auto.
  - cbn [reorder] in H. apply bind_ok in H. destruct H as (ks & Hk & H). injection H as H. subst y. apply mapM_ok in Hk.
    destruct x as [t tx a l]. cbn [set_kids xkids] in *. constructor. eapply Forall2_impl; [| exact Hk].
    intros c c' Hc. apply bind_ok in Hc. destruct Hc as (cs & E & Hc). exists cs. split; [apply schema_child_Defines; auto |]. eauto.
Qed.

(** Two children which are not keys always change places. *)
Lemma two_swapped : forall draw s t tx a keys c1 c2 sc, (forall k, In k keys -> exists sk, schema_child s (xtag k) = Ok sk /\ s_is_key (si sk) = true) ->
  schema_child s (xtag c1) = Ok sc -> s_is_key (si sc) = false ->
  reorder draw 0 s (Elem t tx a (keys ++ [c1; c2])) = Ok (Elem t tx a (keys ++ [c2; c1])).
Proof.
  intros draw s t tx a keys c1 c2 sc A E1 E2. cbn [reorder]. unfold reorder_children. cbn [xkids].
  assert (N : num_keys s (keys ++ [c1; c2]) = Ok (length keys)).
  { induction keys as [| k keys IH]; cbn [num_keys app].
    - rewrite E1. cbn [bind]. rewrite E2. reflexivity.
    - destruct (A k) as (sk & Ek & Kk); [simpl; auto |]. rewrite Ek. cbn [bind]. rewrite Kk, IH; auto.
      intros; apply A; simpl; auto. }
  rewrite N. cbn [bind]. rewrite app_length. cbn [length]. replace (length keys + 2 - length keys) with 2 by lia.
  cbn [Nat.eqb]. unfold nth_res. rewrite nth_error_app2, Nat.sub_diag by lia. cbn [nth_error bind set_kids].
  rewrite firstn_app, firstn_all, Nat.sub_diag. cbn [firstn]. rewrite app_nil_r. 
  rewrite skipn_app. replace (S (length keys) - length keys) with 1 by lia. rewrite skipn_all2 by lia. reflexivity.
Qed.

(** *** Same nodes *)
Lemma places_kids_pos : forall l p n p' n', length p = length p' ->
  map outline_entry (places_kids p n l) = map outline_entry (places_kids p' n' l).
Proof.
  assert (X : forall x p p', length p = length p' -> map outline_entry (places p x) = map outline_entry (places p' x)).
  { intro x. induction x as [x IH] using xml_ind'. intros p p' L. rewrite !places_eq. cbn [map]. f_equal.
    - unfold outline_entry. cbn [fst snd]. rewrite L. reflexivity.
    - assert (G : forall l n n', (forall c, In c l -> In c (xkids x)) ->
                  map outline_entry (places_kids p n l) = map outline_entry (places_kids p' n' l)).
      { induction l as [| c r IHr]; intros n n' I; auto. cbn [places_kids]. rewrite !map_app. f_equal.
        - apply IH; [apply I; simpl; auto |]. rewrite !app_length, L. reflexivity.
        - apply IHr. intros; apply I; simpl; auto. }
      apply G; auto. }
  induction l as [| c r IHr]; intros p n p' n' L; auto. cbn [places_kids]. rewrite !map_app. f_equal; auto.
  apply X. rewrite !app_length, L. reflexivity.
Qed.

Lemma places_pos : forall x p p', length p = length p' -> map outline_entry (places p x) = map outline_entry (places p' x).
Proof.
  intros x p p' L. pose proof (places_kids_pos [x] (removelast p) 0 (removelast p') 0) as H.
  rewrite !places_eq. cbn [map]. f_equal.
  - unfold outline_entry. cbn [fst snd]. rewrite L. reflexivity.
  - apply places_kids_pos; auto.
Qed.

Lemma places_kids_app : forall l1 l2 p n, places_kids p n (l1 ++ l2) = places_kids p n l1 ++ places_kids p (n + length l1) l2.
Proof.
  induction l1 as [| c r IH]; intros l2 p n; cbn [app places_kids length].
  - rewrite Nat.add_0_r. reflexivity.
  - rewrite IH, app_assoc. do 2 f_equal. lia.
Qed.

Lemma places_kids_perm : forall l l' p n, Permutation l l' ->
  Permutation (map outline_entry (places_kids p n l)) (map outline_entry (places_kids p n l')).
Proof.
  intros l l' p n P. revert n. induction P; intro n.
  - reflexivity.
  - cbn [places_kids]. rewrite !map_app. apply Permutation_app_head. auto.
  - cbn [places_kids]. rewrite !map_app, !app_assoc. apply Permutation_app.
    + rewrite Permutation_app_comm. apply Permutation_app; rewrite (places_pos _ (p ++ [n]) (p ++ [S n])) by (rewrite !app_length; reflexivity); reflexivity.
    + reflexivity.
  - etransitivity; eauto.
Qed.

Lemma Shuffled_nodes : forall d s x y, Shuffled d s x y -> forall p,
  Permutation (map outline_entry (places p x)) (map outline_entry (places p y)).
Proof.
  intro d. induction d as [| d IH]; intros s x y H p; inversion H as [s' t tx a keys r r' A B P | d' s' t tx a l l' F]; subst;
    rewrite !places_eq; cbn [map xkids]; apply perm_skip.
  - apply places_kids_perm. apply Permutation_app_head. exact P.
  - generalize 0. induction F as [| c c' l l' Hc F IHF]; intro n; [reflexivity |].
    cbn [places_kids]. rewrite !map_app. destruct Hc as (cs & _ & Hc). apply Permutation_app; eauto. apply IHF.
    constructor. exact F.
Qed.

(** ** Marking one level *)
Inductive Apart : list nat -> list nat -> Prop :=
| ap_here : forall i j p q, i <> j -> Apart (i :: p) (j :: q)
| ap_down : forall i p q, Apart p q -> Apart (i :: p) (i :: q).

Lemma Apart_sym : forall p q, Apart p q -> Apart q p.
Proof. intros p q H. induction H; [apply ap_here; auto | apply ap_down; auto]. Qed.

Lemma Apart_app : forall p q i, Apart p q -> Apart (p ++ [i]) q.
Proof. intros p q i H. induction H; simpl; [apply ap_here; auto | apply ap_down; auto]. Qed.

Lemma Apart_snoc : forall p i j, i <> j -> Apart (p ++ [i]) (p ++ [j]).
Proof. induction p as [| k p IH]; intros i j H; simpl; [apply ap_here; auto | apply ap_down; auto]. Qed.

Lemma set_kids_twice : forall a b x, set_kids a (set_kids b x) = set_kids a x.
Proof. intros a b [t tx at0 k]. reflexivity. Qed.
Lemma kids_set : forall a x, xkids (set_kids a x) = a.
Proof. intros a [t tx at0 k]. reflexivity. Qed.
Lemma set_same : forall x, set_kids (xkids x) x = x.
Proof. intros [t tx a k]. reflexivity. Qed.

Lemma upd_nth_comm : forall {A} (f g : A -> A) i j l, i <> j -> upd_nth f i (upd_nth g j l) = upd_nth g j (upd_nth f i l).
Proof.
  intros A f g i j l. revert i j. induction l as [| a l IH]; intros [| i] [| j] H; simpl; auto; try congruence.
  f_equal. apply IH. congruence.
Qed.
Lemma upd_nth_twice : forall {A} (f g : A -> A) i l, upd_nth f i (upd_nth g i l) = upd_nth (fun x => f (g x)) i l.
Proof. intros A f g i l. revert i. induction l as [| a l IH]; intros [| i]; simpl; auto. f_equal. apply IH. Qed.
Lemma upd_nth_ext : forall {A} (f g : A -> A) i l, (forall a, f a = g a) -> upd_nth f i l = upd_nth g i l.
Proof. intros A f g i l H. revert i. induction l as [| a l IH]; intros [| i]; simpl; auto; f_equal; auto. Qed.
Lemma nth_upd_same : forall {A} (f : A -> A) i l, nth_error (upd_nth f i l) i = option_map f (nth_error l i).
Proof. intros A f i l. revert i. induction l as [| a l IH]; intros [| i]; simpl; auto. Qed.
Lemma nth_upd_other : forall {A} (f : A -> A) i j l, i <> j -> nth_error (upd_nth f i l) j = nth_error l j.
Proof. intros A f i j l. revert i j. induction l as [| a l IH]; intros [| i] [| j] H; simpl; auto; congruence. Qed.

Lemma upd_comm : forall p q f g x, Apart p q -> upd_at p f (upd_at q g x) = upd_at q g (upd_at p f x).
Proof.
  intros p q f g x H. revert x. induction H as [i j p q N | i p q H IH]; intro x; cbn [upd_at]; rewrite !kids_set, !set_kids_twice.
  - rewrite upd_nth_comm; auto.
  - rewrite !upd_nth_twice. f_equal. apply upd_nth_ext. exact IH.
Qed.

Lemma node_at_upd_other : forall p q f x, Apart p q -> node_at (upd_at q f x) p = node_at x p.
Proof.
  intros p q f x H. revert x. induction H as [i j p q N | i p q H IH]; intro x; cbn [upd_at node_at]; rewrite kids_set.
  - rewrite nth_upd_other by auto. reflexivity.
  - rewrite nth_upd_same. destruct (nth_error (xkids x) i); simpl; auto.
Qed.

Lemma node_at_upd : forall p f x n, node_at x p = Some n -> node_at (upd_at p f x) p = Some (f n).
Proof.
  induction p as [| i p IH]; intros f x n H; cbn [upd_at node_at] in *.
  - injection H as H. subst. reflexivity.
  - rewrite kids_set, nth_upd_same. destruct (nth_error (xkids x) i); [| discriminate]. simpl. auto.
Qed.

Lemma node_at_app : forall p x n i, node_at x p = Some n -> node_at x (p ++ [i]) = nth_error (xkids n) i.
Proof.
  induction p as [| j p IH]; intros x n i H; cbn [app node_at] in *.
  - injection H as H. subst. destruct (nth_error (xkids n) i); reflexivity.
  - destruct (nth_error (xkids x) j); [| discriminate]. auto.
Qed.

Lemma upd_at_ext : forall p f g x n, node_at x p = Some n -> f n = g n -> upd_at p f x = upd_at p g x.
Proof.
  induction p as [| i p IH]; intros f g x n H E; cbn [upd_at node_at] in *.
  - injection H as H. subst. exact E.
  - destruct (nth_error (xkids x) i) as [c |] eqn:Ec; [| discriminate]. f_equal.
    assert (G : forall l, nth_error l i = Some c -> upd_nth (upd_at p f) i l = upd_nth (upd_at p g) i l).
    { clear Ec. revert E H. clear x. revert i. intros i E H l. revert i. induction l as [| a l IHl]; intros [| i] El; simpl in *; auto; try discriminate.
      - injection El as El. subst a. f_equal. eapply IH; eauto.
      - f_equal. auto. }
    auto.
Qed.

Lemma upd_at_twice : forall p f g x, upd_at p f (upd_at p g x) = upd_at p (fun n => f (g n)) x.
Proof.
  induction p as [| i p IH]; intros f g x; cbn [upd_at]; auto. rewrite kids_set, set_kids_twice, upd_nth_twice.
  f_equal. apply upd_nth_ext. intro a. apply IH.
Qed.

Lemma upd_at_app : forall p i f x, upd_at (p ++ [i]) f x = upd_at p (fun n => set_kids (upd_nth f i (xkids n)) n) x.
Proof. induction p as [| j p IH]; intros i f x; cbn [app upd_at]; auto. f_equal. apply upd_nth_ext. intro a. apply IH. Qed.

Lemma upd_at_id : forall p f x, (forall n, f n = n) -> upd_at p f x = x.
Proof.
  intros p f x H. revert x. induction p as [| j p IH]; intro x; cbn [upd_at]; auto.
  transitivity (set_kids (xkids x) x); [| apply set_same]. f_equal. generalize (xkids x). intro l. revert j.
  induction l as [| a l IHl]; intros [| j]; cbn [upd_nth]; auto; f_equal; auto.
Qed.

Definition apply_all (m : Z -> xml -> xml) (q : list (list nat * Z)) (x : xml) : xml :=
  fold_left (fun y e => upd_at (fst e) (m (snd e)) y) q x.

Lemma apply_all_app : forall m q1 q2 x, apply_all m (q1 ++ q2) x = apply_all m q2 (apply_all m q1 x).
Proof. intros. unfold apply_all. apply fold_left_app. Qed.

Lemma apply_all_comm : forall m q p f x, Forall (fun e => Apart p (fst e)) q ->
  apply_all m q (upd_at p f x) = upd_at p f (apply_all m q x).
Proof.
  intros m q p f x H. revert x. induction H as [| e q He H IH]; intro x; auto. unfold apply_all in *. cbn [fold_left].
  rewrite <- IH. f_equal. symmetry. apply upd_comm. exact He.
Qed.

Lemma apply_all_node : forall m q p x, Forall (fun e => Apart p (fst e)) q -> node_at (apply_all m q x) p = node_at x p.
Proof.
  intros m q p x H. revert x. induction H as [| e q He H IH]; intro x; auto. unfold apply_all in *. cbn [fold_left].
  rewrite IH. apply node_at_upd_other. exact He.
Qed.

Lemma upd_all_nth : forall {A} (f : A -> A) (l : list A) l1, fold_left (fun y i => upd_nth f i y) (seq (length l1) (length l)) (l1 ++ l) = l1 ++ map f l.
Proof.
  intros A f l. induction l as [| a l IH]; intro l1; simpl; auto.
  assert (E : upd_nth f (length l1) (l1 ++ a :: l) = (l1 ++ [f a]) ++ l).
  { rewrite <- app_assoc. induction l1 as [| b l1 IHl]; simpl; auto. f_equal. exact IHl. }
  rewrite E. specialize (IH (l1 ++ [f a])). rewrite app_length in IH. simpl in IH. rewrite Nat.add_1_r in IH.
  rewrite IH, <- app_assoc. reflexivity.
Qed.

Lemma apply_kids : forall m k p x n, node_at x p = Some n ->
  apply_all m (map (fun i => (p ++ [i], k)) (seq 0 (length (xkids n)))) x = upd_at p (fun n => set_kids (map (m k) (xkids n)) n) x.
Proof.
  intros m k p x n H.
  assert (G : forall is x, apply_all m (map (fun i => (p ++ [i], k)) is) x =
              upd_at p (fun n => set_kids (fold_left (fun y i => upd_nth (m k) i y) is (xkids n)) n) x).
  { clear H x n. induction is as [| i is IH]; intro x.
    - cbn. symmetry. apply upd_at_id. apply set_same.
    - unfold apply_all in *. cbn [map fold_left fst snd]. rewrite IH, upd_at_app, upd_at_twice. 
      assert (E : forall a, (fun n => set_kids (fold_left (fun y i0 => upd_nth (m k) i0 y) is (xkids n)) n) (set_kids (upd_nth (m k) i (xkids a)) a) =
                     set_kids (fold_left (fun y i0 => upd_nth (m k) i0 y) is (upd_nth (m k) i (xkids a))) a).
      { intro a. cbv beta. rewrite kids_set, set_kids_twice. reflexivity. }
      clear -E. revert x. induction p as [| j p IHp]; intro x; cbn [upd_at]; [apply E |]. f_equal. apply upd_nth_ext. exact IHp. }
  rewrite G. apply (upd_at_ext p _ _ x n H). cbv beta. f_equal.
  exact (upd_all_nth (m k) (xkids n) []).
Qed.

Definition qsize (x : xml) (q : list (list nat * Z)) : nat :=
  fold_right (fun e n => match node_at x (fst e) with Some c => xsize c + n | None => n end) 0 q.

(** One level marked, recursively. *)
Fixpoint mark_level (name value : string) (d : Z) (x : xml) : xml :=
  let '(Elem t tx a k) := x in
  let y := Elem t tx a (map (mark_level name value (d - 1)) k) in
  if Z.eqb d 0 then set_attr name value y else y.

Lemma mark_level_eq : forall name value d x, mark_level name value d x =
  set_kids (map (mark_level name value (d - 1)) (xkids x)) (if Z.eqb d 0 then set_attr name value x else x).
Proof. intros name value d [t tx a k]. cbn [mark_level xkids]. destruct (Z.eqb d 0); reflexivity. Qed.

Lemma qsize_app : forall x q1 q2, qsize x (q1 ++ q2) = qsize x q1 + qsize x q2.
Proof.
  intros x q1 q2. unfold qsize. rewrite fold_right_app. induction q1 as [| e q IH]; simpl; auto.
  destruct (node_at x (fst e)); lia.
Qed.

Lemma xsize_eq : forall x, xsize x = S (fold_right (fun c n => xsize c + n) 0 (xkids x)).
Proof. intros [t tx a k]. reflexivity. Qed.

Lemma qsize_kids : forall x p k n, node_at x p = Some n ->
  qsize x (map (fun i => (p ++ [i], k)) (seq 0 (length (xkids n)))) = fold_right (fun c n => xsize c + n) 0 (xkids n).
Proof.
  intros x p k n H.
  assert (G : forall l l1, xkids n = l1 ++ l -> qsize x (map (fun i => (p ++ [i], k)) (seq (length l1) (length l))) =
              fold_right (fun c n => xsize c + n) 0 l).
  { induction l as [| c l IH]; intros l1 E; auto. cbn [length seq map]. unfold qsize in *. cbn [fold_right fst].
    rewrite (node_at_app p x n (length l1) H), E, nth_error_app2, Nat.sub_diag by lia. cbn [nth_error].
    specialize (IH (l1 ++ [c])). rewrite app_length in IH. simpl in IH. rewrite Nat.add_1_r in IH. rewrite IH; auto.
    rewrite E, <- app_assoc. reflexivity. }
  exact (G (xkids n) [] eq_refl).
Qed.

Definition GoodQueue (x : xml) (q : list (list nat * Z)) : Prop :=
  ForallOrdPairs (fun e e' => Apart (fst e) (fst e')) q /\ Forall (fun e => node_at x (fst e) <> None) q.

Lemma FOP_app : forall {A} (R : A -> A -> Prop) l1 l2, ForallOrdPairs R l1 -> ForallOrdPairs R l2 ->
  (forall a b, In a l1 -> In b l2 -> R a b) -> ForallOrdPairs R (l1 ++ l2).
Proof.
  intros A R l1 l2 H1 H2 H. induction H1 as [| a l1 Ha H1 IH]; simpl; auto. constructor.
  - apply Forall_app. split; auto. apply Forall_forall. intros b I. apply H; simpl; auto.
  - apply IH. intros; apply H; simpl; auto.
Qed.

Lemma mark_loop_ok : forall fuel d name value x q, GoodQueue x q -> qsize x q <= fuel ->
  mark_loop fuel d name value x q = Ok (apply_all (fun k => mark_level name value (d - k)) q x).
Proof.
  induction fuel as [| f IH]; intros d name value x [| (p, k) q] (A & N) S; auto.
  - exfalso. inversion N; subst. cbn [fst] in *. unfold qsize in S. cbn [fold_right fst] in S.
    destruct (node_at x p) as [c |]; [| congruence]. rewrite xsize_eq in S. lia.
  - cbn [mark_loop].
    set (h := fun n => if Z.eqb k d then set_attr name value n else n).
    assert (E : (if Z.eqb k d then upd_at p (set_attr name value) x else x) = upd_at p h x).
    { unfold h. destruct (Z.eqb k d); auto. symmetry. apply upd_at_id. reflexivity. }
    rewrite E. inversion N as [| e q' Np Nq]; subst. cbn [fst] in Np. inversion A as [| e q' Ap Aq]; subst. cbn [fst] in Ap.
    destruct (node_at x p) as [n |] eqn:En; [| congruence]. rewrite (node_at_upd p h x n En).
    assert (Hk : xkids (h n) = xkids n) by (unfold h; destruct (Z.eqb k d); destruct n; reflexivity). rewrite Hk.
    set (kids := map (fun i => (p ++ [i], (k + 1)%Z)) (seq 0 (length (xkids n)))).
    assert (Ap' : Forall (fun e => Apart (fst e) p) q).
    { eapply Forall_impl; [| exact Ap]. intros; apply Apart_sym; auto. }
    assert (Sq : qsize (upd_at p h x) q = qsize x q).
    { clear -Ap'. unfold qsize. induction Ap' as [| e q He H IH]; simpl; auto. rewrite node_at_upd_other by auto. rewrite IH. reflexivity. }
    assert (Ek : kids = map (fun i => (p ++ [i], (k + 1)%Z)) (seq 0 (length (xkids (h n))))) by (rewrite Hk; reflexivity).
    rewrite IH.
    + f_equal. rewrite apply_all_app. unfold apply_all at 3. cbn [fold_left fst snd]. fold (apply_all (fun k0 => mark_level name value (d - k0)) q (upd_at p (mark_level name value (d - k)) x)).
      rewrite (apply_all_comm _ q p h x Ap), (apply_all_comm _ q p (mark_level name value (d - k)) x Ap). set (X := apply_all (fun k0 => mark_level name value (d - k0)) q x).
      assert (EX : node_at X p = Some n). { unfold X. rewrite apply_all_node; auto. }
      rewrite Ek. rewrite (apply_kids (fun k0 => mark_level name value (d - k0)) (k + 1)%Z p (upd_at p h X) (h n)).
      * rewrite upd_at_twice. apply (upd_at_ext p _ _ X n EX). cbv beta. rewrite mark_level_eq, Hk. unfold h.
        replace (d - (k + 1))%Z with (d - k - 1)%Z by lia. 
        destruct (Z.eqb_spec k d); destruct (Z.eqb_spec (d - k) 0); try lia; reflexivity.
      * apply node_at_upd; auto.
    + split.
      * apply FOP_app; auto.
        -- unfold kids. generalize (length (xkids n)) as m. generalize 0 as z. intros z m. revert z. induction m as [| m IHm]; intro z; cbn [seq map]; constructor; auto.
           apply Forall_forall. intros e I. apply in_map_iff in I. destruct I as (i & Ei & Ii). apply in_seq in Ii. subst e. cbn [fst]. apply Apart_snoc. lia.
        -- intros e e' I I'. unfold kids in I'. apply in_map_iff in I'. destruct I' as (i & Ei & Ii). subst e'. cbn [fst].
           apply Apart_sym, Apart_app. rewrite Forall_forall in Ap. apply Ap; auto.
      * apply Forall_app. split.
        -- rewrite Forall_forall in *. intros e I. rewrite node_at_upd_other; auto.
        -- apply Forall_forall. intros e I. rewrite Ek in I. apply in_map_iff in I. destruct I as (i & Ei & Ii). subst e. cbn [fst].
           rewrite (node_at_app p _ (h n)) by (apply node_at_upd; auto). apply nth_error_Some. apply in_seq in Ii. lia.
    + rewrite qsize_app, Sq, Ek, (qsize_kids _ p _ (h n)) by (apply node_at_upd; auto). rewrite Hk.
      unfold qsize in S at 1. cbn [fold_right fst] in S. rewrite En in S. fold (qsize x q) in S. rewrite xsize_eq in S. lia.
Qed.

Theorem mark_loop_level : forall x d name value, add_attribute_at_depth x d name value = Ok (mark_level name value d x).
Proof.
  intros x d name value. unfold add_attribute_at_depth. rewrite mark_loop_ok.
  - unfold apply_all. cbn [fold_left fst snd upd_at]. rewrite Z.sub_0_r. reflexivity.
  - split; [repeat constructor |]. constructor; [discriminate | constructor].
  - unfold qsize. cbn [fold_right fst node_at]. lia.
Qed.

Lemma mark_depth_level : forall x d, mark_depth d x = mark_level "operation" "replace" d x.
Proof.
  intro x. induction x as [x IH] using xml_ind'. intro d. destruct x as [t tx a ks]. cbn [mark_depth mark_level].
  rewrite (map_ext_in (mark_depth (d - 1)) (mark_level "operation" "replace" (d - 1)) ks); auto.
Qed.

Theorem mark_loop_depth : forall x d, add_attribute_at_depth x d "operation" "replace" = Ok (mark_depth d x).
Proof. intros x d. rewrite mark_loop_level, mark_depth_level. reflexivity. Qed.

Lemma get_set_attr : forall n v m x, get_attr m (set_attr n v x) = if String.eqb m n then Some v else get_attr m x.
Proof.
  intros n v m [t tx a k]. unfold get_attr. cbn [set_attr xattrs]. induction a as [| (n', v') a IH]; cbn [dset assoc].
  - destruct (String.eqb m n); reflexivity.
  - destruct (String.eqb_spec n n') as [E | E]; cbn [assoc].
    + subst n'. destruct (String.eqb m n); reflexivity.
    + destruct (String.eqb_spec m n') as [E' | E'].
      * subst n'. destruct (String.eqb_spec m n); [congruence | reflexivity].
      * exact IH.
Qed.

Lemma level_marked : forall name value x d p, Forall2 (fun e e' => fst e = fst e' /\ xtag (snd e) = xtag (snd e') /\ xtext (snd e) = xtext (snd e') /\
             (forall m, get_attr m (snd e') =
                if String.eqb m name && Z.eqb (Z.of_nat (length (fst e))) (d + Z.of_nat (length p)) then Some value else get_attr m (snd e)))
          (places p x) (places p (mark_level name value d x)).
Proof.
  intros name value x. induction x as [x IH] using xml_ind'. intros d p. rewrite (places_eq p x), places_eq, mark_level_eq, kids_set. constructor.
  - cbn [fst snd].
    assert (Y : forall l y, xtag (set_kids l y) = xtag y /\ xtext (set_kids l y) = xtext y /\ forall m, get_attr m (set_kids l y) = get_attr m y).
    { intros l [t tx a k]. auto. }
    match goal with |- context [set_kids ?l ?y] => destruct (Y l y) as (Y1 & Y2 & Y3) end. rewrite Y1, Y2.
    split; auto. destruct (Z.eqb_spec d 0) as [E | E].
    + split; [destruct x; reflexivity |]. split; [destruct x; reflexivity |]. intro m. rewrite Y3, get_set_attr.
      replace (Z.eqb _ _) with true by (symmetry; apply Z.eqb_eq; lia). rewrite andb_true_r. reflexivity.
    + split; auto. split; auto. intro m. rewrite Y3. replace (Z.eqb _ _) with false by (symmetry; apply Z.eqb_neq; lia).
      rewrite andb_false_r. reflexivity.
  - assert (G : forall l n, (forall c, In c l -> In c (xkids x)) -> Forall2 (fun e e' => fst e = fst e' /\ xtag (snd e) = xtag (snd e') /\ xtext (snd e) = xtext (snd e') /\
             (forall m, get_attr m (snd e') =
                if String.eqb m name && Z.eqb (Z.of_nat (length (fst e))) (d + Z.of_nat (length p)) then Some value else get_attr m (snd e)))
          (places_kids p n l) (places_kids p n (map (mark_level name value (d - 1)) l))).
    { induction l as [| c r IHr]; intros n I; cbn [places_kids map]; [constructor |]. apply Forall2_app.
      - assert (L : (d + Z.of_nat (length p))%Z = (d - 1 + Z.of_nat (length (p ++ [n])))%Z) by (rewrite app_length; simpl; lia).
        rewrite L. apply IH. apply I. simpl. auto.
      - apply IHr. intros; apply I; simpl; auto. }
    apply G. auto.
Qed.

Theorem loop_marked : forall x d name value, exists y, add_attribute_at_depth x d name value = Ok y /\ Marked name value d x y.
Proof.
  intros x d name value. exists (mark_level name value d x). split; [apply mark_loop_level |].
  pose proof (level_marked name value x d []) as H. cbn [length] in H. rewrite Z.add_0_r in H. exact H.
Qed.

(** ** Totality of the reordering *)
Lemma num_keys_total : forall s l, (forall c, In c l -> exists cs, schema_child s (xtag c) = Ok cs) -> exists n, num_keys s l = Ok n.
Proof.
  intros s l. induction l as [| c r IH]; intro H; [simpl; eauto |]. cbn [num_keys]. destruct (H c) as (cs & E); [simpl; auto |].
  rewrite E. cbn [bind]. destruct (s_is_key (si cs)); eauto. destruct IH as (n & En); [intros; apply H; simpl; auto |].
  rewrite En. simpl. eauto.
Qed.

Lemma mapM_total : forall {A B} (f : A -> res B) l, (forall a, In a l -> exists b, f a = Ok b) -> exists l', mapM f l = Ok l'.
Proof.
  intros A B f l. induction l as [| a l IH]; intro H; [simpl; eauto |]. cbn [mapM]. destruct (H a) as (b & E); [simpl; auto |].
  rewrite E. cbn [bind]. destruct IH as (l' & E'); [intros; apply H; simpl; auto |]. rewrite E'. simpl. eauto.
Qed.

Theorem reorder_total : forall draw d s x, FairDraw draw -> known s x -> exists y, reorder draw d s x = Ok y.
Proof.
  intros draw d. induction d as [| d IH]; intros s x F W; rewrite known_iff in W; cbn [reorder].
  - unfold reorder_children. destruct (num_keys_total s (xkids x)) as (n & En).
    { intros c I. destruct (W c I) as (cs & E & _). eauto. }
    rewrite En. cbn [bind]. destruct (num_keys_split _ _ _ En) as (L & _ & _).
    destruct (Nat.eqb_spec (length (xkids x) - n) 2) as [E2 | E2].
    + unfold nth_res. destruct (nth_error (xkids x) n) eqn:E; [simpl; eauto |]. apply nth_error_None in E. lia.
    + destruct (Nat.ltb 2 (length (xkids x) - n)); eauto.
      destruct (mapM_total (nth_res (xkids x)) (draw n (length (xkids x)))) as (l' & El').
      * intros i I. apply (Permutation_in i (Permutation_sym (F n (length (xkids x)) L))) in I. apply in_seq in I.
        unfold nth_res. destruct (nth_error (xkids x) i) eqn:E; eauto. apply nth_error_None in E. lia.
      * rewrite El'. simpl. eauto.
  - destruct (mapM_total (fun c => let! cs := schema_child s (xtag c) in reorder draw d cs c) (xkids x)) as (l' & El').
    + intros c I. destruct (W c I) as (cs & E & Wc). rewrite E. cbn [bind]. auto.
    + rewrite El'. simpl. eauto.
Qed.

Theorem reorder_result : forall draw s d r n z e y, FairDraw (draw z) -> r_depth r = Some n -> r_seed r = Some z ->
  delta_nc s d = Ok e -> delta_nc_random draw s d r = Ok y -> Shuffled n s e y /\ SameNodes e y.
Proof.
  intros draw s d r n z e y F En Ez E H. unfold delta_nc_random in H. rewrite E, En, Ez in H. cbn [bind] in H.
  pose proof (reorder_spec _ _ _ _ _ F H) as S. split; auto. exact (Shuffled_nodes _ _ _ _ S []).
Qed.

(** ** The options *)
Lemma no_seed : forall draw s d n, delta_nc_random draw s d (rand_new (Some n) None) = delta_nc s d.
Proof. intros. unfold delta_nc_random, rand_new. cbn. destruct (delta_nc s d); reflexivity. Qed.

Lemma seed_after_setter : forall r ops v gen, let r' := rand_run r (ops ++ [SetSeed v gen]) in
  match r_depth r' with
  | None => r_seed r' = None
  | Some _ => r_seed r' = Some (match v with None => gen | Some z => z end)
  end.
Proof.
  intros r ops v gen r'. subst r'. unfold rand_run. rewrite fold_left_app. cbn [fold_left rand_step].
  destruct (r_depth (fold_left rand_step ops r)); cbn; auto. destruct v; reflexivity.
Qed.

(** ** The marker in a delta *)
Definition as_minimum (o : opts) : opts := Opts (o_create o) (o_replace o) (o_delete o) DMinimum (o_depth o).

Lemma foldM_ext : forall {A S} (f g : S -> A -> res S) l s, (forall a b, f a b = g a b) -> foldM f s l = foldM g s l.
Proof.
  intros A S f g l. induction l as [| a l IH]; intros s H; auto. cbn [foldM]. rewrite H. destruct (g s a); cbn [bind]; auto.
Qed.

Lemma sub_both_ext : forall o o' r1 r2 s st p, o_replace o = o_replace o' -> o_delete o = o_delete o' ->
  o_create o = o_create o' -> (forall cs a b, r1 cs a b = r2 cs a b) -> sub_both o r1 s st p = sub_both o' r2 s st p.
Proof.
  intros o o' r1 r2 s st ((u, a), b) E1 E2 E3 H. unfold sub_both. rewrite ?E1, ?E2, ?E3, ?H.
  destruct (schema_child s (xtag a)) as [cs |]; auto; cbn [bind]. rewrite (H cs a b). reflexivity.
Qed.

Lemma node_sub_minimum : forall f o s d a b, o_type o = DMinimumReplace -> node_sub f o s d a b = node_sub f (as_minimum o) s d a b.
Proof.
  induction f as [| f IH]; intros o s d a b T; auto. destruct o as [oc orp od ot dp]. cbn [o_type] in T. subst ot.
  unfold as_minimum in *. cbn [o_type o_create o_replace o_delete o_depth node_sub] in *.
  destruct (match orp with PRMerge => Ok false | PRReplace => leaf_lists_differ s (xkids a) (xkids b) end) as [df |]; auto. cbn [bind].
  destruct df; auto. destruct (group_kids s (xkids a) (xkids b)) as [g |]; auto. cbn [bind].
  destruct (index_kids s (xkids a)) as [l1 |]; auto. destruct (index_kids s (xkids b)) as [l2 |]; auto. cbn [bind].
  rewrite (foldM_ext (sub_only_self (Opts oc orp od DMinimumReplace dp) s) (sub_only_self (Opts oc orp od DMinimum dp) s)).
  2: { intros st (u, c). reflexivity. }
  destruct (foldM _ _ (in_1_not_2 g)) as [st1 |]; auto. cbn [bind].
  rewrite (foldM_ext (sub_only_other (Opts oc orp od DMinimumReplace dp) s) (sub_only_other (Opts oc orp od DMinimum dp) s)).
  2: { intros st (u, c). reflexivity. }
  destruct (foldM _ _ (in_2_not_1 g)) as [st2 |]; auto. cbn [bind].
  match goal with |- bind (foldM ?F st2 ?L) _ = bind (foldM ?G st2 ?L) _ =>
    rewrite (foldM_ext F G L st2) end.
  - reflexivity.
  - intros st p. apply sub_both_ext; auto. intros cs x y. apply (IH (Opts oc orp od DMinimumReplace dp)). reflexivity.
Qed.

Theorem sub_marked : forall o s b a y, o_type o = DMinimumReplace -> nc_sub o s b a = Ok y ->
  exists e, nc_sub (as_minimum o) s b a = Ok e /\ Marked "operation" "replace" (o_depth o + 1) e y.
Proof.
  intros o s b a y T H. unfold nc_sub in *. rewrite T in H. cbn [as_minimum o_type].
  apply bind_ok in H. destruct H as (e & He & H). injection H as H. subst y. exists e.
  rewrite node_sub_minimum in He by exact T. rewrite He. split; auto.
  destruct (loop_marked e (o_depth o + 1) "operation" "replace") as (y & Ey & M). rewrite mark_loop_depth in Ey. injection Ey as Ey.
  subst y. exact M.
Qed.
