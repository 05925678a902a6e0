(** Proofs about [find_by_tags]. *)
From Coq Require Import String Ascii List Bool Arith Lia Sorted.
From Verif Require Import Base BaseP XmlM CalcP PruneSpec ReorderM MarkM FindM FindSpec.
Import ListNotations.
Open Scope string_scope.
Open Scope list_scope.

Lemma loop_flat : forall tags nodes, tags_loop tags nodes = flat_map (fun n => tags_loop tags [n]) nodes.
Proof.
  induction tags as [| t r IH]; intro nodes; cbn [tags_loop].
  - induction nodes as [| n l IHn]; cbn [flat_map app]; congruence.
  - rewrite IH. induction nodes as [| n l IHn]; [reflexivity |]. cbn [flat_map]. rewrite flat_map_app, IHn. f_equal.
    rewrite app_nil_r. symmetry. apply IH.
Qed.

Lemma loop_app : forall tags l m, tags_loop tags (l ++ m) = tags_loop tags l ++ tags_loop tags m.
Proof. intros. rewrite loop_flat, flat_map_app, <- !loop_flat. reflexivity. Qed.
Lemma loop_nil : forall tags, tags_loop tags [] = [].
Proof. intro. rewrite loop_flat. reflexivity. Qed.

(** What a child gives. *)
Definition kid_gives (t : string) (r : list string) (e : found) : list found :=
  (if String.eqb (xtag (snd e)) t then tags_loop r [e] else []) ++ tags_loop (t :: r) [e].

Fixpoint kids_at (p : list nat) (i : nat) (l : list xml) : list found :=
  match l with [] => [] | c :: r => (p ++ [i], c) :: kids_at p (S i) r end.

Lemma below_kids : forall p t tx a ks,
  below p (Elem t tx a ks) = flat_map (fun e => e :: below (fst e) (snd e)) (kids_at p 0 ks).
Proof.
  intros p t tx a ks. cbn [below]. generalize 0. induction ks as [| c r IH]; intro i; [reflexivity |].
  cbn [kids_at flat_map fst snd]. rewrite <- IH. reflexivity.
Qed.

Lemma loop_step : forall p t tx a ks t' r,
  tags_loop (t' :: r) [(p, Elem t tx a ks)] = flat_map (kid_gives t' r) (kids_at p 0 ks).
Proof.
  intros p t tx a ks t' r. cbn [tags_loop flat_map]. rewrite app_nil_r. unfold findall_below at 1. cbn [fst snd].
  rewrite below_kids. generalize (kids_at p 0 ks). intro l. induction l as [| e l IH]; [apply loop_nil |].
  cbn [flat_map]. rewrite filter_app, loop_app, IH. f_equal. unfold kid_gives.
  change (e :: below (fst e) (snd e)) with ([e] ++ below (fst e) (snd e)). rewrite filter_app, loop_app.
  f_equal; [| cbn [tags_loop flat_map]; rewrite app_nil_r; reflexivity].
  cbn [filter]. destruct (String.eqb (xtag (snd e)) t'); [reflexivity | apply loop_nil].
Qed.

(** What is found is below. *)
Lemma kids_at_in : forall p ks i e, In e (kids_at p i ks) ->
  exists k, fst e = p ++ [i + k] /\ nth_error ks k = Some (snd e).
Proof.
  intros p ks. induction ks as [| c r IH]; intros i e I; [destruct I |]. destruct I as [<- | I].
  - exists 0. rewrite Nat.add_0_r. auto.
  - destruct (IH _ _ I) as (k & E & N). exists (S k). rewrite Nat.add_succ_r. auto.
Qed.

Lemma loop_below : forall x p tags e, In e (tags_loop tags [(p, x)]) ->
  exists q, fst e = p ++ q /\ NodeAt x q (snd e) /\ (tags <> [] -> q <> []).
Proof.
  intro x. induction x as [t tx a ks IH] using CalcP.xml_ind'. intros p tags e I. destruct tags as [| t' r].
  - destruct I as [<- | []]. exists []. rewrite app_nil_r. split; [reflexivity |]. split; [constructor | congruence].
  - rewrite loop_step in I. apply in_flat_map in I. destruct I as ((pk, c) & I & G).
    destruct (kids_at_in _ _ _ _ I) as (k & E & N). cbn [fst snd] in *. subst pk. cbn [Nat.add] in *.
    assert (H : forall l, In e (tags_loop l [(p ++ [k], c)]) ->
              exists q, fst e = p ++ q /\ NodeAt (Elem t tx a ks) q (snd e) /\ (t' :: r <> [] -> q <> [])).
    { intros l H. rewrite Forall_forall in IH. destruct (IH c (nth_error_In _ _ N) _ _ _ H) as (q & E & A & _).
      exists (k :: q). rewrite E, <- app_assoc. split; [reflexivity |]. split; [| congruence]. econstructor; eauto. }
    unfold kid_gives in G. apply in_app_or in G. destruct G as [G | G]; [| apply (H _ G)].
    cbn [snd] in G. destruct (String.eqb (xtag c) t'); [apply (H _ G) | destruct G].
Qed.

(** ** How often a node is found *)
Definition path_dec := list_eq_dec Nat.eq_dec.
Definition times (q : list nat) (l : list found) : nat := count_occ path_dec (map fst l) q.

Lemma times_app : forall q l m, times q (l ++ m) = times q l + times q m.
Proof. intros. unfold times. rewrite map_app. apply count_occ_app. Qed.

Lemma times_none : forall q l, (forall e, In e l -> fst e <> q) -> times q l = 0.
Proof.
  intros q l H. apply count_occ_not_In. intro I. apply in_map_iff in I. destruct I as (e & E & I). exact (H e I E).
Qed.

Lemma times_here : forall x p t r, times p (tags_loop (t :: r) [(p, x)]) = 0.
Proof.
  intros x p t r. apply times_none. intros e I E. destruct (loop_below _ _ _ _ I) as (q & F & _ & Q).
  rewrite E in F. apply Q; [congruence |]. apply (app_inv_head p). rewrite app_nil_r. auto.
Qed.

Lemma kid_gives_path : forall t r p c e, In e (kid_gives t r (p, c)) -> exists q, fst e = p ++ q.
Proof.
  intros t r p c e I. unfold kid_gives in I. apply in_app_or in I. cbn [snd] in I.
  destruct I as [I | I]; [destruct (String.eqb (xtag c) t); [| destruct I] |];
    destruct (loop_below _ _ _ _ I) as (q & E & _); eauto.
Qed.

Lemma kids_times : forall t r p q' ks i k, times (p ++ (i + k) :: q') (flat_map (kid_gives t r) (kids_at p i ks)) =
  match nth_error ks k with
  | Some c => times (p ++ (i + k) :: q') (kid_gives t r (p ++ [i + k], c))
  | None => 0
  end.
Proof.
  intros t r p q' ks. induction ks as [| c ks IH]; intros i k.
  - destruct k; reflexivity.
  - cbn [kids_at flat_map]. rewrite times_app. destruct k as [| k]; cbn [nth_error].
    + rewrite Nat.add_0_r. rewrite (times_none _ (flat_map _ _)); [lia |]. intros e I E. apply in_flat_map in I.
      destruct I as ((pk, d) & I & G). destruct (kids_at_in _ _ _ _ I) as (k & F & _). cbn [fst] in F. subst pk.
      destruct (kid_gives_path _ _ _ _ _ G) as (q & F). rewrite F, <- app_assoc in E. apply app_inv_head in E.
      cbn [app] in E. injection E as E _. lia.
    + rewrite Nat.add_succ_r, <- Nat.add_succ_l, IH. rewrite (times_none _ (kid_gives _ _ _)); [lia |]. intros e I E.
      destruct (kid_gives_path _ _ _ _ _ I) as (q & F). rewrite F, <- app_assoc in E. apply app_inv_head in E.
      cbn [app] in E. injection E as E _. lia.
Qed.

Lemma loop_times : forall x q w, Way x q w -> forall p tags, times (p ++ q) (tags_loop tags [(p, x)]) = ways tags w.
Proof.
  intros x q w H. induction H as [x | x i c q w N H IH]; intros p tags.
  - rewrite app_nil_r. destruct tags as [| t r]; [| rewrite times_here; reflexivity].
    unfold times. cbn [tags_loop map fst]. rewrite count_occ_cons_eq; reflexivity.
  - destruct tags as [| t r].
    + cbn [ways]. apply times_none. intros e [<- | []] E. cbn [fst] in E. symmetry in E. rewrite <- (app_nil_r p) in E at 2.
      apply app_inv_head in E. discriminate.
    + destruct x as [t0 tx a ks]. cbn [xkids] in N. rewrite loop_step.
      assert (K := kids_times t r p q ks 0 i). cbn [Nat.add] in K. rewrite K, N.
      unfold kid_gives. rewrite times_app. cbn [snd ways].
      replace (p ++ i :: q) with ((p ++ [i]) ++ q) by (rewrite <- app_assoc; reflexivity). rewrite IH. f_equal.
      rewrite String.eqb_sym. destruct (String.eqb t (xtag c)); [apply IH | reflexivity].
Qed.

Lemma found_times : forall x tags q w, Way x q w ->
  count_occ path_dec (map fst (find_by_tags x tags)) q = ways tags w.
Proof. intros x tags q w H. exact (loop_times x q w H [] tags). Qed.

Lemma ways_occurs : forall w l, 0 < ways l w <-> Occurs l w.
Proof.
  induction w as [| a w IH]; intro l; destruct l as [| t l]; cbn [ways].
  - split; [constructor | lia].
  - split; [lia | intro H; inversion H].
  - split; [lia | intro H; inversion H].
  - split.
    + destruct (String.eqb t a) eqn:E; intro H.
      * apply String.eqb_eq in E. subst a. destruct (ways l w) eqn:W; [apply oc_skip; apply IH; exact H |].
        apply oc_take. apply IH. lia.
      * apply oc_skip. apply IH. exact H.
    + intro H. inversion H as [| ? ? ? H1 | ? ? ? ? H1]; subst.
      * rewrite String.eqb_refl. apply IH in H1. lia.
      * apply IH in H1. lia.
Qed.

Lemma way_node : forall x q u, NodeAt x q u -> exists w, Way x q w.
Proof.
  intros x q u H. induction H as [x | x i c p n N H [w IH]]; [exists []; constructor |]. exists (xtag c :: w). econstructor; eauto.
Qed.
Lemma node_at_fun : forall x q u v, NodeAt x q u -> NodeAt x q v -> u = v.
Proof.
  intros x q u v H. revert v. induction H as [x | x i c p n N H IH]; intros v G; inversion G; subst; [reflexivity |].
  apply IH. congruence.
Qed.
Lemma way_fun : forall x q w v, Way x q w -> Way x q v -> w = v.
Proof.
  intros x q w v H. revert v. induction H as [x | x i c p w N H IH]; intros v G; inversion G as [| ? ? c' ? ? N' G']; subst; [reflexivity |].
  assert (c' = c) by congruence. subst c'. f_equal. auto.
Qed.

Lemma found_iff : forall x tags q u, In (q, u) (find_by_tags x tags) <-> NodeAt x q u /\ exists w, Way x q w /\ Occurs tags w.
Proof.
  intros x tags q u. split.
  - intro I. destruct (loop_below _ _ _ _ I) as (q' & E & A & _). cbn [fst snd app] in *. subst q'. split; [exact A |].
    destruct (way_node _ _ _ A) as [w W]. exists w. split; [exact W |]. apply ways_occurs. rewrite <- (found_times x tags q w W).
    apply count_occ_In. apply (in_map fst) in I. exact I.
  - intros (A & w & W & O). apply ways_occurs in O. rewrite <- (found_times x tags q w W) in O. apply count_occ_In in O.
    apply in_map_iff in O. destruct O as ((q', v) & E & I). cbn [fst] in E. subst q'.
    destruct (loop_below _ _ _ _ I) as (q' & E & B & _). cbn [fst snd app] in *. subst q'.
    rewrite (node_at_fun _ _ _ _ A B). exact I.
Qed.

(** ** Order *)
Lemma before_app : forall p a b, Before a b -> Before (p ++ a) (p ++ b).
Proof. induction p as [| i p IH]; intros a b H; cbn [app]; [exact H | apply be_down; auto]. Qed.

Lemma sorted_app : forall (l m : list (list nat)), StronglySorted Before l -> StronglySorted Before m ->
  (forall a b, In a l -> In b m -> Before a b) -> StronglySorted Before (l ++ m).
Proof.
  intros l m L M H. induction L as [| a l L IH F]; [exact M |]. cbn [app]. constructor.
  - apply IH. intros; apply H; [right |]; auto.
  - apply Forall_app. split; [exact F |]. apply Forall_forall. intros b I. apply H; [left; reflexivity | exact I].
Qed.

Lemma unnested_kid : forall x t i c, Unnested x t -> nth_error (xkids x) i = Some c -> Unnested c t.
Proof. intros x t i c U N p q u v A Q B. apply (U (i :: p) q u v); auto. econstructor; eauto. Qed.

Lemma not_below : forall x p t r, (forall q v, q <> [] -> NodeAt x q v -> xtag v <> t) -> tags_loop (t :: r) [(p, x)] = [].
Proof.
  intro x. induction x as [t0 tx a ks IH] using CalcP.xml_ind'. intros p t r H. rewrite loop_step.
  assert (G : forall e, In e (kids_at p 0 ks) -> kid_gives t r e = []).
  { intros (pk, c) I. destruct (kids_at_in _ _ _ _ I) as (k & E & N). cbn [fst snd Nat.add] in *. subst pk.
    unfold kid_gives. cbn [snd]. destruct (String.eqb (xtag c) t) eqn:T.
    - apply String.eqb_eq in T. exfalso. apply (H [k] c); [congruence | econstructor; [exact N | constructor] | exact T].
    - cbn [app]. rewrite Forall_forall in IH. apply (IH c (nth_error_In _ _ N)). intros q v Q A. apply (H (k :: q)); [congruence |].
      econstructor; eauto. }
  revert G. generalize (kids_at p 0 ks). intro l. induction l as [| e l IHl]; intro G; [reflexivity |]. cbn [flat_map].
  rewrite (G e (or_introl eq_refl)). apply IHl. intros; apply G; right; auto.
Qed.

Lemma loop_sorted : forall x p tags, (forall t, In t (removelast tags) -> Unnested x t) ->
  StronglySorted Before (map fst (tags_loop tags [(p, x)])).
Proof.
  intro x. induction x as [t0 tx a ks IH] using CalcP.xml_ind'. intros p tags U. destruct tags as [| t r].
  { cbn. repeat constructor. }
  rewrite loop_step.
  assert (K : forall k c, nth_error ks k = Some c -> StronglySorted Before (map fst (kid_gives t r (p ++ [k], c)))).
  { intros k c N. rewrite Forall_forall in IH. assert (IHc := IH c (nth_error_In _ _ N)).
    assert (S1 : StronglySorted Before (map fst (tags_loop (t :: r) [(p ++ [k], c)]))).
    { apply IHc. intros s I. apply (unnested_kid (Elem t0 tx a ks) s k c); auto. }
    unfold kid_gives. cbn [snd]. destruct (String.eqb (xtag c) t) eqn:T; [| exact S1]. apply String.eqb_eq in T.
    destruct r as [| t1 r].
    - cbn [tags_loop app map]. constructor; [exact S1 |]. apply Forall_forall. intros b I. apply in_map_iff in I.
      destruct I as (e & <- & I). destruct (loop_below c (p ++ [k]) [t] e I) as (q & -> & _ & Q). cbn [fst].
      destruct q as [| j q]; [exfalso; apply Q; [congruence | reflexivity] |].
      rewrite <- (app_nil_r (p ++ [k])) at 1. apply before_app. constructor.
    - assert (Z : tags_loop (t :: t1 :: r) [(p ++ [k], c)] = []).
      { apply not_below. intros q v Q A. apply (U t (or_introl eq_refl) [k] q c v); auto. econstructor; [exact N | constructor]. }
      match goal with |- context [?a ++ ?b] => replace b with (@nil found) by (symmetry; exact Z) end.
      rewrite app_nil_r. apply IHc. intros s I. apply (unnested_kid (Elem t0 tx a ks) s k c); auto. apply U. right. exact I. }
  assert (G : forall l i, (forall k c, nth_error l k = Some c -> nth_error ks (i + k) = Some c) ->
            StronglySorted Before (map fst (flat_map (kid_gives t r) (kids_at p i l)))).
  { induction l as [| c l IHl]; intros i E; cbn [kids_at flat_map map]; [constructor |]. rewrite map_app. apply sorted_app.
    - apply K. rewrite <- (Nat.add_0_r i). apply (E 0). reflexivity.
    - apply IHl. intros k d N. rewrite Nat.add_succ_l, <- Nat.add_succ_r. apply E. exact N.
    - intros b d I J. apply in_map_iff in I. destruct I as (e & <- & I). apply in_map_iff in J. destruct J as (f & <- & J).
      destruct (kid_gives_path _ _ _ _ _ I) as (q & ->). apply in_flat_map in J. destruct J as ((pk, d) & J & J').
      destruct (kids_at_in _ _ _ _ J) as (k & F & _). cbn [fst] in F. subst pk. destruct (kid_gives_path _ _ _ _ _ J') as (q' & ->).
      rewrite <- !app_assoc. apply before_app. cbn [app]. apply be_side. lia. }
  apply (G ks 0). auto.
Qed.

Lemma before_irrefl : forall p, ~ Before p p.
Proof. induction p as [| i p IH]; intro H; inversion H; subst; [lia | auto]. Qed.

Lemma found_sorted : forall x tags, (forall t, In t (removelast tags) -> Unnested x t) ->
  StronglySorted Before (map fst (find_by_tags x tags)) /\ NoDup (map fst (find_by_tags x tags)).
Proof.
  intros x tags U. assert (H := loop_sorted x [] tags U). split; [exact H |]. unfold find_by_tags.
  induction H as [| q l L IH F]; constructor; [| exact IH]. intro I. rewrite Forall_forall in F. exact (before_irrefl _ (F _ I)).
Qed.

(** ** Nodes found twice, and attributes *)
Definition ex_leaf := Elem "name" (Some "x") [] [].
Definition ex_nest := Elem "config" None [] [Elem "group" None [] [ex_leaf; Elem "group" None [] [ex_leaf]]].
Definition ex_flat := Elem "config" None [] [Elem "group" None [] [ex_leaf; ex_leaf]; Elem "group" None [] [ex_leaf]].

Lemma found_twice : exists x tags, ~ NoDup (map fst (find_by_tags x tags)).
Proof.
  exists ex_nest, ["group"; "name"]. vm_compute. intro H. apply (NoDup_cons_iff _ _) in H. destruct H as [_ H].
  apply (NoDup_cons_iff _ _) in H. destruct H as [H _]. apply H. left. reflexivity.
Qed.

Lemma no_attribute : forall x tags n v, add_attribute_by_tags x tags n v = Err TypeError.
Proof. reflexivity. Qed.

Lemma flat_unnested : Unnested ex_flat "group".
Proof.
  intros p q u v A Q B T E. unfold ex_flat in A.
  assert (L : forall q' v', NodeAt ex_leaf q' v' -> v' = ex_leaf).
  { intros q' v' H. inversion H as [| ? i c ? ? N]; subst; [reflexivity |]. destruct i; discriminate N. }
  inversion A as [| ? i c p' ? N A']; subst; [cbn in T; discriminate T |].
  assert (C : u = c \/ u = ex_leaf).
  { cbn in N. destruct i as [| [| [| i]]]; cbn in N; try discriminate N; injection N as <-.
    - inversion A' as [| ? j d ? ? N' A'']; subst; [left; reflexivity |]. right.
      destruct j as [| [| [| j]]]; cbn in N'; try discriminate N'; injection N' as <-; eauto.
    - inversion A' as [| ? j d ? ? N' A'']; subst; [left; reflexivity |]. right.
      destruct j as [| [| j]]; cbn in N'; try discriminate N'; injection N' as <-; eauto. }
  destruct C as [-> | ->]; [| discriminate T].
  inversion B as [| ? j d q' ? N' B']; subst; [congruence |].
  assert (v = ex_leaf).
  { cbn in N. destruct i as [| [| [| i]]]; cbn in N; try discriminate N; injection N as <-;
      destruct j as [| [| [| j]]]; cbn in N'; try discriminate N'; injection N' as <-; eauto. }
  subst v. discriminate E.
Qed.
