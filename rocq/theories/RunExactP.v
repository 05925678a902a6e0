(** Texts without difference, also where sibling sections are split. *)
From Coq Require Import String Ascii List Bool Arith ZArith Lia Permutation.
From Verif Require Import Base BaseP RunningM RunSpec RunDiffP RunCliP RunTextP RunSibP RunOrderP RunAllP.
Import ListNotations.
Open Scope string_scope.
Open Scope list_scope.
Open Scope nat_scope.

Lemma shuffled_lists : forall t1 t2 l1 l2 s, parse (map replace_line t1) = Ok l1 -> parse (map replace_line t2) = Ok l2 ->
  Shuffled match_orderless 0 l1 l2 -> handle_siblings is_sibling_command l2 = Ok s -> running_lists t1 t2 = Ok (s, s).
Proof.
  intros t1 t2 l1 l2 s P1 P2 S H. unfold running_lists, running2list. rewrite P1, P2. cbn [bind].
  rewrite (orderless_shuffled _ _ _ S). cbn [bind]. rewrite H. reflexivity.
Qed.

Lemma shuffled_exact : forall t1 t2 l1 l2 s, parse (map replace_line t1) = Ok l1 -> parse (map replace_line t2) = Ok l2 ->
  Shuffled match_orderless 0 l1 l2 -> handle_siblings is_sibling_command l2 = Ok s -> (Silent t1 t2 <-> ~ surrounded s).
Proof.
  intros t1 t2 l1 l2 s P1 P2 S H. assert (R := shuffled_lists t1 t2 l1 l2 s P1 P2 S H). split.
  - intros (D & _). unfold get_diff in D. rewrite R in D. cbn [bind] in D. apply self_diff. exact D.
  - apply silent_same. exact R.
Qed.

Lemma self_exact : forall t l s, parse (map replace_line t) = Ok l -> distinct l -> handle_siblings is_sibling_command l = Ok s ->
  (Silent t t <-> ~ surrounded s).
Proof. intros t l s P D H. apply (shuffled_exact t t l l s); auto. apply Shuffled_refl. auto. Qed.

(** ** The lines at the top after splitting *)
Lemma split_key : forall sib x x' s, split_siblings sib x = (x', s) -> ikey x' = ikey x /\ filter (fun k => negb (sib k)) (keys s) = [].
Proof.
  intros sib [k v i] x' s H. unfold split_siblings in H. cbn [ival ikey iinfo] in H.
  destruct v as [l |]; [destruct (sib k) |]; injection H as <- <-; cbn [ikey]; split; auto.
  unfold keys. induction l as [| y r IH]; cbn [filter map]; auto. destruct (sib (ikey y)) eqn:E; cbn [map filter]; auto. rewrite E. cbn [negb]. exact IH.
Qed.

Lemma keys_app : forall a b, keys (a ++ b) = keys a ++ keys b.
Proof. intros. unfold keys. apply map_app. Qed.

Lemma sib_loop_keys : forall sib rec n l l', sib_loop sib rec n l = Ok l' ->
  filter (fun k => negb (sib k)) (keys l') = filter (fun k => negb (sib k)) (keys l).
Proof.
  intros sib rec. induction n as [| n IH]; intros l l' E; [simpl in E; injection E as E; subst; auto |].
  destruct l as [| x r]; [simpl in E; injection E as E; subst; auto |]. cbn [sib_loop] in E. fold (sib_loop sib rec) in E.
  destruct (split_siblings sib x) as [x' s] eqn:S. apply split_key in S. destruct S as [K N].
  apply bind_ok in E. destruct E as (x'' & E1 & E). apply bind_ok in E. destruct E as (r' & E2 & E). injection E as E. subst l'.
  apply IH in E2. rewrite keys_app, filter_app, N in E2. cbn [app] in E2.
  assert (X : ikey x'' = ikey x).
  { destruct x' as [k v i]. cbn [ival ikey iinfo] in *. destruct v as [c |]; [| injection E1 as E1; subst; auto].
    apply bind_ok in E1. destruct E1 as (c' & C & E1). injection E1 as E1. subst x''. exact K. }
  unfold keys in *. cbn [map filter]. rewrite X, E2. reflexivity.
Qed.

Lemma lines_keys : forall (p : string -> bool) l, exists r, Permutation (filter p (flat_map lines_of l)) (filter p (keys l) ++ r).
Proof.
  intros p l. induction l as [| [k v i] t (r & IH)]; [exists []; constructor |]. cbn [flat_map lines_of keys map ikey].
  exists (filter p (match v with None => [] | Some l => flat_map lines_of l end) ++ r). rewrite filter_app. cbn [filter]. fold (keys t).
  destruct (p k); cbn [app]; [apply perm_skip |]; rewrite IH; rewrite !app_assoc; apply Permutation_app_tail; apply Permutation_app_comm.
Qed.

Lemma filter_perm : forall {A} (p : A -> bool) l l', Permutation l l' -> Permutation (filter p l) (filter p l').
Proof.
  intros A p l l' H. induction H; cbn; auto.
  - destruct (p x); auto.
  - destruct (p x), (p y); auto. constructor.
  - eapply Permutation_trans; eauto.
Qed.

Lemma NoDup_parts : forall {A} (p : A -> bool) l, NoDup (filter p l) -> NoDup (filter (fun x => negb (p x)) l) -> NoDup l.
Proof.
  intros A p l. induction l as [| x r IH]; cbn; intros H1 H2; [constructor |]. destruct (p x) eqn:E; cbn in *.
  - inversion H1; subst. constructor; auto. intro I. apply H3. apply filter_In. auto.
  - inversion H2; subst. constructor; auto. intro I. apply H3. apply filter_In. rewrite E. auto.
Qed.

Lemma NoDup_left : forall {A} (a b : list A), NoDup (a ++ b) -> NoDup a.
Proof.
  intros A a b. induction a as [| x a IH]; cbn; intro H; [constructor |]. inversion H; subst. constructor; auto.
  intro I. apply H2. apply in_or_app. auto.
Qed.

Lemma split_distinct : forall sib l s, NoDup (keys l) -> NoDup (filter sib (flat_map lines_of l)) -> handle_siblings sib l = Ok s -> NoDup (keys s).
Proof.
  intros sib l s D N H. apply (NoDup_parts sib).
  - destruct (lines_keys sib s) as (r & P). assert (X : NoDup (filter sib (flat_map lines_of s))).
    { eapply Permutation_NoDup; [| exact N]. apply filter_perm. apply (handle_siblings_lines sib). exact H. }
    apply (Permutation_NoDup P) in X. apply NoDup_left in X. exact X.
  - unfold handle_siblings in H. rewrite siblings_eq in H. apply sib_loop_keys in H. rewrite H. apply NoDup_filter. exact D.
Qed.

Lemma shuffled_single : forall t1 t2 l1 l2, parse (map replace_line t1) = Ok l1 -> parse (map replace_line t2) = Ok l2 ->
  Shuffled match_orderless 0 l1 l2 -> NoDup (filter is_sibling_command (flat_map lines_of l2)) -> Silent t1 t2.
Proof.
  intros t1 t2 l1 l2 P1 P2 S N. destruct (handle_siblings_total is_sibling_command l2) as (s & H).
  apply (shuffled_exact t1 t2 l1 l2 s P1 P2 S H). apply NoDup_not_surrounded. apply (split_distinct is_sibling_command l2); auto. inversion S; auto.
Qed.

Lemma self_single : forall t l, parse (map replace_line t) = Ok l -> distinct l -> NoDup (filter is_sibling_command (flat_map lines_of l)) -> Silent t t.
Proof. intros t l P D N. apply (shuffled_single t t l l); auto. apply Shuffled_refl. auto. Qed.
