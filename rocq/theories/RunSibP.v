(** Splitting sibling sections. *)
From Coq Require Import String Ascii List Bool Arith ZArith Lia Permutation.
From Verif Require Import Base BaseP RunningM RunSpec RunDiffP.
Import ListNotations.
Open Scope string_scope.
Open Scope list_scope.
Open Scope nat_scope.

Definition sib_loop (sib : string -> bool) (rec : list item -> res (list item)) : nat -> list item -> res (list item) :=
  fix go (n : nat) (l : list item) {struct n} : res (list item) :=
    match n, l with
    | S m, x :: r =>
        let '(x', sibs) := split_siblings sib x in
        let! x'' := match ival x' with
                    | None => Ok x'
                    | Some c => let! c' := rec c in Ok (It (ikey x') (Some c') (iinfo x'))
                    end in
        let! r' := go m (sibs ++ r) in
        Ok (x'' :: r')
    | _, _ => Ok l
    end.

Lemma siblings_eq : forall f sib l, siblings (S f) sib l = sib_loop sib (siblings f sib) (length l) l.
Proof. reflexivity. Qed.

Lemma depth_app : forall a b, depth (a ++ b) = Nat.max (depth a) (depth b).
Proof. induction a as [| x r IH]; intro b; simpl; auto. unfold depth in *. cbn [app fold_right]. rewrite IH. lia. Qed.
Lemma depth_filter : forall p l, depth (filter p l) <= depth l.
Proof. induction l as [| x r IH]; auto. cbn [filter]. unfold depth in *. cbn [fold_right]. destruct (p x); cbn [fold_right]; lia. Qed.
Lemma depth_item_some : forall k l i, depth_item (It k (Some l) i) = S (depth l).
Proof. reflexivity. Qed.

Lemma split_siblings_depth : forall sib x x' s, split_siblings sib x = (x', s) -> depth_item x' <= depth_item x /\ depth s <= depth_item x.
Proof.
  intros sib [k v i] x' s H. unfold split_siblings in H. cbn [ival ikey iinfo] in H. destruct v as [l |].
  2: { injection H as E1 E2. subst. split; auto. simpl. lia. }
  destruct (sib k). 2: { injection H as E1 E2. subst. split; auto. simpl. lia. }
  injection H as E1 E2. subst x' s. rewrite depth_item_some. split; [| pose proof (depth_filter (fun c => sib (ikey c)) l); lia].
  pose proof (depth_filter (fun c => negb (sib (ikey c))) l) as D. destruct (filter (fun c => negb (sib (ikey c))) l) eqn:E; [simpl; lia |].
  rewrite depth_item_some. lia.
Qed.

Lemma sib_loop_total : forall sib rec d, (forall l, depth l < d -> exists l', rec l = Ok l') -> forall n l, depth l <= d -> exists l', sib_loop sib rec n l = Ok l'.
Proof.
  intros sib rec d H. induction n as [| n IH]; intros l D; [simpl; eauto |]. destruct l as [| x r]; [simpl; eauto |].
  cbn [sib_loop]. destruct (split_siblings sib x) as [x' s] eqn:E. destruct (split_siblings_depth sib x x' s E) as [D1 D2].
  unfold depth in D. cbn [fold_right] in D. fold (depth r) in D. fold (sib_loop sib rec).
  destruct (IH (s ++ r)) as (r' & R). { rewrite depth_app. lia. } rewrite R.
  destruct x' as [k v i]. cbn [ival ikey iinfo]. destruct v as [c |]; [| cbn [bind]; eauto].
  rewrite depth_item_some in D1. destruct (H c) as (c' & C); [lia |]. rewrite C. cbn [bind]. eauto.
Qed.

Lemma siblings_total : forall f sib l, depth l < f -> exists l', siblings f sib l = Ok l'.
Proof.
  induction f as [| f IH]; intros sib l D; [lia |]. rewrite siblings_eq. apply (sib_loop_total sib (siblings f sib) f); [| lia]. intros l' D'. apply IH. auto.
Qed.

Lemma handle_siblings_total : forall sib l, exists l', handle_siblings sib l = Ok l'.
Proof. intros. apply siblings_total. lia. Qed.

(** Every command is kept. *)
Notation all_lines := (flat_map lines_of).

Lemma all_lines_filter : forall (p : item -> bool) l, Permutation (all_lines l) (all_lines (filter (fun c => negb (p c)) l) ++ all_lines (filter p l)).
Proof.
  induction l as [| x r IH]; simpl; auto. destruct (p x); simpl.
  - rewrite IH. rewrite !app_assoc. apply Permutation_app_tail. apply Permutation_app_comm.
  - rewrite <- app_assoc. apply Permutation_app_head. auto.
Qed.

Lemma split_siblings_lines : forall sib x x' s, split_siblings sib x = (x', s) -> Permutation (lines_of x) (lines_of x' ++ all_lines s).
Proof.
  intros sib [k v i] x' s H. unfold split_siblings in H. cbn [ival ikey iinfo] in H. destruct v as [l |].
  2: { injection H as E1 E2. subst. simpl. auto. }
  destruct (sib k). 2: { injection H as E1 E2. subst. simpl. rewrite app_nil_r. auto. }
  injection H as E1 E2. subst x' s. cbn [lines_of app]. apply perm_skip.
  rewrite (all_lines_filter (fun c => sib (ikey c)) l). apply Permutation_app_tail. destruct (filter (fun c => negb (sib (ikey c))) l); auto.
Qed.

Lemma sib_loop_lines : forall sib rec, (forall l l', rec l = Ok l' -> Permutation (all_lines l) (all_lines l')) ->
  forall n l l', sib_loop sib rec n l = Ok l' -> Permutation (all_lines l) (all_lines l').
Proof.
  intros sib rec H. induction n as [| n IH]; intros l l' E; [simpl in E; injection E as E; subst; auto |].
  destruct l as [| x r]; [simpl in E; injection E as E; subst; auto |]. cbn [sib_loop] in E. fold (sib_loop sib rec) in E.
  destruct (split_siblings sib x) as [x' s] eqn:S. apply split_siblings_lines in S.
  apply bind_ok in E. destruct E as (x'' & E1 & E). apply bind_ok in E. destruct E as (r' & E2 & E). injection E as E. subst l'.
  apply IH in E2. cbn [flat_map]. rewrite flat_map_app in E2.
  assert (X : Permutation (lines_of x') (lines_of x'')).
  { destruct x' as [k v i]. cbn [ival ikey iinfo] in E1. destruct v as [c |]; [| injection E1 as E1; subst; auto].
    apply bind_ok in E1. destruct E1 as (c' & C & E1). injection E1 as E1. subst x''. cbn [lines_of]. apply perm_skip. apply H. auto. }
  rewrite S, X. rewrite <- E2. rewrite !app_assoc. auto.
Qed.

Lemma siblings_lines : forall f sib l l', siblings f sib l = Ok l' -> Permutation (all_lines l) (all_lines l').
Proof.
  induction f as [| f IH]; intros sib l l' E; [discriminate |]. rewrite siblings_eq in E. apply (sib_loop_lines sib (siblings f sib)) in E; auto. intros. apply IH in H. auto.
Qed.

Lemma handle_siblings_lines : forall sib l l', handle_siblings sib l = Ok l' -> Permutation (all_lines l) (all_lines l').
Proof. intros sib l l'. apply siblings_lines. Qed.

(** Nothing happens where no such section contains another one. *)
Lemma filter_all : forall (A : Type) (p : A -> bool) l, forallb p l = true -> filter p l = l.
Proof. induction l as [| x r IH]; simpl; auto. intro H. apply andb_true_iff in H. destruct H as [H1 H2]. rewrite H1. f_equal. auto. Qed.
Lemma filter_none : forall (A : Type) (p : A -> bool) l, existsb p l = false -> filter p l = [].
Proof. induction l as [| x r IH]; simpl; auto. intro H. apply orb_false_iff in H. destruct H as [H1 H2]. rewrite H1. auto. Qed.

Lemma split_apart : forall sib x, apart sib x = true -> split_siblings sib x = (x, []).
Proof.
  intros sib [k v i] H. unfold split_siblings. cbn [ival ikey iinfo]. destruct v as [l |]; auto. destruct (sib k) eqn:S; auto.
  cbn [apart] in H. rewrite S in H. cbn [negb orb] in H. apply andb_true_iff in H. destruct H as [H _]. apply andb_true_iff in H. destruct H as [H1 H2].
  apply negb_true_iff in H1. rewrite (filter_none item (fun c => sib (ikey c)) l H1). rewrite filter_all. 2: { apply forallb_forall. intros c Hc. destruct (sib (ikey c)) eqn:C; auto.
    assert (existsb (fun c => sib (ikey c)) l = true) by (apply existsb_exists; eauto). congruence. }
  destruct l; [discriminate | auto].
Qed.

Lemma siblings_apart : forall f sib l, depth l < f -> forallb (apart sib) l = true -> siblings f sib l = Ok l.
Proof.
  induction f as [| f IH]; intros sib l D A; [lia |]. rewrite siblings_eq.
  assert (G : forall n l, depth l <= f -> forallb (apart sib) l = true -> sib_loop sib (siblings f sib) n l = Ok l).
  { induction n as [| n IHn]; intros m Dm Am; auto. destruct m as [| x r]; auto. cbn [sib_loop]. fold (sib_loop sib (siblings f sib)).
    cbn [forallb] in Am. apply andb_true_iff in Am. destruct Am as [Ax Ar]. rewrite split_apart by auto. unfold depth in Dm. cbn [fold_right] in Dm. fold (depth r) in Dm.
    cbn [app]. rewrite IHn; auto; [| lia]. destruct x as [k v i]. cbn [ival ikey iinfo]. destruct v as [c |]; [| reflexivity].
    cbn [apart] in Ax. apply andb_true_iff in Ax. destruct Ax as [_ Ac]. rewrite depth_item_some in Dm. rewrite IH; auto. lia. }
  apply G; auto. lia.
Qed.

(** One section with others inside, in a list of its own kind: they follow it. *)
Lemma siblings_one : forall sib k stay sibs i,
  sib k = true -> stay <> [] -> forallb (apart sib) stay = true ->
  forall mixed, filter (fun c => negb (sib (ikey c))) mixed = stay -> filter (fun c => sib (ikey c)) mixed = sibs ->
  handle_siblings sib [It k (Some mixed) i] = Ok (It k (Some stay) i :: sibs).
Proof.
  intros sib k stay sibs i K N A mixed M1 M2. unfold handle_siblings. rewrite siblings_eq. cbn [length sib_loop]. unfold split_siblings. cbn [ival ikey iinfo].
  rewrite K, M1, M2. destruct stay as [| y ys]; [congruence |]. cbn [ival ikey iinfo]. rewrite siblings_apart; auto.
  - cbn [bind]. rewrite app_nil_r. reflexivity.
  - pose proof (depth_filter (fun c => negb (sib (ikey c))) mixed) as D. rewrite M1 in D. unfold depth at 1. unfold depth in *. cbn [fold_right depth_item] in *. lia.
Qed.
