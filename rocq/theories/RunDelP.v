(** Deleting by index leaves what the model says. *)
From Coq Require Import String Ascii List Bool Arith Lia Permutation Sorted.
From Verif Require Import Base BaseP RunningM RunSpec RunCliP RunDelM.
Import ListNotations.
Open Scope string_scope.
Open Scope list_scope.
Open Scope nat_scope.

(** The elements at the places that [f] accepts. *)
Fixpoint keep {A} (f : nat -> bool) (n : nat) (l : list A) : list A :=
  match l with
  | [] => []
  | x :: r => if f n then x :: keep f (S n) r else keep f (S n) r
  end.

Lemma mem_nat : forall i l, mem Nat.eqb i l = true <-> In i l.
Proof.
  intros i l. induction l as [| j r IH]; cbn; [split; [discriminate | intros []] |]. rewrite orb_true_iff, IH, Nat.eqb_eq. split; intros [H | H]; auto.
Qed.

Lemma keep_ext : forall A f g (l : list A) n, (forall i, n <= i < n + length l -> f i = g i) -> keep f n l = keep g n l.
Proof.
  induction l as [| x r IH]; intros n H; auto. cbn [keep]. rewrite (H n) by (cbn; lia). rewrite (IH (S n)); auto. intros i L. apply H. cbn. lia.
Qed.
Lemma keep_all : forall A f (l : list A) n, (forall i, n <= i < n + length l -> f i = true) -> keep f n l = l.
Proof. induction l as [| x r IH]; intros n H; auto. cbn [keep]. rewrite (H n) by (cbn; lia). rewrite (IH (S n)); auto. intros i L. apply H. cbn. lia. Qed.
Lemma keep_app : forall A f (l r : list A) n, keep f n (l ++ r) = keep f n l ++ keep f (n + length l) r.
Proof.
  induction l as [| x l IH]; intros r n; cbn [app keep length]; [rewrite Nat.add_0_r; auto |]. rewrite IH. replace (n + S (length l)) with (S n + length l) by lia. destruct (f n); auto.
Qed.

Lemma del_at_app : forall A (a : list A) x b, del_at (length a) (a ++ x :: b) = Ok (a ++ b).
Proof. induction a as [| y a IH]; intros x b; auto. cbn [length app del_at]. rewrite IH. reflexivity. Qed.

Definition desc (l : list nat) : Prop := StronglySorted (fun a b => b < a) l.

Lemma del_all_keep : forall A idxs (l : list A), desc idxs -> Forall (fun i => i < length l) idxs ->
  del_all idxs l = Ok (keep (fun i => negb (mem Nat.eqb i idxs)) 0 l).
Proof.
  intros A. induction idxs as [| i r IH]; intros l D F; unfold del_all.
  - cbn. rewrite keep_all; auto.
  - inversion F as [| ? ? Fi Fr]; subst. inversion D as [| ? ? D1 D2]; subst.
    assert (X : exists a x b, l = a ++ x :: b /\ length a = i).
    { destruct (nth_error l i) as [x |] eqn:E; [| apply nth_error_None in E; lia]. destruct (nth_error_split l i E) as (a & b & E1 & E2). exists a, x, b. auto. }
    destruct X as (a & x & b & E & L). subst l i. cbn [foldM]. rewrite del_at_app. cbn [bind]. fold (@del_all A r (a ++ b)). rewrite IH; auto.
    + f_equal. rewrite !keep_app. cbn [keep Nat.add]. f_equal.
      * apply keep_ext. intros i Hi. f_equal. cbn [mem existsb]. destruct (Nat.eqb_spec i (length a)); [lia |]. reflexivity.
      * assert (M : mem Nat.eqb (length a) (length a :: r) = true) by (apply mem_nat; left; auto). rewrite M. cbn [negb].
        rewrite !keep_all; auto; intros i Hi; apply negb_true_iff; apply not_true_iff_false; rewrite mem_nat; rewrite Forall_forall in D2.
        -- intros [Q | Q]; [lia |]. apply D2 in Q. lia.
        -- intro Q. apply D2 in Q. lia.
    + rewrite Forall_forall in *. intros j J. specialize (D2 j J). rewrite app_length. lia.
Qed.

(** ** Sorting *)
Lemma insert_perm : forall i l, Permutation (i :: l) (insert_desc i l).
Proof.
  intros i l. induction l as [| j r IH]; cbn [insert_desc]; auto. destruct (j <? i); auto. eapply perm_trans; [apply perm_swap |]. apply perm_skip. exact IH.
Qed.
Lemma sort_perm : forall l, Permutation l (sort_desc l).
Proof. induction l as [| i r IH]; cbn [sort_desc]; auto. eapply perm_trans; [apply perm_skip; exact IH | apply insert_perm]. Qed.
Lemma insert_sorted : forall i l, desc l -> ~ In i l -> desc (insert_desc i l).
Proof.
  intros i l D. induction D as [| j r D IH F]; intro N; cbn [insert_desc]; [repeat constructor |]. destruct (Nat.ltb_spec j i) as [L | L].
  - constructor; [constructor; auto |]. constructor; auto. rewrite Forall_forall in *. intros k K. specialize (F k K). lia.
  - constructor; [apply IH; intro Q; apply N; right; exact Q |]. rewrite Forall_forall in *. intros k K. apply (Permutation_in _ (Permutation_sym (insert_perm i r))) in K.
    destruct K as [K | K]; auto. subst k. assert (i <> j) by (intro; apply N; left; auto). lia.
Qed.
Lemma sort_sorted : forall l, NoDup l -> desc (sort_desc l).
Proof.
  induction l as [| i r IH]; intro N; cbn [sort_desc]; [constructor |]. inversion N; subst. apply insert_sorted; auto. intro Q. apply (Permutation_in _ (Permutation_sym (sort_perm r))) in Q. auto.
Qed.

Lemma del_sorted : forall A idxs (l : list A), NoDup idxs -> (forall i, In i idxs -> i < length l) ->
  del_all (sort_desc idxs) l = Ok (keep (fun i => negb (mem Nat.eqb i idxs)) 0 l).
Proof.
  intros A idxs l N B. rewrite del_all_keep.
  - f_equal. apply keep_ext. intros i _. f_equal. apply Bool.eq_iff_eq_true. rewrite !mem_nat. split; apply Permutation_in; [apply Permutation_sym |]; apply sort_perm.
  - apply sort_sorted. exact N.
  - apply Forall_forall. intros i I. apply B. apply (Permutation_in _ (Permutation_sym (sort_perm idxs))). exact I.
Qed.

(** ** Duplicates *)
Lemma dup_indexes_bounds : forall l n seen i, In i (dup_indexes n seen l) -> n <= i < n + length l.
Proof.
  induction l as [| c r IH]; intros n seen i H; [destruct H |]. cbn [dup_indexes length] in *. destruct (mem (list_eqb String.eqb) c seen).
  - destruct H as [H | H]; [lia |]. apply IH in H. lia.
  - apply IH in H. lia.
Qed.
Lemma dup_indexes_sorted : forall l n seen, StronglySorted lt (dup_indexes n seen l).
Proof.
  induction l as [| c r IH]; intros n seen; [constructor |]. cbn [dup_indexes]. destruct (mem (list_eqb String.eqb) c seen); auto. constructor; auto.
  apply Forall_forall. intros i H. apply dup_indexes_bounds in H. lia.
Qed.
Lemma rev_sorted : forall l, StronglySorted lt l -> desc (rev l).
Proof.
  intros l H. induction H as [| i r H IH F]; [constructor |]. cbn [rev]. assert (G : Forall (fun j => i < j) (rev r)) by (apply Forall_forall; intros j J; apply in_rev in J; rewrite Forall_forall in F; auto).
  revert IH G. generalize (rev r). intros m. induction m as [| a m IHm]; intros D G; cbn [app]; [repeat constructor |]. inversion D; subst. inversion G; subst.
  constructor; [apply IHm; auto |]. apply Forall_app. split; auto.
Qed.
Lemma dup_keep : forall l n seen, keep (fun i => negb (mem Nat.eqb i (dup_indexes n seen l))) n l = dedup seen l.
Proof.
  induction l as [| c r IH]; intros n seen; auto. cbn [keep dup_indexes dedup]. destruct (mem (list_eqb String.eqb) c seen) eqn:M.
  - assert (X : mem Nat.eqb n (n :: dup_indexes (S n) seen r) = true) by (apply mem_nat; left; auto). rewrite X. cbn [negb]. rewrite <- (IH (S n)). apply keep_ext.
    intros i L. f_equal. cbn [mem existsb]. destruct (Nat.eqb_spec i n); [lia | reflexivity].
  - assert (X : mem Nat.eqb n (dup_indexes (S n) (c :: seen) r) = false). { apply not_true_iff_false. rewrite mem_nat. intro Q. apply dup_indexes_bounds in Q. lia. }
    rewrite X. cbn [negb]. rewrite (IH (S n)). reflexivity.
Qed.
Lemma remove_duplicates_eq : forall l, remove_duplicates_idx l = Ok (remove_duplicates l).
Proof.
  intro l. unfold remove_duplicates_idx, remove_duplicates. rewrite del_all_keep.
  - f_equal. rewrite <- (dup_keep l 0 []). apply keep_ext. intros i _. f_equal. apply Bool.eq_iff_eq_true. rewrite !mem_nat. symmetry. apply in_rev.
  - apply rev_sorted, dup_indexes_sorted.
  - apply Forall_forall. intros i H. apply in_rev in H. apply dup_indexes_bounds in H. lia.
Qed.

(** ** Pairs *)
Lemma set_add_In : forall s i j, In j (set_add s i) <-> j = i \/ In j s.
Proof.
  intros s i j. unfold set_add. destruct (mem Nat.eqb i s) eqn:M.
  - apply mem_nat in M. split; auto. intros [H | H]; subst; auto.
  - cbn. split; intros [H | H]; auto.
Qed.
Lemma set_add_NoDup : forall s i, NoDup s -> NoDup (set_add s i).
Proof.
  intros s i N. unfold set_add. destruct (mem Nat.eqb i s) eqn:M; auto. constructor; auto. intro Q. apply mem_nat in Q. congruence.
Qed.

Section Pairs.
  Variable choose : nat * string -> nat * string -> option nat.
  Lemma inner_In : forall p r s i, In i (fold_left (fun s q => match choose p q with Some i => set_add s i | None => s end) r s) <->
    In i s \/ exists q, In q r /\ choose p q = Some i.
  Proof.
    intros p r. induction r as [| q r IH]; intros s i; cbn [fold_left]; [split; [auto | intros [H | (q & [] & _)]; auto] |]. rewrite IH. destruct (choose p q) as [j |] eqn:E.
    - rewrite set_add_In. split.
      + intros [[H | H] | (q' & I & C)]; [subst; right; exists q; split; [left; auto | auto] | auto | right; exists q'; split; [right; auto | auto]].
      + intros [H | (q' & [I | I] & C)]; auto; [subst; left; left; congruence | right; eauto].
    - split; [intros [H | (q' & I & C)]; auto; right; exists q'; split; [right; auto | auto] |]. intros [H | (q' & [I | I] & C)]; auto; [congruence | right; eauto].
  Qed.
  Lemma inner_NoDup : forall p r s, NoDup s -> NoDup (fold_left (fun s q => match choose p q with Some i => set_add s i | None => s end) r s).
  Proof. intros p r. induction r as [| q r IH]; intros s N; cbn [fold_left]; auto. apply IH. destruct (choose p q); auto. apply set_add_NoDup. exact N. Qed.
  Lemma pair_loop_In : forall cmds s i, In i (pair_loop choose cmds s) <-> In i s \/ exists a p b q c, cmds = a ++ p :: b ++ q :: c /\ choose p q = Some i.
  Proof.
    induction cmds as [| p r IH]; intros s i; cbn [pair_loop].
    - split; auto. intros [H | (a & p & b & q & c & E & _)]; auto. destruct a; discriminate.
    - rewrite IH, inner_In. split.
      + intros [[H | (q & I & C)] | (a & p' & b & q & c & E & C)]; auto.
        * right. apply in_split in I. destruct I as (b & c & I). subst r. exists [], p, b, q, c. auto.
        * right. subst r. exists (p :: a), p', b, q, c. auto.
      + intros [H | (a & p' & b & q & c & E & C)]; auto. destruct a as [| a0 a]; cbn in E; injection E as E1 E2; subst.
        * left. right. exists q. split; auto. apply in_or_app. right. left. auto.
        * right. exists a, p', b, q, c. auto.
  Qed.
  Lemma pair_loop_NoDup : forall cmds s, NoDup s -> NoDup (pair_loop choose cmds s).
  Proof. induction cmds as [| p r IH]; intros s N; cbn [pair_loop]; auto. apply IH, inner_NoDup. exact N. Qed.
End Pairs.

Lemma numbered_In : forall f l n i t, In (i, t) (numbered f n l) <-> exists c, nth_error l (i - n) = Some c /\ n <= i /\ f c = Some t.
Proof.
  intros f. induction l as [| c r IH]; intros n i t; cbn [numbered].
  - split; [intros [] | intros (c & H & _)]. destruct (i - n); discriminate.
  - assert (G : In (i, t) (numbered f (S n) r) <-> exists c0, nth_error (c :: r) (i - n) = Some c0 /\ n < i /\ f c0 = Some t).
    { rewrite IH. split; intros (c0 & H & L & F); exists c0; (split; [| split; [lia | auto]]); replace (i - n) with (S (i - S n)) in * by lia; auto. }
    destruct (f c) as [u |] eqn:E.
    + split.
      * intros [H | H]; [injection H as H1 H2; subst; exists c; rewrite Nat.sub_diag; auto |]. apply G in H. destruct H as (c0 & H & L & F). exists c0. split; auto. split; [lia | auto].
      * intros (c0 & H & L & F). destruct (Nat.eq_dec i n) as [Q | Q]; [subst i; rewrite Nat.sub_diag in H; cbn in H; injection H as H; subst c0; left; congruence |].
        right. apply G. exists c0. split; auto. split; [lia | auto].
    + rewrite G. split; intros (c0 & H & L & F); exists c0; (split; [auto | split; [| auto]]); [lia |].
      destruct (Nat.eq_dec i n) as [Q | Q]; [subst i; rewrite Nat.sub_diag in H; cbn in H; injection H as H; subst c0; congruence | lia].
Qed.
Lemma numbered_sorted : forall f l n, StronglySorted (fun p q => fst p < fst q) (numbered f n l).
Proof.
  intros f. induction l as [| c r IH]; intro n; [constructor |]. cbn [numbered]. destruct (f c) as [t |]; auto. constructor; auto. apply Forall_forall. intros (i & u) H. apply numbered_In in H.
  destruct H as (c0 & _ & L & _). cbn. lia.
Qed.

Lemma two_of : forall (l : list (nat * string)) p q, StronglySorted (fun p q => fst p < fst q) l -> In p l -> In q l -> fst p < fst q -> exists a b c, l = a ++ p :: b ++ q :: c.
Proof.
  intros l p q S. induction S as [| x r S IH F]; intros P Q L; [destruct P |]. rewrite Forall_forall in F. destruct P as [P | P].
  - subst x. destruct Q as [Q | Q]; [subst; lia |]. apply in_split in Q. destruct Q as (b & c & Q). exists [], b, c. subst r. auto.
  - destruct Q as [Q | Q]; [subst x; specialize (F p P); lia |]. destruct (IH P Q L) as (a & b & c & E). exists (x :: a), b, c. subst r. auto.
Qed.

Lemma pick_iff : forall a b c1 c2 i, pick a b c1 c2 = Some i <-> (i = b /\ shorter_prefix c1 c2 = true) \/ (i = a /\ shorter_prefix c2 c1 = true).
Proof.
  intros a b c1 c2 i. unfold pick, shorter_prefix. destruct (String.eqb_spec c1 c2) as [E | E].
  - subst. rewrite Nat.ltb_irrefl. cbn. split; [discriminate | intros [[_ H] | [_ H]]; discriminate].
  - cbn [orb]. destruct (Nat.eqb_spec (String.length c1) (String.length c2)) as [L | L].
    + rewrite L, Nat.ltb_irrefl. cbn. split; [discriminate | intros [[_ H] | [_ H]]; discriminate].
    + destruct (Nat.ltb_spec (String.length c1) (String.length c2)) as [M | M].
      * assert (X : (String.length c2 <? String.length c1) = false) by (apply Nat.ltb_ge; lia). rewrite X. cbn [andb]. destruct (starts c1 c2).
        -- split; [intro H; injection H as H; auto | intros [[H _] | [_ H]]; [congruence | discriminate]].
        -- split; [discriminate | intros [[_ H] | [_ H]]; discriminate].
      * assert (X : (String.length c2 <? String.length c1) = true) by (apply Nat.ltb_lt; lia). rewrite X. cbn [andb]. destruct (starts c2 c1).
        -- split; [intro H; injection H as H; auto | intros [[_ H] | [H _]]; [discriminate | congruence]].
        -- split; [discriminate | intros [[_ H] | [_ H]]; discriminate].
Qed.

(** [del i j]: the command at [i] is deleted because of that at [j]. *)
Lemma prune_keep : forall (f : cmd -> option string) (del : string -> string -> bool) choose l,
  (forall t, del t t = false) ->
  (forall p q i, choose p q = Some i <-> (i = fst p /\ del (snd p) (snd q) = true) \/ (i = fst q /\ del (snd q) (snd p) = true)) ->
  del_all (sort_desc (pair_loop choose (numbered f 0 l) [])) l =
    Ok (filter (fun c => match f c with None => true | Some t => negb (existsb (fun c' => match f c' with None => false | Some t' => del t t' end) l) end) l).
Proof.
  intros f del choose l R C.
  assert (X : forall i, In i (pair_loop choose (numbered f 0 l) []) <-> exists c t, nth_error l i = Some c /\ f c = Some t /\ exists c' t', In c' l /\ f c' = Some t' /\ del t t' = true).
  { intro i. rewrite pair_loop_In. split.
    - intros [[] | (a & p & b & q & c & E & H)].
      assert (P : In p (numbered f 0 l)) by (rewrite E; apply in_or_app; right; left; auto).
      assert (Q : In q (numbered f 0 l)) by (rewrite E; apply in_or_app; right; right; apply in_or_app; right; left; auto).
      destruct p as [ip tp]. destruct q as [iq tq]. apply numbered_In in P. apply numbered_In in Q. destruct P as (cp & P1 & _ & P2). destruct Q as (cq & Q1 & _ & Q2). rewrite Nat.sub_0_r in P1, Q1.
      apply C in H. cbn [fst snd] in H. destruct H as [[H D] | [H D]]; subst i.
      + exists cp, tp. split; auto. split; auto. exists cq, tq. split; auto. apply nth_error_In in Q1. exact Q1.
      + exists cq, tq. split; auto. split; auto. exists cp, tp. split; auto. apply nth_error_In in P1. exact P1.
    - intros (cp & tp & P1 & P2 & cq & tq & Q1 & Q2 & D). right. apply In_nth_error in Q1. destruct Q1 as (j & Q1).
      assert (P : In (i, tp) (numbered f 0 l)) by (apply numbered_In; exists cp; rewrite Nat.sub_0_r; split; auto; split; [lia | auto]).
      assert (Q : In (j, tq) (numbered f 0 l)) by (apply numbered_In; exists cq; rewrite Nat.sub_0_r; split; auto; split; [lia | auto]).
      destruct (lt_eq_lt_dec i j) as [[L | L] | L].
      + destruct (two_of _ (i, tp) (j, tq) (numbered_sorted f l 0) P Q L) as (a & b & c & E). exists a, (i, tp), b, (j, tq), c. split; auto. apply C. left. auto.
      + subst j. rewrite P1 in Q1. injection Q1 as Q1. subst cq. rewrite P2 in Q2. injection Q2 as Q2. subst tq. rewrite R in D. discriminate.
      + destruct (two_of _ (j, tq) (i, tp) (numbered_sorted f l 0) Q P L) as (a & b & c & E). exists a, (j, tq), b, (i, tp), c. split; auto. apply C. right. auto. }
  rewrite del_sorted.
  - f_equal. assert (G : forall m n, (forall k, nth_error m k = nth_error l (n + k)) ->
      keep (fun i => negb (mem Nat.eqb i (pair_loop choose (numbered f 0 l) []))) n m =
      filter (fun c => match f c with None => true | Some t => negb (existsb (fun c' => match f c' with None => false | Some t' => del t t' end) l) end) m); [| apply (G l 0); auto].
    induction m as [| c m IH]; intros n H; auto. cbn [keep filter]. rewrite IH. 2: { intro k. specialize (H (S k)). cbn in H. rewrite H. f_equal. lia. }
    assert (N : nth_error l n = Some c). { specialize (H 0). cbn in H. rewrite Nat.add_0_r in H. auto. }
    assert (Y : negb (mem Nat.eqb n (pair_loop choose (numbered f 0 l) [])) =
                match f c with None => true | Some t => negb (existsb (fun c' => match f c' with None => false | Some t' => del t t' end) l) end); [| rewrite Y; reflexivity].
    destruct (mem Nat.eqb n (pair_loop choose (numbered f 0 l) [])) eqn:M; symmetry; cbn [negb].
    + apply mem_nat, X in M. destruct M as (c0 & t & E & F & c' & t' & I & F' & D). rewrite N in E. injection E as E. subst c0. rewrite F. apply negb_false_iff. apply existsb_exists. exists c'. rewrite F'. auto.
    + destruct (f c) as [t |] eqn:F; auto. apply negb_true_iff. apply not_true_iff_false. intro Q. apply existsb_exists in Q. destruct Q as (c' & I & Q). destruct (f c') as [t' |] eqn:F'; [| discriminate].
      assert (mem Nat.eqb n (pair_loop choose (numbered f 0 l) []) = true); [| congruence]. apply mem_nat, X. exists c, t. split; auto. split; auto. exists c', t'. auto.
  - apply pair_loop_NoDup. constructor.
  - intros i I. apply X in I. destruct I as (c & t & E & _). apply nth_error_Some. congruence.
Qed.

Lemma shorter_irrefl : forall t, shorter_prefix t t = false.
Proof. intro t. unfold shorter_prefix. rewrite Nat.ltb_irrefl. reflexivity. Qed.
Lemma prune_negative_eq : forall l, prune_negative_idx l = Ok (prune_negative l).
Proof.
  intro l. unfold prune_negative_idx, prune_negative. apply (prune_keep one_line (fun t t' => shorter_prefix t' t)); [exact shorter_irrefl |].
  intros p q i. rewrite pick_iff. tauto.
Qed.
Lemma prune_positive_eq : forall l, prune_positive_idx l = Ok (prune_positive l).
Proof.
  intro l. unfold prune_positive_idx, prune_positive. apply (prune_keep positive_candidate shorter_prefix); [exact shorter_irrefl |].
  intros p q i. rewrite pick_iff. tauto.
Qed.

(** ** Commands that are overwritten *)
Definition event := (string * nat)%type.
Definition events_of (ps : list piece) (l : list (nat * cmd)) : list event :=
  flat_map (fun p => match over_match ps (snd p) with Some m => [(strip m, fst p)] | None => [] end) l.
Definition ev_step (s : list (string * nat) * list nat) (e : event) : list (string * nat) * list nat :=
  (dset String.eqb (fst e) (snd e) (fst s), match assoc String.eqb (fst e) (fst s) with Some i => snd s ++ [i] | None => snd s end).

Lemma over_events : forall ps l o, let o' := fold_left (over_step ps) l o in
  (o_dict o', o_del o') = fold_left ev_step (events_of ps l) (o_dict o, o_del o).
Proof.
  intros ps l. induction l as [| [i c] r IH]; intro o; cbn [fold_left events_of flat_map]; auto. cbv zeta in *. rewrite IH. clear IH. rewrite fold_left_app. f_equal.
  unfold over_step. cbn [fst snd]. destruct (over_match ps c) as [m |]; auto.
Qed.
Lemma overs_events : forall regs l o, let o' := fold_left (fun o ps => fold_left (over_step ps) l o) regs o in
  (o_dict o', o_del o') = fold_left ev_step (flat_map (fun ps => events_of ps l) regs) (o_dict o, o_del o).
Proof.
  induction regs as [| ps r IH]; intros l o; cbn [fold_left flat_map]; auto. cbv zeta in *. rewrite IH, fold_left_app. f_equal. apply over_events.
Qed.

Lemma dset_vals : forall (e : string) (i : nat) d j, In j (map snd (dset String.eqb e i d)) -> j = i \/ In j (map snd d).
Proof.
  intros e i d. induction d as [| [a b] r IH]; intros j H; cbn in H |- *; [destruct H as [H | []]; auto |]. destruct (String.eqb e a); cbn in H; destruct H as [H | H]; auto.
  apply IH in H. destruct H; auto.
Qed.
Lemma dset_NoDup : forall (e : string) (i : nat) d, NoDup (map snd d) -> ~ In i (map snd d) -> NoDup (map snd (dset String.eqb e i d)).
Proof.
  intros e i d. induction d as [| [a b] r IH]; intros N I; cbn; [repeat constructor; auto |]. inversion N; subst. destruct (String.eqb e a); cbn.
  - constructor; auto. intro Q. apply I. right. exact Q.
  - constructor; [| apply IH; auto; intro Q; apply I; right; exact Q]. intro Q. apply dset_vals in Q. destruct Q as [Q | Q]; [subst; apply I; left; auto | auto].
Qed.
Lemma dset_gone : forall (e : string) (i j : nat) d, NoDup (map snd d) -> assoc String.eqb e d = Some j -> i <> j -> ~ In j (map snd (dset String.eqb e i d)).
Proof.
  intros e i j d. induction d as [| [a b] r IH]; intros N A NE; cbn in *; [discriminate |]. inversion N; subst. destruct (String.eqb_spec e a) as [E | E].
  - injection A as A. subst. cbn. intros [Q | Q]; auto.
  - cbn. intros [Q | Q]; [| apply IH in Q; auto]. subst b. apply H1. clear - A. induction r as [| [x y] r IH]; cbn in *; [discriminate |]. destruct (String.eqb e x); [injection A as A; auto | auto].
Qed.
Lemma assoc_val : forall (e : string) (d : list (string * nat)) j, assoc String.eqb e d = Some j -> In j (map snd d).
Proof. intros e d j H. induction d as [| [x y] r IH]; cbn in *; [discriminate |]. destruct (String.eqb e x); [injection H as H; auto | auto]. Qed.

Lemma events_del : forall evs done s, NoDup (map snd evs) -> (forall i, In i (map snd evs) -> ~ In i done) ->
  NoDup (map snd (fst s)) -> incl (map snd (fst s)) done -> NoDup (snd s) -> incl (snd s) done -> (forall i, In i (snd s) -> ~ In i (map snd (fst s))) ->
  NoDup (snd (fold_left ev_step evs s)) /\ incl (snd (fold_left ev_step evs s)) (done ++ map snd evs).
Proof.
  induction evs as [| [e i] r IH]; intros done [d l] N F A B C D G; cbn [fold_left map snd fst] in *; [split; auto; rewrite app_nil_r; auto |]. inversion N as [| ? ? N1 N2]; subst.
  assert (I0 : ~ In i done) by (apply F; left; auto). assert (ID : ~ In i (map snd d)) by (intro Q; apply I0, B, Q).
  specialize (IH (done ++ [i]) (ev_step (d, l) (e, i)) N2). unfold ev_step in IH at 1 2 3 4 5 6. cbn [fst snd] in IH.
  assert (R : NoDup (snd (fold_left ev_step r (ev_step (d, l) (e, i)))) /\ incl (snd (fold_left ev_step r (ev_step (d, l) (e, i)))) ((done ++ [i]) ++ map snd r)).
  { apply IH; clear IH.
    - intros j J Q. apply in_app_or in Q. destruct Q as [Q | [Q | []]]; [exact (F j (or_intror J) Q) | subst j; exact (N1 J)].
    - apply dset_NoDup; auto.
    - intros j J. apply dset_vals in J. apply in_or_app. destruct J as [J | J]; [right; left; auto | left; auto].
    - destruct (assoc String.eqb e d) as [j |] eqn:E; auto. apply assoc_val in E. apply NoDup_rev in C. rewrite <- (rev_involutive (l ++ [j])). apply NoDup_rev. rewrite rev_app_distr. cbn. constructor; auto.
      intro Q. apply in_rev in Q. apply (G j); auto.
    - intros j J. apply in_or_app. left. destruct (assoc String.eqb e d) as [k |] eqn:E; auto. apply in_app_or in J. destruct J as [J | [J | []]]; auto. subst k. apply assoc_val in E. auto.
    - intros j J. destruct (assoc String.eqb e d) as [k |] eqn:E.
      + apply in_app_or in J. destruct J as [J | [J | []]].
        * intro Q. apply dset_vals in Q. destruct Q as [Q | Q]; [subst; apply I0, D, J | apply (G j); auto].
        * subst k. apply dset_gone; auto. intro Q. subst. apply ID. apply assoc_val in E. exact E.
      + intro Q. apply dset_vals in Q. destruct Q as [Q | Q]; [subst; apply I0, D, J | apply (G j); auto]. }
  rewrite <- app_assoc in R. exact R.
Qed.

Definition exclusive (regs : list (list piece)) : Prop :=
  forall a p b q c s m m', regs = a ++ p :: b ++ q :: c -> over_match p s = Some m -> over_match q s = Some m' -> False.

Lemma enumerate_fst : forall A (l : list A), map fst (enumerate l) = seq 0 (length l).
Proof. intros A l. unfold enumerate. generalize 0. induction l as [| x r IH]; intro n; auto. cbn. rewrite IH. reflexivity. Qed.

Lemma events_fst : forall ps l i, In i (map snd (events_of ps l)) <-> exists c m, In (i, c) l /\ over_match ps c = Some m.
Proof.
  intros ps l i. rewrite in_map_iff. unfold events_of. split.
  - intros ((e & j) & E & H). cbn in E. subst j. apply in_flat_map in H. destruct H as ((k & c) & I & H). cbn [fst snd] in H. destruct (over_match ps c) as [m |] eqn:O; [| destruct H].
    destruct H as [H | []]. injection H as _ H. subst k. eauto.
  - intros (c & m & I & O). exists (strip m, i). split; auto. apply in_flat_map. exists (i, c). split; auto. cbn [fst snd]. rewrite O. left. auto.
Qed.
Lemma events_NoDup : forall ps l, NoDup (map fst l) -> NoDup (map snd (events_of ps l)).
Proof.
  intros ps l. induction l as [| [i c] r IH]; intro N; [constructor |]. cbn [map fst] in N. inversion N; subst. unfold events_of. cbn [flat_map fst snd]. fold (events_of ps r).
  destruct (over_match ps c) as [m |]; cbn [app]; auto. cbn. constructor; auto. intro Q. apply events_fst in Q. destruct Q as (c' & m' & I & _). apply H1. apply in_map_iff. exists (i, c'). auto.
Qed.
Lemma NoDup_app_intro : forall (A : Type) (a b : list A), NoDup a -> NoDup b -> (forall x, In x a -> ~ In x b) -> NoDup (a ++ b).
Proof.
  intros A a b Na Nb D. induction Na as [| x a Nx Na IH]; auto. cbn. constructor.
  - intro Q. apply in_app_or in Q. destruct Q as [Q | Q]; auto. apply (D x); auto. left. auto.
  - apply IH. intros y Y. apply D. right. auto.
Qed.
Lemma all_events_NoDup : forall regs l, exclusive regs -> NoDup (map fst l) -> (forall i c c', In (i, c) l -> In (i, c') l -> c = c') ->
  NoDup (map snd (flat_map (fun ps => events_of ps l) regs)).
Proof.
  intros regs l X N U. induction regs as [| p r IH]; [constructor |]. cbn [flat_map]. rewrite map_app. apply NoDup_app_intro.
  - apply events_NoDup. exact N.
  - apply IH. intros a p1 b q c s m m' E. apply (X (p :: a) p1 b q c s m m'). rewrite E. reflexivity.
  - intros i I Q. apply events_fst in I. destruct I as (c & m & I & O). apply in_map_iff in Q. destruct Q as ((e & j) & E & Q). cbn in E. subst j. apply in_flat_map in Q. destruct Q as (q & Iq & Q).
    assert (Q' : In i (map snd (events_of q l))) by (apply in_map_iff; exists (e, i); auto). apply events_fst in Q'. destruct Q' as (c' & m' & I' & O'). rewrite <- (U i c c' I I') in O'.
    apply in_split in Iq. destruct Iq as (a & b & Iq). apply (X [] p a q b c m m'); auto. rewrite Iq. reflexivity.
Qed.

Lemma keep_enumerate : forall A f (l : list A), map snd (filter (fun p => f (fst p)) (enumerate l)) = keep f 0 l.
Proof. intros A f l. unfold enumerate. generalize 0. induction l as [| x r IH]; intro n; auto. cbn. destruct (f n); cbn; rewrite IH; reflexivity. Qed.

Lemma overwrite_eq : forall regs st, exclusive regs -> overwrite_idx regs st = Ok (overwrite regs st).
Proof.
  intros regs st X. unfold overwrite_idx, overwrite. cbv zeta. set (o := fold_left _ regs _).
  assert (E := overs_events regs (enumerate (c_pos st)) (OState (c_neg st) [] [])). cbv zeta in E. fold o in E. cbn [o_dict o_del] in E.
  assert (U : forall i (c c' : cmd), In (i, c) (enumerate (c_pos st)) -> In (i, c') (enumerate (c_pos st)) -> c = c') by (apply enumerate_fun).
  assert (N : NoDup (map fst (enumerate (c_pos st)))) by (rewrite enumerate_fst; apply seq_NoDup).
  assert (Z := events_del (flat_map (fun ps => events_of ps (enumerate (c_pos st))) regs) [] ([], []) (all_events_NoDup regs _ X N U)
    (fun i _ Q => Q) (NoDup_nil nat) (fun x Q => Q) (NoDup_nil nat) (fun x Q => Q) (fun i Q _ => Q)).
  rewrite <- E in Z. cbn [snd] in Z. destruct Z as [Z1 Z2]. rewrite del_sorted; auto.
  - cbn [bind]. rewrite <- keep_enumerate. reflexivity.
  - intros i I. apply Z2 in I. cbn in I. apply in_map_iff in I. destruct I as ((e & j) & Q & I). cbn in Q. subst j. apply in_flat_map in I. destruct I as (ps & _ & I).
    assert (I' : In i (map snd (events_of ps (enumerate (c_pos st))))) by (apply in_map_iff; exists (e, i); auto). apply events_fst in I'. destruct I' as (c & m & I' & _).
    assert (In i (seq 0 (length (c_pos st)))) by (rewrite <- enumerate_fst; apply in_map_iff; exists (i, c); auto). apply in_seq in H. lia.
Qed.

(** The expressions of the code begin with different words. *)
Lemma lit_head : forall l r s m, re_match (PSpaces :: PLit l :: r) s = Some m -> starts l (snd (span (Ascii.eqb " ") s)) = true.
Proof. intros l r s m H. cbn [re_match] in H. destruct (span (Ascii.eqb " ") s) as [a b]. cbn [snd]. destruct (starts l b); auto. discriminate. Qed.
Lemma prefix_either : forall a b s, starts a s = true -> starts b s = true -> starts a b || starts b a = true.
Proof.
  intros a b s A B. apply starts_iff in A. apply starts_iff in B. destruct A as (p & A). destruct B as (q & B). subst s. revert b q B. induction a as [| x a IH]; intros b q B.
  - apply orb_true_iff. left. apply starts_iff. exists b. reflexivity.
  - destruct b as [| y b]; [apply orb_true_iff; right; apply starts_iff; exists (String x a); reflexivity |]. cbn in B. injection B as E B. subst y. apply IH in B.
    apply orb_true_iff in B. apply orb_true_iff. destruct B as [B | B]; [left | right]; apply starts_iff in B; destruct B as (t & B); apply starts_iff; exists t; cbn; congruence.
Qed.
Lemma two_heads : forall l l' r r' s m m', starts l l' || starts l' l = false ->
  over_match (PSpaces :: PLit l :: r) s = Some m -> over_match (PSpaces :: PLit l' :: r') s = Some m' -> False.
Proof.
  intros l l' r r' [| x [| y s]] m m' H A B; unfold over_match in A, B; [discriminate | |]; apply lit_head in A; apply lit_head in B; rewrite (prefix_either _ _ _ A B) in H; discriminate.
Qed.
Lemma overwritable_exclusive : exclusive overwritable_commands.
Proof.
  intros a p b q c s m m' E A B. unfold overwritable_commands, lit in E.
  destruct a as [| a0 [| a1 [| a2 [| a3 [| a4 a]]]]]; cbn in E; try discriminate;
  destruct b as [| b0 [| b1 [| b2 [| b3 b]]]]; cbn in E; try discriminate;
  try (injection E; intros; subst; refine (two_heads _ _ _ _ _ _ _ _ A B); vm_compute; reflexivity).
  all: apply (f_equal (@length _)) in E; cbn in E; rewrite ?app_length in E; cbn in E; rewrite ?app_length in E; cbn in E; lia.
Qed.

Theorem finish_eq : forall st, finish_idx overwritable_commands st = Ok (finish overwritable_commands st).
Proof.
  intro st. unfold finish_idx, finish. rewrite (overwrite_eq _ _ overwritable_exclusive). cbn [bind]. cbv zeta. rewrite !remove_duplicates_eq. cbn [bind].
  rewrite prune_negative_eq. cbn [bind]. rewrite prune_positive_eq. reflexivity.
Qed.
