(** Proofs about the generated commands. *)
From Coq Require Import String Ascii List Bool Arith ZArith Lia Permutation.
From Verif Require Import Base BaseP RunningM RunSpec RunDiffP.
Import ListNotations.
Open Scope string_scope.
Open Scope list_scope.

Definition ceqb : cmd -> cmd -> bool := list_eqb String.eqb.
Lemma ceqb_eq : forall a b, ceqb a b = true <-> a = b.
Proof.
  unfold ceqb. induction a as [| x r IH]; intros [| y s]; simpl; try (intuition congruence).
  rewrite andb_true_iff, String.eqb_eq, IH. intuition congruence.
Qed.
Lemma cmem_In : forall c l, mem ceqb c l = true <-> In c l.
Proof.
  intros c l. induction l as [| x r IH]; simpl; [intuition discriminate |]. rewrite orb_true_iff, IH, ceqb_eq. intuition congruence.
Qed.

Lemma dedup_In : forall l seen c, In c (dedup seen l) <-> In c l /\ ~ In c seen.
Proof.
  induction l as [| x r IH]; intros seen c; cbn [dedup]; [simpl; intuition |]. change (mem (list_eqb String.eqb) x seen) with (mem ceqb x seen). destruct (mem ceqb x seen) eqn:M.
  - apply cmem_In in M. rewrite IH. simpl. intuition congruence.
  - assert (N : ~ In x seen) by (rewrite <- cmem_In; congruence). simpl. rewrite IH. simpl. split.
    + intros [E | [H1 H2]]; [subst; auto |]. intuition.
    + intros [[E | H1] H2]; auto. destruct (ceqb x c) eqn:E; [apply ceqb_eq in E; auto |]. right. split; auto. intros [F | F]; auto. apply ceqb_eq in F. congruence.
Qed.

Lemma dedup_NoDup : forall l seen, NoDup (dedup seen l).
Proof.
  induction l as [| x r IH]; intros seen; simpl; [constructor |]. destruct (mem (list_eqb String.eqb) x seen); auto. constructor; auto.
  rewrite dedup_In. simpl. intuition.
Qed.

Lemma dedup_first : forall l1 c l2 seen, ~ In c l1 -> ~ In c seen ->
  exists r2, dedup seen (l1 ++ c :: l2) = dedup seen l1 ++ c :: r2.
Proof.
  induction l1 as [| x r IH]; intros c l2 seen N1 N2; cbn [app dedup].
  - change (mem (list_eqb String.eqb) c seen) with (mem ceqb c seen). destruct (mem ceqb c seen) eqn:M; [apply cmem_In in M; contradiction |]. eauto.
  - destruct (mem (list_eqb String.eqb) x seen).
    + apply IH; auto. intro H. apply N1. right. auto.
    + destruct (IH c l2 (x :: seen)) as (r2 & E). { intro H. apply N1. right. auto. } { intros [H | H]; auto. apply N1. left. auto. }
      exists r2. rewrite E. reflexivity.
Qed.

(** ** Prefixes *)

Lemma starts_iff : forall p s, starts p s = true <-> exists r, s = (p ++ r)%string.
Proof.
  unfold starts. intros p s. rewrite String.eqb_eq. revert s. induction p as [| c p IH]; intro s; simpl.
  - split; eauto.
  - destruct s as [| d s]; [split; [discriminate | intros (r & E); discriminate] |]. split.
    + intro E. injection E as E1 E2. subst d. apply IH in E2. destruct E2 as (r & E3). exists r. congruence.
    + intros (r & E). injection E as E1 E2. subst d. f_equal. apply IH. eauto.
Qed.

Lemma append_assoc : forall a b c, ((a ++ b) ++ c)%string = (a ++ (b ++ c))%string.
Proof. induction a; intros; simpl; congruence. Qed.
Lemma append_length : forall a b, String.length (a ++ b) = String.length a + String.length b.
Proof. induction a; intros; simpl; auto. Qed.
Lemma append_nil : forall a, (a ++ "")%string = a.
Proof. induction a; simpl; congruence. Qed.

Lemma shorter_prefix_iff : forall a b, shorter_prefix a b = true <-> exists r, b = (a ++ r)%string /\ r <> "".
Proof.
  intros a b. unfold shorter_prefix. rewrite andb_true_iff, Nat.ltb_lt, starts_iff. split.
  - intros [L (r & E)]. exists r. split; auto. intro F. subst. rewrite append_nil in L. lia.
  - intros (r & E & N). split; eauto. subst b. rewrite append_length. destruct r; [congruence | simpl; lia].
Qed.

(** [a] begins [b], character by character *)
Lemma Begins_refl : forall a, Begins a a.
Proof. intro a. exists "". symmetry. apply append_nil. Qed.
Lemma Begins_trans : forall a b c, Begins a b -> Begins b c -> Begins a c.
Proof. intros a b c (r & E) (q & F). subst. exists (r ++ q)%string. apply append_assoc. Qed.

Lemma prune_negative_keeps : forall l c t, In c l -> one_line c = Some t ->
  exists t', In [t'] (prune_negative l) /\ Begins t' t.
Proof.
  intros l. assert (G : forall n c t, String.length t <= n -> In c l -> one_line c = Some t -> exists t', In [t'] (prune_negative l) /\ Begins t' t).
  { induction n as [| n IH]; intros c t L H O; assert (E : c = [t]) by (destruct c as [| x [| y r]]; inversion O; auto); subst c;
      (destruct (existsb (fun c' => match one_line c' with None => false | Some t' => shorter_prefix t' t end) l) eqn:X;
       [| exists t; split; [| apply Begins_refl]; unfold prune_negative; apply filter_In; split; auto; rewrite O, X; auto]).
    - apply existsb_exists in X. destruct X as (c' & H' & P). destruct (one_line c') as [t' |]; [| discriminate].
      apply shorter_prefix_iff in P. destruct P as (r & E & N). subst t. rewrite append_length in L. destruct r; [congruence | simpl in L; lia].
    - apply existsb_exists in X. destruct X as (c' & H' & P). destruct (one_line c') as [t' |] eqn:O'; [| discriminate].
      apply shorter_prefix_iff in P. destruct P as (r & E & N). destruct (IH c' t') as (t2 & I2 & B2); auto.
      { subst t. rewrite append_length in L. destruct r; [congruence | simpl in L; lia]. }
      exists t2. split; auto. apply (Begins_trans t2 t'); auto. exists r. auto. }
  intros c t. apply (G (String.length t) c t). auto.
Qed.

Lemma prune_negative_incl : forall l c, In c (prune_negative l) -> In c l.
Proof. intros l c H. apply filter_In in H. tauto. Qed.
Lemma prune_negative_multi : forall l c, In c l -> one_line c = None -> In c (prune_negative l).
Proof. intros l c H O. apply filter_In. rewrite O. auto. Qed.

(** Lengths are bounded *)
Definition maxlen (l : list cmd) : nat := fold_right (fun c n => Nat.max (match c with [t] => String.length t | _ => 0 end) n) 0 l.
Lemma maxlen_In : forall l t, In [t] l -> String.length t <= maxlen l.
Proof. induction l as [| x r IH]; intros t H; [destruct H |]. simpl. destruct H as [E | H]; [subst; simpl; lia |]. specialize (IH t H). lia. Qed.

Lemma candidate_line : forall c t, positive_candidate c = Some t -> c = [t].
Proof. intros [| x [| y r]] t; unfold positive_candidate; simpl; try discriminate. destruct (smem x coexist_commands); congruence. Qed.

Lemma prune_positive_keeps : forall l t, In [t] l -> exists t', In [t'] (prune_positive l) /\ Begins t t'.
Proof.
  intro l. assert (G : forall n t, maxlen l - String.length t <= n -> In [t] l -> exists t', In [t'] (prune_positive l) /\ Begins t t').
  { induction n as [| n IH]; intros t L H; (destruct (positive_candidate [t]) as [t0 |] eqn:O;
      [| exists t; split; [apply filter_In; split; auto; rewrite O; auto | apply Begins_refl]]);
      assert (t0 = t) by (apply candidate_line in O; congruence); subst t0;
      (destruct (existsb (fun c' => match positive_candidate c' with None => false | Some t' => shorter_prefix t t' end) l) eqn:X;
       [| exists t; split; [| apply Begins_refl]; unfold prune_positive; apply filter_In; split; auto; rewrite O, X; auto]);
      apply existsb_exists in X; destruct X as (c' & H' & P); destruct (positive_candidate c') as [t' |] eqn:O'; try discriminate;
      apply candidate_line in O'; subst c'; apply shorter_prefix_iff in P; destruct P as (r & E & N);
      assert (LL := maxlen_In l t' H'); assert (LT : String.length t < String.length t') by (subst t'; rewrite append_length; destruct r; [congruence | simpl; lia]).
    - lia.
    - destruct (IH t') as (t2 & I2 & B2); auto; [lia |]. exists t2. split; auto. apply (Begins_trans t t'); auto. exists r. auto. }
  intros t. apply (G (maxlen l - String.length t) t). auto.
Qed.
Lemma prune_positive_incl : forall l c, In c (prune_positive l) -> In c l.
Proof. intros l c H. apply filter_In in H. tauto. Qed.
Lemma prune_positive_multi : forall l c, In c l -> one_line c = None -> In c (prune_positive l).
Proof. intros l c H O. apply filter_In. unfold positive_candidate. rewrite O. auto. Qed.

(** ** handle_command *)

Lemma is_ws_strip : forall s, strip s = s -> lstrip s = s.
Proof.
  intros s H. unfold strip in H. destruct s as [| c r]; auto. simpl in *. destruct (is_ws c) eqn:E; auto.
  exfalso. assert (L : forall t, String.length (rstrip t) <= String.length t).
  { induction t as [| d t IH]; simpl; auto. destruct (rstrip t); [destruct (is_ws d); simpl; lia | simpl in *; lia]. }
  assert (L2 : forall t, String.length (lstrip t) <= String.length t) by (induction t as [| d t IH]; simpl; auto; destruct (is_ws d); simpl; lia).
  assert (X := f_equal String.length H). simpl in X. specialize (L (lstrip r)). specialize (L2 r). lia.
Qed.
Lemma rstrip_cons : forall c r, r <> "" -> rstrip r = r -> rstrip (String c r) = String c r.
Proof. intros c r N E. simpl. rewrite E. destruct r; congruence. Qed.
Lemma clean_rstrip : forall s, clean s -> rstrip s = s.
Proof. intros s H. unfold clean in H. assert (L := is_ws_strip s H). unfold strip in H. rewrite L in H. auto. Qed.
Lemma rstrip_app : forall p s, s <> "" -> rstrip s = s -> rstrip (p ++ s) = (p ++ s)%string.
Proof. induction p as [| c p IH]; intros s N E; auto. cbn [append]. apply rstrip_cons; auto. destruct p; simpl; congruence. Qed.

Lemma clean_no : forall s, clean s -> s <> "" -> clean ("no " ++ s)%string.
Proof.
  intros s C N. unfold clean, strip. assert (E : lstrip ("no " ++ s) = ("no " ++ s)%string) by reflexivity.
  rewrite E. apply rstrip_app; auto. apply clean_rstrip. auto.
Qed.

Lemma handle_double : forall s, clean s -> handle_command ("no no " ++ s) = (s, false).
Proof.
  intros s C. unfold handle_command. assert (H : starts "no no " ("no no " ++ s) = true) by (apply starts_iff; eauto). rewrite H.
  assert (E : sdrop 6 ("no no " ++ s) = s) by reflexivity. rewrite E, C. auto.
Qed.

Lemma stake_prefix : forall n s, exists r, s = (stake n s ++ r)%string.
Proof. induction n as [| n IH]; intros [| c s]; simpl; eauto. destruct (IH s) as (r & E). exists r. congruence. Qed.
Lemma rstrip_prefix : forall s, exists r, s = (rstrip s ++ r)%string.
Proof.
  induction s as [| c s (r & E)]; simpl; [exists ""; auto |]. destruct (rstrip s) eqn:R.
  - destruct (is_ws c); [exists (String c s); auto | exists r; simpl in *; congruence].
  - exists r. simpl in *. congruence.
Qed.

Lemma handle_no : forall s, clean s -> s <> "" -> starts "no " s = false ->
  exists u, handle_command ("no " ++ s) = (u, true) /\ Begins u ("no " ++ s) /\
    (u = ("no " ++ s)%string \/ In u (map strip short_no_commands)).
Proof.
  intros s C N H. unfold handle_command. assert (F : starts "no no " ("no " ++ s) = false).
  { destruct (starts "no no " ("no " ++ s)) eqn:E; auto. apply starts_iff in E. destruct E as (r & E).
    assert (E2 : s = ("no " ++ r)%string) by (simpl in *; congruence). assert (starts "no " s = true) by (apply starts_iff; eauto). congruence. }
  rewrite F. destruct (find (fun sc => starts sc ("no " ++ s)) short_no_commands) as [sc |] eqn:S.
  - apply find_some in S. destruct S as [S1 S2]. exists (strip sc). split; auto. split; [| right; apply in_map; auto].
    apply starts_iff in S2. destruct S2 as (r & E). rewrite E. assert (L : lstrip sc = sc).
    { simpl in S1. repeat (destruct S1 as [S1 | S1]; [subst sc; reflexivity |]). destruct S1. }
    unfold strip. rewrite L. destruct (rstrip_prefix sc) as (q & Q). exists (q ++ r)%string. rewrite <- append_assoc, <- Q. auto.
  - assert (T : starts "no " ("no " ++ s) = true) by (apply starts_iff; eauto). rewrite T. exists ("no " ++ s)%string.
    rewrite (clean_no s C N). split; auto. split; auto. apply Begins_refl.
Qed.

(** A line that is to be added is sent as it is, unless it is a negative line with a
    short form or a doubly negated one. *)
Lemma handle_add : forall s, clean s -> starts "no no " s = false -> (forall sc, In sc short_no_commands -> starts sc s = false) ->
  handle_command s = (s, starts "no " s).
Proof.
  intros s C N S. unfold handle_command. rewrite N. destruct (find (fun sc => starts sc s) short_no_commands) as [sc |] eqn:F.
  - apply find_some in F. destruct F as [F1 F2]. rewrite (S sc F1) in F2. discriminate.
  - rewrite C. destruct (starts "no " s); auto.
Qed.

(** ** The whole command list *)

Lemma append_command_ext : forall c st, exists p n, c_pos (append_command c st) = c_pos st ++ p /\ c_neg (append_command c st) = c_neg st ++ n.
Proof.
  intros c st. unfold append_command. destruct (handle_command c) as [t b]. destruct b; simpl.
  - exists [], [[t]]. rewrite app_nil_r. auto.
  - exists [[t]], []. rewrite app_nil_r. auto.
Qed.

Lemma cli_item_ext : forall pks sub x st, exists p n, c_pos (cli_item pks sub x st) = c_pos st ++ p /\ c_neg (cli_item pks sub x st) = c_neg st ++ n.
Proof.
  intros pks sub [k v i] st. assert (Z : exists p n, c_pos st = c_pos st ++ p /\ c_neg st = c_neg st ++ n) by (exists [], []; rewrite !app_nil_r; auto).
  unfold cli_item. destruct k as [| a k]; auto. set (K := String a k) in *. destruct v as [l |].
  - destruct i; auto.
    + destruct (text_empty (fst sub)), (text_empty (snd sub)); auto; cbn [c_pos c_neg].
      * exists [], [K :: rstrip_lines (indent (snd sub))]. rewrite app_nil_r. auto.
      * exists [K :: rstrip_lines (indent (fst sub))], []. rewrite app_nil_r. auto.
      * eexists. eexists. split; reflexivity.
    + cbn [c_pos c_neg]. exists [K :: rstrip_lines (list2config None l)], []. rewrite app_nil_r. auto.
    + apply append_command_ext.
  - destruct i; auto; [apply append_command_ext |]. destruct (existsb (starts K) pks); auto. apply append_command_ext.
Qed.

Lemma item_cli_ext : forall regs pks x st, exists p n, c_pos (item_cli regs pks x st) = c_pos st ++ p /\ c_neg (item_cli regs pks x st) = c_neg st ++ n.
Proof. intros regs pks [k v i] st. cbn [item_cli]. apply cli_item_ext. Qed.

Definition collect (regs : list (list piece)) (pks : list string) (l : list item) (st : clis) : clis :=
  fold_left (fun s x => item_cli regs pks x s) l st.

Lemma collect_In : forall regs pks l st, (forall c, In c (c_pos st) -> In c (c_pos (collect regs pks l st))) /\
  (forall c, In c (c_neg st) -> In c (c_neg (collect regs pks l st))).
Proof.
  induction l as [| x r IH]; intro st; simpl; auto. destruct (item_cli_ext regs pks x st) as (p & n & E1 & E2).
  destruct (IH (item_cli regs pks x st)) as [I1 I2]. split; intros c H.
  - apply I1. rewrite E1. apply in_or_app. auto.
  - apply I2. rewrite E2. apply in_or_app. auto.
Qed.

Lemma collect_item : forall regs pks l x st, In x l -> exists st',
  (forall c, In c (c_pos (item_cli regs pks x st')) -> In c (c_pos (collect regs pks l st))) /\
  (forall c, In c (c_neg (item_cli regs pks x st')) -> In c (c_neg (collect regs pks l st))).
Proof.
  induction l as [| y r IH]; intros x st H; [destruct H |]. destruct H as [E | H].
  - subst y. exists st. simpl. apply collect_In.
  - simpl. apply IH. auto.
Qed.

(** *** Overwritable commands *)

Section Over.
Variable regs : list (list piece).
Variable pos : list (nat * cmd).
Definition matched (i : nat) : Prop := exists c ps m, In (i, c) pos /\ In ps regs /\ over_match ps c = Some m.
Definition oinv (o : ostate) : Prop :=
  (forall i, In i (o_del o) -> matched i) /\ (forall e i, In (e, i) (o_dict o) -> matched i).

Lemma dset_In : forall (e : string) (i : nat) l e' i', In (e', i') (dset String.eqb e i l) -> (e' = e /\ i' = i) \/ In (e', i') l.
Proof.
  induction l as [| [k v] r IH]; intros e' i' H; simpl in H.
  - destruct H as [H | []]. inversion H. auto.
  - destruct (String.eqb e k); simpl in H.
    + destruct H as [H | H]; [inversion H; auto | right; right; auto].
    + destruct H as [H | H]; [right; left; auto |]. destruct (IH e' i' H) as [G | G]; [auto | right; right; auto].
Qed.
Lemma assoc_In : forall (e : string) (l : list (string * nat)) i, assoc String.eqb e l = Some i -> exists e', In (e', i) l.
Proof.
  induction l as [| [k v] r IH]; intros i H; simpl in H; [discriminate |]. destruct (String.eqb e k).
  - inversion H; subst. exists k. left. auto.
  - destruct (IH i H) as (e' & G). exists e'. right. auto.
Qed.

Lemma over_step_inv : forall ps o p, In ps regs -> In p pos -> oinv o -> oinv (over_step ps o p).
Proof.
  intros ps o [i c] HP Hp [D1 D2]. unfold over_step. destruct (over_match ps c) as [m |] eqn:M; [| split; auto].
  assert (MI : matched i) by (exists c, ps, m; auto). split; cbn [o_del o_dict].
  - intros j H. destruct (assoc String.eqb (strip m) (o_dict o)) as [i0 |] eqn:A; auto. apply in_app_or in H. destruct H as [H | [H | []]]; auto. subst.
    apply assoc_In in A. destruct A as (e' & A). apply (D2 e'). auto.
  - intros e j H. apply dset_In in H. destruct H as [[_ H] | H]; [subst; auto | apply (D2 e); auto].
Qed.

Lemma over_fold_inv : forall rs o, incl rs regs -> oinv o -> oinv (fold_left (fun o ps => fold_left (over_step ps) pos o) rs o).
Proof.
  induction rs as [| ps r IH]; intros o I H; auto. simpl. apply IH. { intros x Hx. apply I. right. auto. }
  assert (G : forall l o, incl l pos -> oinv o -> oinv (fold_left (over_step ps) l o)).
  { induction l as [| p l IHl]; intros o' Il Ho; auto. simpl. apply IHl. { intros x Hx. apply Il. right. auto. }
    apply over_step_inv; auto. apply I. left. auto. apply Il. left. auto. }
  apply G; auto. apply incl_refl.
Qed.

(** A negative command stays unless an overwriting command matches it. *)
Definition spared (c : cmd) : Prop := forall i c' ps m, In (i, c') pos -> In ps regs -> over_match ps c' = Some m -> neg_matches m c = false.
Lemma del_first_In : forall (A : Type) (p : A -> bool) l x, In x l -> p x = false -> In x (del_first p l).
Proof.
  induction l as [| y r IH]; intros x H P; [destruct H |]. simpl. destruct (p y) eqn:E.
  - destruct H as [H | H]; auto. subst. congruence.
  - destruct H as [H | H]; [left; auto | right; auto].
Qed.
Lemma over_fold_neg : forall rs o c, incl rs regs -> spared c -> In c (o_neg o) ->
  In c (o_neg (fold_left (fun o ps => fold_left (over_step ps) pos o) rs o)).
Proof.
  induction rs as [| ps r IH]; intros o c I S H; auto. simpl. apply IH; auto. { intros x Hx. apply I. right. auto. }
  assert (G : forall l o, incl l pos -> In c (o_neg o) -> In c (o_neg (fold_left (over_step ps) l o))).
  { induction l as [| [i c'] l IHl]; intros o' Il Ho; auto. cbn [fold_left]. apply IHl. { intros x Hx. apply Il. right. auto. }
    unfold over_step. destruct (over_match ps c') as [m |] eqn:M; auto. cbn [o_neg]. apply del_first_In; auto.
    apply (S i c' ps m); auto. apply Il. left. auto. apply I. left. auto. }
  apply G; auto. apply incl_refl.
Qed.
End Over.

Lemma enumerate_In : forall (A : Type) (l : list A) x, In x l -> exists i, In (i, x) (enumerate l).
Proof.
  intros A l x H. apply In_nth_error in H. destruct H as (n & H). exists n. unfold enumerate.
  apply nth_error_split in H. destruct H as (a & b & E & L). subst l n. rewrite app_length. cbn [length].
  rewrite seq_app. cbn [seq plus]. assert (C : forall (u v : list nat) (p q : list A), length u = length p -> combine (u ++ v) (p ++ q) = combine u p ++ combine v q).
  { induction u as [| c u IH]; intros v [| d p] q F; simpl in *; try discriminate; auto. f_equal. apply IH. lia. }
  rewrite C by (rewrite seq_length; auto). apply in_or_app. right. left. auto.
Qed.
Lemma combine_In_l : forall (A B : Type) (l : list A) (r : list B) a b b', NoDup l -> In (a, b) (combine l r) -> In (a, b') (combine l r) -> b = b'.
Proof.
  induction l as [| x l IH]; intros [| y r] a b b' N H1 H2; simpl in *; try contradiction. inversion N as [| ? ? N1 N2]; subst.
  destruct H1 as [H1 | H1], H2 as [H2 | H2].
  - congruence.
  - inversion H1; subst. apply in_combine_l in H2. contradiction.
  - inversion H2; subst. apply in_combine_l in H1. contradiction.
  - apply (IH r a); auto.
Qed.
Lemma enumerate_fun : forall (A : Type) (l : list A) i x y, In (i, x) (enumerate l) -> In (i, y) (enumerate l) -> x = y.
Proof. intros A l i x y. apply combine_In_l. apply seq_NoDup. Qed.

Lemma overwrite_pos : forall regs st c, In c (c_pos st) -> (forall ps, In ps regs -> over_match ps c = None) -> In c (c_pos (overwrite regs st)).
Proof.
  intros regs st c H N. unfold overwrite. cbn [c_pos]. destruct (enumerate_In _ _ _ H) as (i & Hi). apply in_map_iff. exists (i, c). split; auto.
  apply filter_In. split; auto. cbn [fst]. apply negb_true_iff.
  set (o := fold_left _ regs _). assert (I : oinv regs (enumerate (c_pos st)) o).
  { apply over_fold_inv; [apply incl_refl |]. split; cbn; intros; contradiction. }
  destruct (mem Nat.eqb i (o_del o)) eqn:M; auto. exfalso. assert (G : In i (o_del o)).
  { clear - M. induction (o_del o) as [| x r IH]; simpl in M; [discriminate |]. apply orb_true_iff in M. destruct M as [M | M]; [left; apply Nat.eqb_eq in M; auto | right; auto]. }
  apply I in G. destruct G as (c' & ps & m & G1 & G2 & G3). rewrite (enumerate_fun _ _ _ _ _ G1 Hi) in G3. rewrite N in G3; auto. discriminate.
Qed.

Lemma overwrite_neg : forall regs st c, In c (c_neg st) -> (forall c' ps m, In c' (c_pos st) -> In ps regs -> over_match ps c' = Some m -> neg_matches m c = false) ->
  In c (c_neg (overwrite regs st)).
Proof.
  intros regs st c H N. unfold overwrite. cbn [c_neg]. apply (over_fold_neg regs); auto; [apply incl_refl |].
  intros i c' ps m H1 H2 H3. apply (N c' ps m); auto. unfold enumerate in H1. apply in_combine_r in H1. auto.
Qed.

Lemma finish_pos : forall regs st t, In [t] (c_pos st) -> (forall ps, In ps regs -> over_match ps [t] = None) ->
  exists t', In [t'] (c_pos (finish regs st)) /\ Begins t t'.
Proof.
  intros regs st t H N. unfold finish. cbn [c_pos]. apply prune_positive_keeps. apply dedup_In. split; auto. apply overwrite_pos; auto.
Qed.
Lemma finish_pos_section : forall regs st c, In c (c_pos st) -> one_line c = None -> (forall ps, In ps regs -> over_match ps c = None) ->
  In c (c_pos (finish regs st)).
Proof.
  intros regs st c H O N. unfold finish. cbn [c_pos]. apply prune_positive_multi; auto. apply dedup_In. split; auto. apply overwrite_pos; auto.
Qed.
Lemma finish_neg : forall regs st t, In [t] (c_neg st) ->
  (forall c' ps m, In c' (c_pos st) -> In ps regs -> over_match ps c' = Some m -> neg_matches m [t] = false) ->
  exists t', In [t'] (c_neg (finish regs st)) /\ Begins t' t.
Proof.
  intros regs st t H N. unfold finish. cbn [c_neg]. apply (prune_negative_keeps _ [t]); auto. apply dedup_In. split; auto. apply overwrite_neg; auto.
Qed.

Lemma added_line : forall regs d k, In (It k None IPlus) d -> clean k -> k <> "" -> starts "no " k = false ->
  (forall ps, In ps regs -> re_match ps k = None) ->
  exists t, In [t] (c_pos (cli_lists regs d)) /\ Begins k t.
Proof.
  intros regs d k H C N S O. unfold cli_lists. apply finish_pos; auto.
  destruct (collect_item regs (positive_keys d) d (It k None IPlus) (Clis [] []) H) as (st & P & _). apply P.
  cbn [item_cli cli_item]. destruct k as [| a k]; [congruence |]. set (K := String a k) in *. unfold append_command.
  rewrite (handle_add K C). 2: { destruct (starts "no no " K) eqn:E; auto. apply starts_iff in E. destruct E as (r & E). assert (starts "no " K = true) by (apply starts_iff; rewrite E; exists ("no " ++ r)%string; reflexivity). congruence. }
  2: { intros sc Hs. destruct (starts sc K) eqn:E; auto. apply starts_iff in E. destruct E as (r & E). assert (starts "no " K = true); [| congruence].
       apply starts_iff. rewrite E. simpl in Hs. repeat (destruct Hs as [Hs | Hs]; [subst sc; eexists; simpl; reflexivity |]). destruct Hs. }
  rewrite S. cbn [c_pos]. apply in_or_app. right. left. auto.
Qed.

Lemma added_section : forall regs d k l, In (It k (Some l) IPlus) d -> k <> "" -> rstrip_lines (list2config None l) <> [] ->
  (forall ps, In ps regs -> over_match ps (k :: rstrip_lines (list2config None l)) = None) ->
  In (k :: rstrip_lines (list2config None l)) (c_pos (cli_lists regs d)).
Proof.
  intros regs d k l H N R O. unfold cli_lists. apply finish_pos_section; auto.
  2: { destruct (rstrip_lines (list2config None l)); [congruence | auto]. }
  destruct (collect_item regs (positive_keys d) d (It k (Some l) IPlus) (Clis [] []) H) as (st & P & _). apply P.
  cbn [item_cli cli_item]. destruct k as [| a k]; [congruence |]. cbn [c_pos]. apply in_or_app. right. left. auto.
Qed.

Lemma cli_item_src : forall pks sub x st c, In c (c_pos (cli_item pks sub x st)) -> In c (c_pos st) \/ MadeFrom x c.
Proof.
  intros pks sub [k v i] st c H. assert (A : forall q, In c (c_pos (append_command q st)) -> In c (c_pos st) \/ c = [fst (handle_command q)]).
  { intros q Q. unfold append_command in Q. destruct (handle_command q) as [t b]. destruct b; cbn [c_pos] in Q; auto. apply in_app_or in Q. destruct Q as [Q | [Q | []]]; auto. }
  unfold cli_item in H. destruct k as [| a k]; auto. set (K := String a k) in *. unfold MadeFrom. cbn [ikey]. destruct v as [l |].
  - destruct i; auto.
    + destruct (text_empty (fst sub)); destruct (text_empty (snd sub)); cbn [c_pos] in H; auto; apply in_app_or in H; destruct H as [H | [H | []]]; auto; right; left; eauto.
    + cbn [c_pos] in H. apply in_app_or in H. destruct H as [H | [H | []]]; auto. right. left. eauto.
    + apply A in H. destruct H; auto.
  - destruct i; auto. { apply A in H. destruct H; auto. } destruct (existsb (starts K) pks); auto. apply A in H. destruct H; auto.
Qed.

Lemma collect_src : forall regs pks l st c, In c (c_pos (collect regs pks l st)) -> In c (c_pos st) \/ exists x, In x l /\ MadeFrom x c.
Proof.
  induction l as [| x r IH]; intros st c H; simpl in H; auto. apply IH in H. destruct H as [H | (y & Y & H)]; [| right; exists y; split; [right; auto | auto]].
  destruct x as [k v i]. cbn [item_cli] in H. apply cli_item_src in H. destruct H as [H | H]; auto. right. exists (It k v i). split; [left; auto | auto].
Qed.

Lemma lstrip_u : forall u k, Begins u ("no " ++ k) -> u = ("no " ++ k)%string \/ In u (map strip short_no_commands) -> lstrip u = u.
Proof.
  intros u k B [E | I]; [subst; reflexivity |]. simpl in I. repeat (destruct I as [I | I]; [subst; reflexivity |]). destruct I.
Qed.

Lemma removed_line : forall regs d k v, In (It k v IMinus) d -> clean k -> k <> "" -> starts "no " k = false ->
  (exists k', In (It k' None IPlus) d /\ Begins k k' /\ v = None) \/
  (exists t, In [t] (c_neg (cli_lists regs d)) /\ Begins t ("no " ++ k)) \/
  (exists x c ps m u, In x d /\ MadeFrom x c /\ In ps regs /\ over_match ps c = Some m /\ handle_command ("no " ++ k) = (u, true) /\ Begins ("no " ++ lstrip m) u).
Proof.
  intros regs d k v H C N S.
  destruct (collect_item regs (positive_keys d) d (It k v IMinus) (Clis [] []) H) as (st & _ & P).
  destruct (handle_no k C N S) as (u & U1 & U2 & U3).
  assert (A : In [u] (c_neg (append_command ("no " ++ k) st)) ) by (unfold append_command; rewrite U1; cbn [c_neg]; apply in_or_app; right; left; auto).
  assert (G : (exists k', In (It k' None IPlus) d /\ Begins k k' /\ v = None) \/ In [u] (c_neg (item_cli regs (positive_keys d) (It k v IMinus) st))).
  { cbn [item_cli cli_item]. destruct k as [| a k]; [congruence |]. set (K := String a k) in *. destruct v as [l |]; auto.
    destruct (existsb (starts K) (positive_keys d)) eqn:E; auto. left. apply existsb_exists in E. destruct E as (k' & E1 & E2).
    unfold positive_keys in E1. apply in_map_iff in E1. destruct E1 as ([k0 v0 i0] & E3 & E4). apply filter_In in E4. destruct E4 as [E4 E5].
    simpl in E3, E5. subst k0. apply andb_true_iff in E5. destruct E5 as [E5 E6]. apply info_eqb_eq in E5. subst i0. destruct v0; [discriminate |].
    exists k'. split; auto. split; auto. apply starts_iff in E2. exact E2. }
  destruct G as [G | G]; auto. right. apply P in G.
  set (hit := fun c => existsb (fun ps => match over_match ps c with Some m => neg_matches m [u] | None => false end) regs).
  destruct (existsb hit (c_pos (collect regs (positive_keys d) d (Clis [] [])))) eqn:X.
  - right. apply existsb_exists in X. destruct X as (c & X1 & X2). apply existsb_exists in X2. destruct X2 as (ps & X2 & X3).
    destruct (over_match ps c) as [m |] eqn:M; [| discriminate]. apply collect_src in X1. destruct X1 as [[] | (x & X1 & X4)].
    exists x, c, ps, m, u. repeat (split; auto). unfold neg_matches in X3. rewrite (lstrip_u u k U2 U3) in X3. apply starts_iff in X3. exact X3.
  - left. unfold cli_lists. destruct (finish_neg regs (collect regs (positive_keys d) d (Clis [] [])) u G) as (t & T1 & T2).
    + intros c' ps m H1 H2 H3. destruct (neg_matches m [u]) eqn:NM; auto. exfalso. assert (Y : existsb hit (c_pos (collect regs (positive_keys d) d (Clis [] []))) = true).
      { apply existsb_exists. exists c'. split; auto. unfold hit. apply existsb_exists. exists ps. split; auto. rewrite H3. auto. }
      congruence.
    + exists t. split; auto. apply (Begins_trans t u); auto.
Qed.

Lemma filter_NoDup : forall (A : Type) (p : A -> bool) l, NoDup l -> NoDup (filter p l).
Proof.
  induction l as [| x r IH]; simpl; intro N; auto. inversion N as [| ? ? N1 N2]; subst. destruct (p x); auto. constructor; auto.
  intro H. apply filter_In in H. tauto.
Qed.

Lemma cli_NoDup : forall regs d, NoDup (c_pos (cli_lists regs d)) /\ NoDup (c_neg (cli_lists regs d)).
Proof. intros. unfold cli_lists, finish. cbn [c_pos c_neg]. split; apply filter_NoDup; apply dedup_NoDup. Qed.

(** ** Negative commands are not empty *)

Lemma handle_true : forall q u, handle_command q = (u, true) -> u <> "".
Proof.
  intros q u H. unfold handle_command in H. destruct (starts "no no " q); [discriminate |].
  destruct (find (fun sc => starts sc q) short_no_commands) as [sc |] eqn:F.
  - apply find_some in F. destruct F as [F _]. injection H as H. subst u. simpl in F. repeat (destruct F as [F | F]; [subst; discriminate |]). destruct F.
  - destruct (starts "no " q) eqn:S; [| discriminate]. injection H as H. subst u. apply starts_iff in S. destruct S as (r & S). subst q.
    unfold strip. assert (E : lstrip ("no " ++ r) = ("no " ++ r)%string) by reflexivity. rewrite E. cbn. destruct (rstrip r); discriminate.
Qed.

Definition headed (c : cmd) : Prop := match c with [] => False | t :: _ => t <> "" end.
Lemma cli_item_neg : forall pks sub x st c, In c (c_neg (cli_item pks sub x st)) -> In c (c_neg st) \/ headed c.
Proof.
  intros pks sub [k v i] st c H. assert (A : forall q, In c (c_neg (append_command q st)) -> In c (c_neg st) \/ headed c).
  { intros q Q. unfold append_command in Q. destruct (handle_command q) as [t b] eqn:E. destruct b; cbn [c_neg] in Q; auto. apply in_app_or in Q. destruct Q as [Q | [Q | []]]; auto.
    subst. right. simpl. apply (handle_true q). auto. }
  unfold cli_item in H. destruct k as [| a k]; auto. set (K := String a k) in *. assert (N : K <> "") by discriminate. destruct v as [l |].
  - destruct i; auto; try solve [apply A in H; auto]. destruct (text_empty (fst sub)); destruct (text_empty (snd sub)); cbn [c_neg] in H; auto; apply in_app_or in H; destruct H as [H | [H | []]]; auto; right; subst; exact N.
  - destruct i; auto; try solve [apply A in H; auto]; destruct (existsb (starts K) pks); auto; apply A in H; auto.
Qed.
Lemma collect_neg : forall regs pks l st c, In c (c_neg (collect regs pks l st)) -> In c (c_neg st) \/ headed c.
Proof.
  induction l as [| x r IH]; intros st c H; simpl in H; auto. apply IH in H. destruct H as [H | H]; auto.
  destruct x as [k v i]. cbn [item_cli] in H. apply cli_item_neg in H. auto.
Qed.
Lemma del_first_incl : forall (A : Type) (p : A -> bool) l x, In x (del_first p l) -> In x l.
Proof. induction l as [| y r IH]; intros x H; auto. simpl in H. destruct (p y); [right; auto | destruct H; [left; auto | right; auto]]. Qed.
Lemma overwrite_neg_incl : forall regs st c, In c (c_neg (overwrite regs st)) -> In c (c_neg st).
Proof.
  intros regs st c. unfold overwrite. cbn [c_neg]. assert (G : forall ps l o, In c (o_neg (fold_left (over_step ps) l o)) -> In c (o_neg o)).
  { induction l as [| [i c'] l IH]; intros o H; auto. cbn [fold_left] in H. apply IH in H. unfold over_step in H. destruct (over_match ps c'); auto. cbn [o_neg] in H. apply del_first_incl in H. auto. }
  assert (G2 : forall pos rs o, In c (o_neg (fold_left (fun o ps => fold_left (over_step ps) pos o) rs o)) -> In c (o_neg o)).
  { induction rs as [| ps rs IH]; intros o H; auto. cbn [fold_left] in H. apply IH in H. apply G in H. auto. }
  intro H. apply G2 in H. auto.
Qed.
Lemma cli_neg_nonempty : forall regs d t, In [t] (c_neg (cli_lists regs d)) -> t <> "".
Proof.
  intros regs d t H. unfold cli_lists, finish in H. cbn [c_neg] in H. apply prune_negative_incl in H. apply dedup_In in H. destruct H as [H _].
  apply overwrite_neg_incl in H. apply (collect_neg regs (positive_keys d) d) in H. destruct H as [[] | H]. exact H.
Qed.
