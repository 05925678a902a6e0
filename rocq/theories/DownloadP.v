(** Proofs about the download phase. *)
From Coq Require Import String Ascii List Bool Arith Lia.
From Verif Require Import Base DownloadM DownloadSpec TagP.
Import ListNotations.
Open Scope string_scope.
Open Scope list_scope.
Open Scope nat_scope.

(** ** Lists of workers *)

Definition total {A} (f : A -> nat) (l : list A) : nat := fold_right (fun x n => f x + n) 0 l.

Lemma total_set : forall A (f : A -> nat) l i x y, nth_error l i = Some x ->
  total f (set_nth i y l) + f x = total f l + f y.
Proof.
  induction l as [|z l IH]; intros [|i] x y H; simpl in *; try discriminate.
  - injection H as ->. lia.
  - specialize (IH i x y H). lia.
Qed.

Lemma set_length : forall A (l : list A) i y, length (set_nth i y l) = length l.
Proof. induction l as [|z l IH]; intros [|i] y; simpl; auto. Qed.

Lemma In_set : forall A (l : list A) i y z, In z (set_nth i y l) -> z = y \/ In z l.
Proof.
  induction l as [|x l IH]; intros [|i] y z H; simpl in *; intuition.
  destruct (IH _ _ _ H0); auto.
Qed.

Lemma set_In : forall A (l : list A) i x y, nth_error l i = Some x -> In y (set_nth i y l).
Proof.
  induction l as [|z l IH]; intros [|i] x y H; simpl in *; try discriminate; auto.
  right. eapply IH; eauto.
Qed.

Lemma keep_In : forall A (l : list A) i x y z, nth_error l i = Some x -> In z l ->
  z = x \/ In z (set_nth i y l).
Proof.
  induction l as [|v l IH]; intros [|i] x y z H Hz; simpl in *; try discriminate; try contradiction.
  - injection H as ->. destruct Hz; auto.
  - destruct Hz as [-> | Hz]; auto. destruct (IH _ _ y _ H Hz); auto.
Qed.

Lemma total_zero : forall A (f : A -> nat) l x, total f l = 0 -> In x l -> f x = 0.
Proof. induction l as [|y l IH]; simpl; intros x H Hx; [contradiction|]. destruct Hx as [-> | Hx]; [lia | apply IH; auto; lia]. Qed.

Lemma total_in : forall A (f : A -> nat) l x, In x l -> f x <= total f l.
Proof. induction l as [|y l IH]; simpl; intros x H; [contradiction|]. destruct H as [-> | H]; [lia|]. specialize (IH _ H). lia. Qed.

Lemma total_le : forall A (f : A -> nat) k l, (forall x, f x <= k) -> total f l <= k * length l.
Proof. induction l as [|y l IH]; simpl; intros H; [lia|]. specialize (IH H). specialize (H y). lia. Qed.

Lemma total_repeat : forall A (f : A -> nat) x n, f x = 0 -> total f (repeat x n) = 0.
Proof. induction n; simpl; intros H; auto. rewrite H. auto. Qed.

Lemma nth_In : forall A (l : list A) i x, nth_error l i = Some x -> In x l.
Proof. intros. eapply nth_error_In; eauto. Qed.

Lemma minus_In : forall x D T, In x (minus D T) <-> In x D /\ ~ In x T.
Proof.
  intros x D T. unfold minus. rewrite filter_In, negb_true_iff.
  assert (M : mem String.eqb x T = true <-> In x T) by apply mem_string.
  destruct (mem String.eqb x T); intuition; discriminate.
Qed.

Lemma minus_NoDup : forall D T, NoDup D -> NoDup (minus D T).
Proof. intros. apply NoDup_filter. auto. Qed.

Lemma minus_times : forall x D T, NoDup D -> times x (minus D T) <= 1.
Proof.
  intros x D T H. unfold times.
  apply (proj1 (NoDup_count_occ string_dec (minus D T))). apply minus_NoDup; auto.
Qed.

(** ** Inversion of a step *)

Lemma step_inv : forall ans st st', step ans st st' ->
  exists i o w g w', nth_error (workers st) i = Some w /\ may_ask ans w o /\
    wstep o (sh st) w = Some (g, w') /\ st' = State g (set_nth i w' (workers st)).
Proof.
  intros ans st st' (i & o & w & Hi & Ha & Hm). unfold move in Hm. rewrite Hi in Hm.
  destruct (wstep o (sh st) w) as [[g w']|] eqn:E; [|discriminate].
  injection Hm as <-. exists i, o, w, g, w'. auto.
Qed.

Lemma steps_ind : forall (ans : string -> outcome -> Prop) (I : state -> Prop) s0,
  I s0 -> (forall s t, I s -> step ans s t -> I t) ->
  forall s, Steps (step ans) s0 s -> I s.
Proof. intros ans I s0 H0 Hs s H. induction H; eauto. Qed.

(** ** The counter of the queue *)

Definition busy (w : worker) : nat :=
  match w with WTop | WGet | WExit => 0 | _ => 1 end.

Definition counted (st : state) : Prop :=
  unfinished (sh st) = length (queue (sh st)) + total busy (workers st).

Lemma counted_step : forall ans s t, counted s -> step ans s t -> counted t.
Proof.
  intros ans s t H St. destruct (step_inv _ _ _ St) as (i & o & w & g & w' & Hi & _ & Hw & ->).
  unfold counted in *. pose proof (total_set _ busy _ _ _ w' Hi) as E.
  pose proof (total_in _ busy _ _ (nth_In _ _ _ _ Hi)) as Hb.
  destruct s as [[q u t a l] ws]; cbn [sh workers unfinished queue] in *.
  destruct w as [| |m|D|s|[|m r]| |]; cbn [wstep] in Hw.
  - destruct q; injection Hw as <- <-; cbn in *; lia.
  - destruct q; injection Hw as <- <-; cbn in *; lia.
  - injection Hw as <- <-. destruct o; cbn in *; lia.
  - injection Hw as <- <-. destruct (minus D t); cbn in *; lia.
  - injection Hw as <- <-; cbn in *; lia.
  - injection Hw as <- <-; cbn in *; lia.
  - injection Hw as <- <-; cbn in *. rewrite app_length. cbn. lia.
  - destruct u; injection Hw as <- <-; cbn in *; lia.
  - discriminate.
Qed.

Lemma counted_start : forall n roots, counted (start n roots).
Proof.
  intros. unfold counted, start. cbn [sh workers unfinished queue]. rewrite total_repeat; auto.
Qed.

Lemma counted_all : forall ans n roots st, Steps (step ans) (start n roots) st -> counted st.
Proof.
  intros ans n roots st. apply steps_ind; [apply counted_start | apply counted_step].
Qed.

(** ** Somebody looks after a queue that is not empty *)

Definition alive (w : worker) : Prop := w <> WExit.

Definition watched (st : state) : Prop :=
  queue (sh st) = [] \/ exists w, In w (workers st) /\ alive w.

Lemma watched_step : forall ans s t, counted s -> watched s -> step ans s t -> watched t.
Proof.
  intros ans s t C H St. destruct (step_inv _ _ _ St) as (i & o & w & g & w' & Hi & _ & Hw & ->).
  unfold watched in *. pose proof (set_In _ _ _ _ w' Hi) as Hin. unfold counted in C.
  pose proof (total_in _ busy _ _ (nth_In _ _ _ _ Hi)) as Hb.
  destruct s as [[q u t a l] ws]; cbn [sh workers unfinished queue] in *.
  destruct w as [| |m|D|s|[|m r]| |]; cbn [wstep] in Hw; try discriminate.
  - destruct q; injection Hw as <- <-; cbn; auto. right. exists WGet. split; auto. discriminate.
  - destruct q; injection Hw as <- <-; cbn; auto. right. eexists; split; eauto. discriminate.
  - injection Hw as <- <-. right. eexists; split; eauto. destruct o; discriminate.
  - injection Hw as <- <-. right. eexists; split; eauto. destruct (minus D t); discriminate.
  - injection Hw as <- <-. right. eexists; split; eauto. discriminate.
  - injection Hw as <- <-. right. eexists; split; eauto. discriminate.
  - injection Hw as <- <-. right. eexists; split; eauto. discriminate.
  - destruct u; injection Hw as <- <-; cbn in *; [lia|]. right. eexists; split; eauto. discriminate.
Qed.

Lemma watched_all : forall ans n roots st, 0 < n -> Steps (step ans) (start n roots) st -> watched st.
Proof.
  intros ans n roots st Hn H.
  assert (counted st /\ watched st) as [_ W]; auto.
  revert st H. apply steps_ind.
  - split; [apply counted_start|]. right. exists WTop. split; [|discriminate].
    destruct n; [lia | left; reflexivity].
  - intros s t [C W] St. split; [eapply counted_step; eauto | eapply watched_step; eauto].
Qed.

(** A worker that can still move does not wait for ever. *)
Lemma alive_moves : forall (ans : string -> outcome -> Prop) st w, (forall m, exists o, ans m o) ->
  In w (workers st) -> alive w -> exists st', step ans st st'.
Proof.
  intros ans st w Ha Hw Al. destruct (In_nth_error _ _ Hw) as [i Hi].
  assert (exists o, may_ask ans w o) as [o Ho].
  { destruct w; try (exists Failed; exact I). apply Ha. }
  assert (exists g w', wstep o (sh st) w = Some (g, w')) as (g & w' & E).
  { destruct st as [[q u t a l] ws]; cbn [sh].
    destruct w as [| |m|D|s|[|m r]| |]; cbn [wstep]; eauto;
      try (destruct q; eauto; fail); try (destruct u; eauto; fail). contradiction Al; auto. }
  exists (State g (set_nth i w' (workers st))), i, o, w. unfold move. rewrite Hi, E. auto.
Qed.

Lemma busy_alive : forall w, busy w <> 0 -> alive w.
Proof. intros w H E. subst. apply H. reflexivity. Qed.

Theorem stuck_joined : forall (ans : string -> outcome -> Prop) n roots st, 0 < n -> (forall m, exists o, ans m o) ->
  Steps (step ans) (start n roots) st -> Stuck (step ans) st -> joined st.
Proof.
  intros ans n roots st Hn Ha H St.
  pose proof (counted_all _ _ _ _ H) as C. pose proof (watched_all _ _ _ _ Hn H) as W.
  assert (D : forall w, In w (workers st) -> ~ alive w).
  { intros w Hw Al. destruct (alive_moves ans st w Ha Hw Al) as [st' E]. eapply St; eauto. }
  assert (Q : queue (sh st) = []).
  { destruct W as [W | (w & Hw & Al)]; auto. exfalso. eapply D; eauto. }
  unfold joined. rewrite C, Q. cbn.
  assert (B : forall ws, (forall w, In w ws -> ~ alive w) -> total busy ws = 0).
  { induction ws as [|w ws IH]; intros Hd; auto. change (total busy (w :: ws)) with (busy w + total busy ws). rewrite IH by (intros; apply Hd; right; auto).
    destruct (busy w) eqn:E; auto. exfalso. apply (Hd w); [left; auto|]. apply busy_alive. lia. }
  apply B; auto.
Qed.

(** ** Every name is somewhere *)

Definition held (m : string) (w : worker) : Prop :=
  match w with WHave x => x = m | WPut l => In m l | _ => False end.
Definition noted (m : string) (w : worker) : Prop :=
  match w with WDeps D => In m D | WAdd s => In m s | _ => False end.

Definition tracked (roots : list string) (st : state) : Prop :=
  (forall m, In m (tobe (sh st)) ->
     In m (queue (sh st)) \/ In m (map fst (asked (sh st))) \/ exists w, In w (workers st) /\ held m w) /\
  (forall m D d, In (m, Read D) (asked (sh st)) -> In d D ->
     In d (tobe (sh st)) \/ exists w, In w (workers st) /\ noted d w) /\
  incl roots (tobe (sh st)) /\
  (forall m, In m (queued (sh st)) -> In m (tobe (sh st))) /\
  (forall w m, In w (workers st) -> (exists l, w = WPut l /\ In m l) -> In m (tobe (sh st))).

Ltac find_worker Hi w' z :=
  match goal with
  | H : In z ?ws |- _ => destruct (keep_In _ _ _ _ w' _ Hi H) as [-> | ?]
  end.

Lemma tracked_step : forall ans roots s t, tracked roots s -> step ans s t -> tracked roots t.
Proof.
  intros ans roots s t (T1 & T2 & T3 & T4 & T5) St.
  destruct (step_inv _ _ _ St) as (i & o & w & g & w' & Hi & _ & Hw & ->).
  pose proof (set_In _ _ _ _ w' Hi) as Hin.
  pose proof (fun z => keep_In _ _ _ _ w' z Hi) as K.
  pose proof (fun z => In_set _ (workers s) i w' z) as IS.
  pose proof (nth_In _ _ _ _ Hi) as Hwin.
  destruct s as [[q u t a l] ws]; cbn [sh workers unfinished queue tobe asked queued] in *.
  (* facts shared by all cases in which no list of names changes *)
  assert (Same : g = Shared q u t a l -> (forall m, held m w -> held m w') ->
            (forall m, noted m w -> noted m w' \/ In m t) ->
            (forall m l0, w' = WPut l0 -> In m l0 -> In m t) ->
            tracked roots (State g (set_nth i w' ws))).
  { intros -> Hh Hn Hp. split; [|split; [|split; [|split]]]; cbn [sh workers queue tobe asked queued].
    - intros m Hm. destruct (T1 m Hm) as [?|[?|(z & Hz & Hd)]]; auto. right; right.
      destruct (K z Hz) as [-> | ?]; [exists w'; split; auto | exists z; auto].
    - intros m D d H1 H2. destruct (T2 m D d H1 H2) as [?|(z & Hz & Hd)]; auto.
      destruct (K z Hz) as [-> | ?]; [destruct (Hn _ Hd); auto; right; exists w'; auto | right; exists z; auto].
    - auto.
    - auto.
    - intros z m Hz (l0 & -> & Hm). destruct (IS _ Hz) as [E | ?]; [symmetry in E; eapply Hp; eauto | eapply T5; eauto]. }
  destruct w as [| |m0|D0|s0|[|m0 r]| |]; cbn [wstep] in Hw; try discriminate.
  - (* WTop *) destruct q; injection Hw as <- <-; apply Same; cbn; auto; try (intros; contradiction); discriminate.
  - (* WGet *) destruct q as [|m0 q]; injection Hw as <- <-.
    + apply Same; cbn; auto; try (intros; contradiction); discriminate.
    + split; [|split; [|split; [|split]]]; cbn [sh workers queue tobe asked queued].
      * intros m Hm. destruct (T1 m Hm) as [[->|?]|[?|(z & Hz & Hd)]]; auto.
        -- right; right. exists (WHave m). cbn. auto.
        -- right; right. destruct (K z Hz) as [-> | ?]; [contradiction | exists z; auto].
      * intros m D d H1 H2. destruct (T2 m D d H1 H2) as [?|(z & Hz & Hd)]; auto.
        destruct (K z Hz) as [-> | ?]; [contradiction | right; exists z; auto].
      * auto.
      * auto.
      * intros z m Hz (l0 & -> & Hm). destruct (IS _ Hz) as [E | ?]; [discriminate | eapply T5; eauto].
  - (* WHave *) injection Hw as <- <-.
    split; [|split; [|split; [|split]]]; cbn [sh workers queue tobe asked queued map fst].
    + intros m Hm. destruct (T1 m Hm) as [?|[?|(z & Hz & Hd)]]; auto.
      * right; left; right; auto.
      * destruct (K z Hz) as [-> | ?]; [cbn in Hd; subst; right; left; left; auto | right; right; exists z; auto].
    + intros m D d [H1|H1] H2.
      * injection H1 as -> ->. right. eexists. split; [exact Hin|]. cbn. auto.
      * destruct (T2 m D d H1 H2) as [?|(z & Hz & Hd)]; auto.
        destruct (K z Hz) as [-> | ?]; [contradiction | right; exists z; auto].
    + auto.
    + auto.
    + intros z m Hz (l0 & -> & Hm). destruct (IS _ Hz) as [E | ?]; [destruct o; discriminate | eapply T5; eauto].
  - (* WDeps *) injection Hw as <- <-.
    assert (N : forall m, In m D0 -> In m (minus D0 t) \/ In m t).
    { intros m Hm. destruct (in_dec string_dec m t); auto. left. apply minus_In. auto. }
    apply Same; auto.
    + intros m Hm. contradiction.
    + intros m Hm. destruct (N m Hm) as [H|H]; auto. destruct (minus D0 t) as [|x y]; [contradiction | left; exact H].
    + intros m l0 E. destruct (minus D0 t); discriminate.
  - (* WAdd *) injection Hw as <- <-.
    assert (N : forall m, In m s0 -> In m (t ++ minus s0 t)).
    { intros m Hm. apply in_or_app. destruct (in_dec string_dec m t); auto. right. apply minus_In. auto. }
    split; [|split; [|split; [|split]]]; cbn [sh workers queue tobe asked queued].
    + intros m Hm. apply in_app_or in Hm as [Hm|Hm].
      * destruct (T1 m Hm) as [?|[?|(z & Hz & Hd)]]; auto. right; right.
        destruct (K z Hz) as [-> | ?]; [contradiction | exists z; auto].
      * right; right. exists (WPut s0). split; auto. apply minus_In in Hm. tauto.
    + intros m D d H1 H2. destruct (T2 m D d H1 H2) as [?|(z & Hz & Hd)]; [left; apply in_or_app; auto|].
      destruct (K z Hz) as [-> | ?]; [left; apply N; auto | right; exists z; auto].
    + intros x Hx. apply in_or_app. auto.
    + intros x Hx. apply in_or_app. auto.
    + intros z m Hz (l0 & -> & Hm). destruct (IS _ Hz) as [E | ?].
      * injection E as ->. apply N; auto.
      * apply in_or_app. left. eapply T5; eauto.
  - (* WPut [] *) injection Hw as <- <-. apply Same; cbn; auto; discriminate.
  - (* WPut *) injection Hw as <- <-.
    assert (P : forall m, In m (m0 :: r) -> In m t) by (intros m Hm; eapply T5; eauto).
    split; [|split; [|split; [|split]]]; cbn [sh workers queue tobe asked queued].
    + intros m Hm. destruct (T1 m Hm) as [?|[?|(z & Hz & Hd)]]; auto.
      * left. apply in_or_app; auto.
      * destruct (K z Hz) as [-> | ?]; [|right; right; exists z; auto].
        destruct Hd as [->|Hd]; [left; apply in_or_app; cbn; auto | right; right; exists (WPut r); auto].
    + intros m D d H1 H2. destruct (T2 m D d H1 H2) as [?|(z & Hz & Hd)]; auto.
      destruct (K z Hz) as [-> | ?]; [contradiction | right; exists z; auto].
    + auto.
    + intros m [->|Hm]; auto. apply P; left; auto.
    + intros z m Hz (l0 & -> & Hm). destruct (IS _ Hz) as [E | ?]; [injection E as ->; apply P; right; auto | eapply T5; eauto].
  - (* WDone *) destruct u; injection Hw as <- <-.
    + apply Same; cbn; auto; discriminate.
    + split; [|split; [|split; [|split]]]; cbn [sh workers queue tobe asked queued].
      * intros m Hm. destruct (T1 m Hm) as [?|[?|(z & Hz & Hd)]]; auto. right; right.
        destruct (K z Hz) as [-> | ?]; [contradiction | exists z; auto].
      * intros m D d H1 H2. destruct (T2 m D d H1 H2) as [?|(z & Hz & Hd)]; auto.
        destruct (K z Hz) as [-> | ?]; [contradiction | right; exists z; auto].
      * auto.
      * auto.
      * intros z m Hz (l0 & -> & Hm). destruct (IS _ Hz) as [E | ?]; [discriminate | eapply T5; eauto].
Qed.

Lemma tracked_all : forall ans n roots st, Steps (step ans) (start n roots) st -> tracked roots st.
Proof.
  intros ans n roots st. apply steps_ind; [|apply tracked_step].
  split; [|split; [|split; [|split]]]; cbn; auto.
  - intros; contradiction.
  - apply incl_refl.
  - intros w m Hw (l & -> & Hm). apply repeat_spec in Hw. discriminate.
Qed.

Lemma joined_idle : forall st, counted st -> joined st ->
  queue (sh st) = [] /\ forall w, In w (workers st) -> busy w = 0.
Proof.
  intros st C J. unfold counted, joined in *.
  assert (length (queue (sh st)) = 0 /\ total busy (workers st) = 0) as [Q B] by lia.
  split; [destruct (queue (sh st)); [auto | discriminate] |].
  intros w Hw. eapply total_zero; eauto.
Qed.

Lemma joined_asked : forall roots st, counted st -> tracked roots st -> joined st ->
  forall m, In m (tobe (sh st)) -> In m (map fst (asked (sh st))).
Proof.
  intros roots st C (T1 & _) J m Hm. destruct (joined_idle st C J) as [Q B].
  destruct (T1 m Hm) as [H|[H|(w & Hw & Hd)]]; auto.
  - rewrite Q in H. contradiction.
  - specialize (B w Hw). destruct w; cbn in *; try contradiction; discriminate.
Qed.

Theorem joined_served : forall ans n roots st, Steps (step ans) (start n roots) st -> joined st ->
  forall m, In m (queued (sh st)) -> In m (map fst (asked (sh st))).
Proof.
  intros ans n roots st H J m Hm. pose proof (tracked_all _ _ _ _ H) as T.
  eapply joined_asked; eauto using counted_all. apply T. auto.
Qed.

Theorem joined_closed : forall ans n roots st, Steps (step ans) (start n roots) st -> joined st ->
  forall m, Reach roots (fun x d => exists D, In (x, Read D) (asked (sh st)) /\ In d D) m ->
  In m (map fst (asked (sh st))).
Proof.
  intros ans n roots st H J m R. pose proof (tracked_all _ _ _ _ H) as T.
  pose proof (counted_all _ _ _ _ H) as C. destruct (joined_idle st C J) as [_ B].
  eapply joined_asked; eauto. destruct T as (_ & T2 & T3 & _).
  destruct R as [m Hm | m d R (D & H1 & H2)]; auto.
  destruct (T2 m D d H1 H2) as [?|(w & Hw & Hd)]; auto.
  specialize (B w Hw). destruct w; cbn in *; try contradiction; discriminate.
Qed.

(** Once [join] has returned, no request is made any more. *)
Theorem joined_final : forall ans n roots st st', Steps (step ans) (start n roots) st -> joined st ->
  Steps (step ans) st st' -> joined st' /\ asked (sh st') = asked (sh st).
Proof.
  intros ans n roots st st' H J H'. pose proof (counted_all _ _ _ _ H) as C.
  assert (counted st' /\ joined st' /\ asked (sh st') = asked (sh st)) as (_ & ? & ?); auto.
  revert st' H'. apply steps_ind; [auto|].
  intros s t (Cs & Js & Es) St. split; [eapply counted_step; eauto|].
  destruct (joined_idle s Cs Js) as [Q B].
  destruct (step_inv _ _ _ St) as (i & o & w & g & w' & Hi & _ & Hw & ->).
  specialize (B w (nth_In _ _ _ _ Hi)). unfold joined in *.
  destruct s as [[q u t a l] ws]; cbn [sh workers unfinished queue tobe asked queued] in *. subst q.
  destruct w; try discriminate; cbn [wstep] in Hw; try discriminate; injection Hw as <- <-; auto.
Qed.

(** ** How often a module is asked for *)

Definition b2n (b : bool) : nat := if b then 1 else 0.
Definition own (m : string) (w : worker) : nat :=
  match w with WHave x => times m [x] | WPut l => times m l | _ => 0 end.
Definition plan (m : string) (w : worker) : nat :=
  match w with WAdd s => times m s | _ => 0 end.
Definition done (m : string) (st : state) : nat :=
  times m (map fst (asked (sh st))) + times m (queue (sh st)) + total (own m) (workers st).

Lemma times_app : forall m a b, times m (a ++ b) = times m a + times m b.
Proof. intros. apply count_occ_app. Qed.
Lemma times_cons : forall m x l, times m (x :: l) = times m [x] + times m l.
Proof. intros. exact (times_app m [x] l). Qed.
Lemma times_not : forall m l, ~ In m l -> times m l = 0.
Proof. intros. apply count_occ_not_In. auto. Qed.

Definition once (w : worker) : Prop := match w with WDeps D => NoDup D | WAdd s => NoDup s | _ => True end.

Definition fair (n : nat) (m : string) (st : state) : Prop :=
  length (workers st) = n /\ (forall w, In w (workers st) -> once w) /\
  (~ In m (tobe (sh st)) -> done m st = 0) /\
  done m st + total (plan m) (workers st) <= n.

Lemma plan_le : forall m w, once w -> plan m w <= 1.
Proof.
  intros m [] H; cbn in *; try lia. unfold times.
  apply (proj1 (NoDup_count_occ string_dec s)). auto.
Qed.

Lemma total_plan : forall m ws, (forall w, In w ws -> once w) -> total (plan m) ws <= length ws.
Proof.
  induction ws as [|w ws IH]; intros H; [auto|].
  change (total (plan m) (w :: ws)) with (plan m w + total (plan m) ws). cbn [length].
  assert (plan m w <= 1) by (apply plan_le, H; left; auto).
  assert (total (plan m) ws <= length ws) by (apply IH; intros; apply H; right; auto). lia.
Qed.

Lemma fair_step : forall (ans : string -> outcome -> Prop) n m s t, (forall x D, ans x (Read D) -> NoDup D) ->
  fair n m s -> step ans s t -> fair n m t.
Proof.
  intros ans n m s t HA (L & O & Z & F) St.
  destruct (step_inv _ _ _ St) as (i & o & w & g & w' & Hi & Ho & Hw & ->).
  pose proof (total_set _ (own m) _ _ _ w' Hi) as E1.
  pose proof (total_set _ (plan m) _ _ _ w' Hi) as E2.
  pose proof (O w (nth_In _ _ _ _ Hi)) as Ow.
  assert (O' : once w' -> forall z, In z (set_nth i w' (workers s)) -> once z).
  { intros H z Hz. destruct (In_set _ _ _ _ _ Hz) as [-> | Hz']; auto. }
  assert (L' : length (set_nth i w' (workers s)) = n) by (rewrite set_length; auto).
  assert (P' : once w' -> total (plan m) (set_nth i w' (workers s)) <= n).
  { intros H. rewrite <- L'. apply total_plan, O'; auto. }
  unfold fair, done in *. destruct s as [[q u t a l] ws]; cbn [sh workers unfinished queue tobe asked queued] in *.
  destruct w as [| |m0|D0|s0|[|m0 r]| |]; cbn [wstep] in Hw; try discriminate.
  - destruct q; injection Hw as <- <-; cbn [sh workers queue tobe asked queued own plan once] in *; intuition lia.
  - destruct q as [|m0 q]; injection Hw as <- <-; cbn [sh workers queue tobe asked queued own plan once] in *.
    + intuition lia.
    + rewrite (times_cons m m0 q) in *. intuition lia.
  - injection Hw as <- <-; cbn [sh workers queue tobe asked queued own plan once map fst] in *.
    rewrite (times_cons m m0 (map fst a)). destruct o; cbn [own plan once] in *; try (intuition lia).
    specialize (HA m0 D Ho). intuition lia.
  - injection Hw as <- <-. cbn [sh workers queue tobe asked queued own plan once] in *.
    destruct (minus D0 t) as [|x y] eqn:M; cbn [own plan once] in *; [intuition lia|].
    assert (ND : NoDup (x :: y)) by (rewrite <- M; apply minus_NoDup; auto).
    split; [auto|]. split; [auto|]. split; [intros H; specialize (Z H); lia|].
    destruct (in_dec string_dec m t) as [It|It].
    + assert (times m (x :: y) = 0) by (apply times_not; rewrite <- M; rewrite minus_In; tauto). lia.
    + specialize (Z It). specialize (P' ND). lia.
  - injection Hw as <- <-. cbn [sh workers queue tobe asked queued own plan once] in *.
    split; [auto|]. split; [auto|]. split; [|lia].
    intros H. assert (~ In m t) as Ht by (intros X; apply H, in_or_app; auto).
    specialize (Z Ht). assert (times m s0 = 0).
    { apply times_not. intros X. apply H, in_or_app. right. apply minus_In. auto. }
    lia.
  - injection Hw as <- <-; cbn [sh workers queue tobe asked queued own plan once] in *; intuition lia.
  - injection Hw as <- <-; cbn [sh workers queue tobe asked queued own plan once] in *.
    rewrite times_app. rewrite (times_cons m m0 r) in *. intuition lia.
  - destruct u; injection Hw as <- <-; cbn [sh workers queue tobe asked queued own plan once] in *; intuition lia.
Qed.

Theorem asked_at_most : forall (ans : string -> outcome -> Prop) n roots st m, 0 < n -> NoDup roots ->
  (forall x D, ans x (Read D) -> NoDup D) ->
  Steps (step ans) (start n roots) st -> times m (map fst (asked (sh st))) <= n.
Proof.
  intros ans n roots st m Hn ND HA H.
  assert (fair n m st) as F.
  { revert st H. apply steps_ind; [|intros; eapply fair_step; eauto].
    unfold fair, done, start. cbn [sh workers unfinished queue tobe asked queued map].
    assert (forall k, total (own m) (repeat WTop k) = 0) as E1 by (intros; apply total_repeat; auto).
    assert (forall k, total (plan m) (repeat WTop k) = 0) as E2 by (intros; apply total_repeat; auto).
    rewrite E1, E2, repeat_length. split; [auto|]. split; [|split].
    - intros w Hw. apply repeat_spec in Hw. subst. exact I.
    - intros X. rewrite (times_not m roots X). reflexivity.
    - assert (times m roots <= 1) by (apply (proj1 (NoDup_count_occ string_dec roots) ND)).
      change (times m []) with 0. lia. }
  destruct F as (_ & _ & _ & F). unfold done in F. lia.
Qed.

(** ** Every execution ends *)

Definition free (U : list string) (st : state) : nat := length (minus U (tobe (sh st))).

Definition wcost (n : nat) (e : bool) (t : list string) (w : worker) : nat :=
  match w with
  | WTop => if e then 1 else 2
  | WGet => if e then 2 else 1
  | WHave _ => 10
  | WDeps _ => 9
  | WAdd s => match minus s t with [] => length s * (2 * n + 30) + 8 | _ => 0 end
  | WPut l => length l * (2 * n + 30) + 4
  | WDone => 3
  | WExit => 0
  end.

Definition isnil {A} (l : list A) : bool := match l with [] => true | _ => false end.

Definition cost (n : nat) (st : state) : nat :=
  length (queue (sh st)) * (n + 20) + total (wcost n (isnil (queue (sh st))) (tobe (sh st))) (workers st).

Lemma total_flip : forall n e e' t ws,
  total (wcost n e t) ws <= total (wcost n e' t) ws + length ws.
Proof.
  intros n e e' t ws. induction ws as [|w ws IH]; simpl; auto.
  assert (wcost n e t w <= wcost n e' t w + 1) by (destruct w, e, e'; simpl; lia). lia.
Qed.

Definition within (U : list string) (w : worker) : Prop :=
  match w with WDeps D => incl D U | WAdd s => incl s U | _ => True end.

Lemma minus_mono : forall U T T', incl T T' -> length (minus U T') <= length (minus U T).
Proof.
  intros U T T' H. unfold minus. induction U as [|x U IH]; simpl; auto.
  assert (M : mem String.eqb x T = true -> mem String.eqb x T' = true).
  { intros E. apply mem_string. apply H. apply mem_string. auto. }
  destruct (mem String.eqb x T) eqn:E1; destruct (mem String.eqb x T') eqn:E2; simpl; try lia; try (specialize (M eq_refl); discriminate).
Qed.

Lemma minus_drop : forall U T T' x, incl T T' -> In x U -> ~ In x T -> In x T' ->
  length (minus U T') < length (minus U T).
Proof.
  intros U T T' x Hi. induction U as [|y U IH]; simpl; intros Hx HT HT'; [contradiction|].
  pose proof (minus_mono U T T' Hi) as Hm. unfold minus in *.
  assert (M : mem String.eqb y T = true -> mem String.eqb y T' = true).
  { intros E. apply mem_string. apply Hi. apply mem_string. auto. }
  destruct (string_dec y x) as [->|N].
  - assert (mem String.eqb x T = false) as ->.
    { destruct (mem String.eqb x T) eqn:E; auto. exfalso. apply HT. apply mem_string; auto. }
    assert (mem String.eqb x T' = true) as -> by (apply mem_string; auto).
    simpl. lia.
  - destruct Hx as [->|Hx]; [contradiction N; auto|]. specialize (IH Hx HT HT').
    destruct (mem String.eqb y T) eqn:E1; destruct (mem String.eqb y T') eqn:E2; simpl; try lia; try (specialize (M eq_refl); discriminate).
Qed.

Definition inside (U : list string) (n : nat) (st : state) : Prop :=
  length (workers st) = n /\ forall w, In w (workers st) -> within U w.

Lemma inside_step : forall (ans : string -> outcome -> Prop) U n s t, (forall x D, ans x (Read D) -> incl D U) ->
  inside U n s -> step ans s t -> inside U n t.
Proof.
  intros ans U n s t HA (L & H) St.
  destruct (step_inv _ _ _ St) as (i & o & w & g & w' & Hi & Ho & Hw & ->).
  specialize (H w (nth_In _ _ _ _ Hi)) as Hww. split; cbn [workers]; [rewrite set_length; auto|].
  intros z Hz. destruct (In_set _ _ _ _ _ Hz) as [-> | Hz']; [|auto].
  destruct s as [[q u t a l] ws]; cbn [sh workers] in *.
  destruct w as [| |m0|D0|s0|[|m0 r]| |]; cbn [wstep] in Hw; try discriminate.
  - destruct q; injection Hw as <- <-; exact I.
  - destruct q; injection Hw as <- <-; exact I.
  - injection Hw as <- <-. destruct o; cbn; auto. eapply HA; eauto.
  - injection Hw as <- <-. destruct (minus D0 t) as [|x y] eqn:M; cbn; auto.
    rewrite <- M. intros v Hv. apply minus_In in Hv. apply Hww. tauto.
  - injection Hw as <- <-; exact I.
  - injection Hw as <- <-; exact I.
  - injection Hw as <- <-; exact I.
  - destruct u; injection Hw as <- <-; exact I.
Qed.

Lemma isnil_app : forall A (l : list A) x, isnil (l ++ [x]) = false.
Proof. destruct l; auto. Qed.

Lemma progress : forall (ans : string -> outcome -> Prop) U n s t, inside U n s -> step ans s t ->
  free U t < free U s \/ (free U t = free U s /\ cost n t < cost n s).
Proof.
  intros ans U n s t (L & H) St.
  destruct (step_inv _ _ _ St) as (i & o & w & g & w' & Hi & Ho & Hw & ->).
  specialize (H w (nth_In _ _ _ _ Hi)).
  unfold free, cost. destruct s as [[q u t a l] ws]; cbn [sh workers queue tobe] in *.
  pose proof (fun e T => total_set _ (wcost n e T) _ _ _ w' Hi) as E.
  assert (L' : length (set_nth i w' ws) = n) by (rewrite set_length; auto).
  destruct w as [| |m0|D0|s0|[|m0 r]| |]; cbn [wstep] in Hw; try discriminate.
  - right. split; [destruct q; injection Hw as <- _; auto|].
    destruct q; injection Hw as <- <-; cbn [sh workers queue tobe isnil] in *;
      match goal with |- context [wcost n ?e ?T] => specialize (E e T) end; cbn [wcost] in E; lia.
  - right. split; [destruct q; injection Hw as <- _; auto|].
    destruct q as [|m0 q]; injection Hw as <- <-; cbn [sh workers queue tobe isnil length] in *.
    + specialize (E true t). cbn [wcost] in E. lia.
    + specialize (E false t). cbn [wcost] in E.
      pose proof (total_flip n (isnil q) false t (set_nth i (WHave m0) ws)) as Fl. rewrite L' in Fl. lia.
  - right. injection Hw as <- <-. cbn [sh workers queue tobe] in *. split; auto.
    specialize (E (isnil q) t). destruct o; cbn [wcost] in E; lia.
  - right. injection Hw as <- <-. cbn [sh workers queue tobe] in *. split; auto.
    specialize (E (isnil q) t). destruct (minus D0 t) as [|x y] eqn:M; cbn [wcost] in E; [lia|].
    assert (minus (x :: y) t = x :: y) as X.
    { rewrite <- M. unfold minus at 1. clear.
      assert (forall l, (forall z, In z l -> ~ In z t) -> filter (fun m => negb (mem String.eqb m t)) l = l) as G.
      { induction l as [|z l IH]; simpl; intros Hl; auto.
        destruct (mem String.eqb z t) eqn:Z.
        - exfalso. apply (Hl z); [left; auto|]. apply mem_string; auto.
        - simpl. f_equal. apply IH. intros; apply Hl; right; auto. }
      apply G. intros z Hz. apply minus_In in Hz. tauto. }
    rewrite X in E. lia.
  - injection Hw as <- <-. cbn [sh workers queue tobe] in *.
    destruct (minus s0 t) as [|x y] eqn:M.
    + right. rewrite app_nil_r in *. split; auto. specialize (E (isnil q) t). cbn [wcost] in E. rewrite M in E. lia.
    + left. assert (In x (minus s0 t)) as Hx by (rewrite M; left; auto).
      apply minus_In in Hx as [Hx1 Hx2]. apply (minus_drop U t _ x).
      * intros z Hz. apply in_or_app; auto.
      * apply H. auto.
      * auto.
      * apply in_or_app. right. left. auto.
  - right. injection Hw as <- <-. cbn [sh workers queue tobe] in *. split; auto.
    specialize (E (isnil q) t). cbn [wcost length] in E. lia.
  - right. injection Hw as <- <-. cbn [sh workers queue tobe] in *. split; auto.
    rewrite app_length, isnil_app. cbn [length].
    specialize (E (isnil q) t). cbn [wcost length] in E.
    pose proof (total_flip n false (isnil q) t (set_nth i (WPut r) ws)) as Fl. rewrite L' in Fl.
    lia.
  - right. destruct u; injection Hw as <- <-; cbn [sh workers queue tobe] in *; split; auto;
      specialize (E (isnil q) t); cbn [wcost] in E; destruct (isnil q); lia.
Qed.

(** A relation that decreases a pair of numbers has no endless execution. *)
Lemma no_endless : forall (S : Type) (step : S -> S -> Prop) (a b : S -> nat) (I : S -> Prop),
  (forall s t, I s -> step s t -> I t) ->
  (forall s t, I s -> step s t -> a t < a s \/ (a t = a s /\ b t < b s)) ->
  forall s, I s -> ~ Endless step s.
Proof.
  intros S stp a b I HI HP s Hs (f & F0 & F).
  assert (A : forall n, I (f n)) by (induction n; [rewrite F0; auto | eapply HI; eauto]).
  assert (forall x y n, a (f n) < x -> b (f n) < y -> False) as X.
  { induction x as [|x IHx]; [intros; lia|]. induction y as [|y IHy]; [intros; lia|].
    intros n Ha Hb. destruct (HP _ _ (A n) (F n)) as [L|[L1 L2]].
    - eapply (IHx (Datatypes.S (b (f (Datatypes.S n)))) (Datatypes.S n)); lia.
    - eapply (IHy (Datatypes.S n)); lia. }
  eapply (X (Datatypes.S (a (f 0))) (Datatypes.S (b (f 0))) 0); lia.
Qed.

Theorem download_ends : forall (ans : string -> outcome -> Prop) U n roots, (forall x D, ans x (Read D) -> incl D U) ->
  ~ Endless (step ans) (start n roots).
Proof.
  intros ans U n roots HA.
  apply (no_endless state (step ans) (free U) (cost n) (inside U n)).
  - intros. eapply inside_step; eauto.
  - intros. eapply progress; eauto.
  - split; cbn; [apply repeat_length|]. intros w Hw. apply repeat_spec in Hw. subst. exact I.
Qed.
