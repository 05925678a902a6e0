(** Proofs about reading the YANG files of a folder. *)
From Coq Require Import String Ascii List Bool Arith Lia.
From Verif Require Import Base DownloadM DownloadSpec TagP DownloadP.
Import ListNotations.
Open Scope string_scope.
Open Scope list_scope.
Open Scope nat_scope.

Lemma cstep_inv : forall ans st st', cstep ans st st' ->
  exists i o w g w', nth_error (readers st) i = Some w /\ may_read ans w o /\
    rstep o (csh st) w = Some (g, w') /\ st' = CState g (set_nth i w' (readers st)).
Proof.
  intros ans st st' (i & o & w & Hi & Ha & Hm). unfold cmove in Hm. rewrite Hi in Hm.
  destruct (rstep o (csh st) w) as [[g w']|] eqn:E; [|discriminate].
  injection Hm as <-. exists i, o, w, g, w'. auto.
Qed.

Lemma csteps_ind : forall (ans : string -> reading -> Prop) (I : cstate -> Prop) s0,
  I s0 -> (forall s t, I s -> cstep ans s t -> I t) ->
  forall s, Steps (cstep ans) s0 s -> I s.
Proof. intros ans I s0 H0 Hs s H. induction H; eauto. Qed.

Definition rbusy (w : reader) : nat := match w with RHave _ | RDone => 1 | _ => 0 end.
Definition lost (x : string * reading) : nat := match snd x with Raised => 1 | Fine => 0 end.
Definition rheld (f : string) (w : reader) : Prop := match w with RHave x => x = f | _ => False end.

(** What holds all the time. *)
Definition ok_state (ans : string -> reading -> Prop) (files : list string) (st : cstate) : Prop :=
  cunfinished (csh st) = length (cqueue (csh st)) + total rbusy (readers st) + total lost (cread (csh st)) /\
  (cqueue (csh st) = [] \/ (exists w, In w (readers st) /\ w <> RExit) \/ total lost (cread (csh st)) > 0) /\
  (forall f o, In (f, o) (cread (csh st)) -> ans f o) /\
  (forall f, In f files -> In f (cqueue (csh st)) \/ In f (map fst (cread (csh st))) \/
     exists w, In w (readers st) /\ rheld f w).

Lemma ok_state_step : forall (ans : string -> reading -> Prop) files s t,
  ok_state ans files s -> cstep ans s t -> ok_state ans files t.
Proof.
  intros ans files s t (C & W & A & F) St.
  destruct (cstep_inv _ _ _ St) as (i & o & w & g & w' & Hi & Ho & Hw & ->).
  pose proof (total_set _ rbusy _ _ _ w' Hi) as E.
  pose proof (total_in _ rbusy _ _ (nth_In _ _ _ _ Hi)) as Hb.
  pose proof (set_In _ _ _ _ w' Hi) as Hin.
  pose proof (fun z => keep_In _ _ _ _ w' z Hi) as K.
  assert (F' : forall f, (~ rheld f w) -> (exists z, In z (readers s) /\ rheld f z) ->
                 exists z, In z (set_nth i w' (readers s)) /\ rheld f z).
  { intros f N (z & Hz & Hd). destruct (K z Hz) as [-> | ?]; [contradiction | exists z; auto]. }
  unfold ok_state in *. destruct s as [[q u a] ws]; cbn [csh readers cqueue cunfinished cread] in *.
  destruct w as [| |f0| |]; cbn [rstep] in Hw; try discriminate.
  - destruct q as [|x q]; injection Hw as <- <-; cbn [csh readers cqueue cunfinished cread rbusy] in *.
    + split; [lia|]. split; [auto|]. split; [auto|].
      intros f Hf. destruct (F f Hf) as [?|[?|H]]; auto; cbn; auto.
    + split; [lia|]. split; [right; left; exists RGet; split; [auto|discriminate]|]. split; [auto|].
      intros f Hf. destruct (F f Hf) as [?|[?|H]]; auto; cbn; auto.
  - destruct q as [|x q]; injection Hw as <- <-; cbn [csh readers cqueue cunfinished cread rbusy length] in *.
    + split; [lia|]. split; [auto|]. split; [auto|].
      intros f Hf. destruct (F f Hf) as [?|[?|H]]; auto; cbn; auto.
    + split; [lia|]. split; [right; left; exists (RHave x); split; [auto|discriminate]|]. split; [auto|].
      intros f Hf. destruct (F f Hf) as [[->|?]|[?|H]]; auto.
      right; right. exists (RHave f). split; auto. reflexivity.
  - injection Hw as <- <-; cbn [csh readers cqueue cunfinished cread rbusy length map fst] in *.
    change (total lost ((f0, o) :: a)) with (lost (f0, o) + total lost a).
    split; [destruct o; cbn [lost snd rbusy] in *; lia|].
    split; [destruct o; [right; left; exists RDone; split; [auto|discriminate] | right; right; cbn [lost snd]; lia]|].
    split.
    { intros f o' [X|X]; [injection X as <- <-; exact Ho | auto]. }
    intros f Hf. destruct (F f Hf) as [?|[?|H]]; auto; [right; left; right; auto|].
    destruct (string_dec f0 f) as [->|N]; [right; left; left; auto|]. right; right. apply F'; auto.
  - destruct u; injection Hw as <- <-; cbn [csh readers cqueue cunfinished cread rbusy length] in *; [lia|].
    split; [lia|]. split; [right; left; exists RTop; split; [auto|discriminate]|]. split; [auto|].
    intros f Hf. destruct (F f Hf) as [?|[?|H]]; auto; cbn; auto.
Qed.

Lemma ok_state_all : forall (ans : string -> reading -> Prop) n files st, 0 < n ->
  Steps (cstep ans) (cstart n files) st -> ok_state ans files st.
Proof.
  intros ans n files st Hn. apply csteps_ind; [|intros; eapply ok_state_step; eauto].
  unfold ok_state, cstart. cbn [csh readers cqueue cunfinished cread map].
  rewrite total_repeat by auto. split; [simpl; lia|]. split.
  - right; left. exists RTop. split; [|discriminate]. destruct n; [lia | left; auto].
  - split; [intros; contradiction|auto].
Qed.

Lemma total_none : forall A (f : A -> nat) l, (forall x, In x l -> f x = 0) -> total f l = 0.
Proof. induction l as [|x l IH]; intros H; auto. simpl. rewrite H by (left; auto). apply IH. intros; apply H; right; auto. Qed.

(** One file that raises is enough: [join] never returns. *)
Theorem reader_hangs : forall (ans : string -> reading -> Prop) n files f st, 0 < n ->
  In f files -> (forall o, ans f o -> o = Raised) ->
  Steps (cstep ans) (cstart n files) st -> ~ cjoined st.
Proof.
  intros ans n files f st Hn Hf Hr H J. destruct (ok_state_all _ _ _ _ Hn H) as (C & _ & A & F).
  unfold cjoined in J.
  assert (length (cqueue (csh st)) = 0 /\ total rbusy (readers st) = 0 /\ total lost (cread (csh st)) = 0)
    as (Q & B & L) by lia.
  destruct (F f Hf) as [X|[X|(w & Hw & Hd)]].
  - destruct (cqueue (csh st)); [contradiction | discriminate].
  - apply in_map_iff in X as ([f' o] & E & X). cbn in E. subst f'.
    pose proof (total_zero _ lost _ _ L X) as Z. rewrite (Hr o (A _ _ X)) in Z. discriminate.
  - pose proof (total_zero _ rbusy _ _ B Hw) as Z. destruct w; cbn in Hd; try contradiction. discriminate.
Qed.

(** If no file raises, all files are read and [join] returns. *)
Theorem reader_returns : forall (ans : string -> reading -> Prop) n files st, 0 < n ->
  (forall f, ans f Fine) -> (forall f, ~ ans f Raised) ->
  Steps (cstep ans) (cstart n files) st -> Stuck (cstep ans) st ->
  cjoined st /\ forall f, In f files -> In (f, Fine) (cread (csh st)).
Proof.
  intros ans n files st Hn H1 H2 H St. destruct (ok_state_all _ _ _ _ Hn H) as (C & W & A & F).
  assert (D : forall w, In w (readers st) -> w = RExit).
  { intros w Hw. destruct (In_nth_error _ _ Hw) as [i Hi].
    destruct w; auto; exfalso;
    match type of Hi with _ = Some ?w =>
      assert (exists g w', rstep Fine (csh st) w = Some (g, w')) as (g & w' & E)
    end;
    try (destruct st as [[q u a] ws]; cbn [csh rstep]; try (destruct q); try (destruct u); eauto; fail);
    (apply (St (CState g (set_nth i w' (readers st))));
     eexists i, Fine, _; split; [exact Hi|]; split; [first [exact I | apply H1] | unfold cmove; rewrite Hi, E; reflexivity]). }
  assert (L : total lost (cread (csh st)) = 0).
  { apply total_none. intros [f o] Hx. destruct o; auto. exfalso. apply (H2 f). auto. }
  assert (B : total rbusy (readers st) = 0) by (apply total_none; intros w Hw; rewrite (D w Hw); auto).
  assert (Q : cqueue (csh st) = []).
  { destruct W as [W|[(w & Hw & N)|W]]; auto; [exfalso; apply N, D; auto | lia]. }
  split; [unfold cjoined; rewrite C, Q, B, L; reflexivity|].
  intros f Hf. destruct (F f Hf) as [X|[X|(w & Hw & Hd)]].
  - rewrite Q in X. contradiction.
  - apply in_map_iff in X as ([f' o] & E & X). cbn in E. subst f'.
    destruct o; auto. exfalso. apply (H2 f). auto.
  - rewrite (D w Hw) in Hd. contradiction.
Qed.

(** The workers themselves always stop. *)
Definition rcost (e : bool) (w : reader) : nat :=
  match w with
  | RTop => if e then 1 else 2
  | RGet => if e then 2 else 1
  | RHave _ => 4 | RDone => 3 | RExit => 0
  end.
Definition ccost (n : nat) (st : cstate) : nat :=
  length (cqueue (csh st)) * (n + 20) + total (rcost (isnil (cqueue (csh st)))) (readers st).

Lemma rcost_flip : forall e e' ws, total (rcost e) ws <= total (rcost e') ws + length ws.
Proof.
  intros e e' ws. induction ws as [|w ws IH]; simpl; auto.
  assert (rcost e w <= rcost e' w + 1) by (destruct w, e, e'; simpl; lia). lia.
Qed.

Lemma rprogress : forall ans n s t, length (readers s) = n -> cstep ans s t -> ccost n t < ccost n s.
Proof.
  intros ans n s t L St.
  destruct (cstep_inv _ _ _ St) as (i & o & w & g & w' & Hi & Ho & Hw & ->).
  unfold ccost. destruct s as [[q u a] ws]; cbn [csh readers cqueue] in *.
  pose proof (fun e => total_set _ (rcost e) _ _ _ w' Hi) as E.
  assert (L' : length (set_nth i w' ws) = n) by (rewrite set_length; auto).
  destruct w as [| |f0| |]; cbn [rstep] in Hw; try discriminate.
  - destruct q; injection Hw as <- <-; cbn [csh readers cqueue isnil] in *.
    + specialize (E true). cbn [rcost] in E. lia.
    + specialize (E false). cbn [rcost] in E. lia.
  - destruct q as [|f0 q]; injection Hw as <- <-; cbn [csh readers cqueue isnil length] in *.
    + specialize (E true). cbn [rcost] in E. lia.
    + specialize (E false). cbn [rcost] in E.
      pose proof (rcost_flip (isnil q) false (set_nth i (RHave f0) ws)) as Fl. rewrite L' in Fl. lia.
  - injection Hw as <- <-. cbn [csh readers cqueue] in *. specialize (E (isnil q)). destruct o; cbn [rcost] in E; lia.
  - destruct u; injection Hw as <- <-; cbn [csh readers cqueue] in *; specialize (E (isnil q)); cbn [rcost] in E;
      destruct (isnil q); lia.
Qed.

Theorem reader_ends : forall (ans : string -> reading -> Prop) n files, ~ Endless (cstep ans) (cstart n files).
Proof.
  intros ans n files.
  apply (no_endless cstate (cstep ans) (fun _ => 0) (ccost n) (fun s => length (readers s) = n)).
  - intros s t L St. destruct (cstep_inv _ _ _ St) as (i & o & w & g & w' & _ & _ & _ & ->).
    cbn. rewrite set_length. auto.
  - intros s t L St. right. split; auto. eapply rprogress; eauto.
  - cbn. apply repeat_length.
Qed.
