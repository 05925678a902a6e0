(** Proofs about the downloads: nothing is requested that is not needed, whatever the schedule;
    no file is read twice. *)
From Coq Require Import String Ascii List Bool Arith Lia.
From Verif Require Import Base DownloadM DownloadSpec DownloadP ReaderP.
Import ListNotations.
Open Scope string_scope.
Open Scope list_scope.
Open Scope nat_scope.

Definition sound_worker (P : string -> Prop) (w : worker) : Prop :=
  match w with
  | WHave m => P m
  | WDeps D | WAdd D | WPut D => forall d, In d D -> P d
  | _ => True
  end.
Definition sound (ans : string -> outcome -> Prop) (P : string -> Prop) (st : state) : Prop :=
  (forall m, In m (queue (sh st)) -> P m) /\ (forall m o, In (m, o) (asked (sh st)) -> P m /\ ans m o) /\
  (forall w, In w (workers st) -> sound_worker P w).

Lemma sound_step : forall (ans : string -> outcome -> Prop) (P : string -> Prop) s t,
  (forall m D d, P m -> ans m (Read D) -> In d D -> P d) -> sound ans P s -> step ans s t -> sound ans P t.
Proof.
  intros ans P s t Cl (Q & A & W) St. destruct (step_inv _ _ _ St) as (i & o & w & g & w' & Hi & Ho & Hw & ->).
  pose proof (W w (nth_In _ _ _ _ Hi)) as Sw.
  assert (K : sound_worker P w' -> forall z, In z (set_nth i w' (workers s)) -> sound_worker P z).
  { intros S z Hz. apply In_set in Hz as [-> | Hz]; [exact S | apply W; exact Hz]. }
  unfold sound. destruct s as [[q u tb a l] ws]; cbn [sh workers queue asked] in *.
  destruct w as [| |m|D|s|[|m r]| |]; cbn [wstep] in Hw; cbn [sound_worker may_ask] in *.
  - injection Hw as <- <-. split; [exact Q |]. split; [exact A |]. apply K. destruct q; exact I.
  - destruct q as [| x q]; injection Hw as <- <-; cbn [queue asked].
    + split; [exact Q |]. split; [exact A |]. apply K. exact I.
    + split; [intros m Hm; apply Q; right; exact Hm |]. split; [exact A |]. apply K. apply Q. left. reflexivity.
  - injection Hw as <- <-. cbn [queue asked]. split; [exact Q |]. split.
    + intros m0 o0 [E | H]; [injection E as <- <-; split; assumption | apply A; exact H].
    + apply K. destruct o as [| | D]; cbn; auto. intros d Hd. exact (Cl m D d Sw Ho Hd).
  - injection Hw as <- <-. split; [exact Q |]. split; [exact A |]. apply K.
    destruct (minus D tb) as [| x r] eqn:E; [exact I |]. intros d Hd. rewrite <- E in Hd. apply minus_In in Hd as [Hd _]. apply Sw. exact Hd.
  - injection Hw as <- <-. split; [exact Q |]. split; [exact A |]. apply K. exact Sw.
  - injection Hw as <- <-. split; [exact Q |]. split; [exact A |]. apply K. exact I.
  - injection Hw as <- <-. cbn [queue asked]. split.
    + intros x Hx. apply in_app_or in Hx as [Hx | [<- | []]]; [apply Q; exact Hx | apply Sw; left; reflexivity].
    + split; [exact A |]. apply K. intros d Hd. apply Sw. right. exact Hd.
  - destruct u; injection Hw as <- <-; (split; [exact Q |]; split; [exact A |]; apply K; exact I).
  - discriminate.
Qed.

Theorem asked_only : forall (ans : string -> outcome -> Prop) n roots st, Steps (step ans) (start n roots) st ->
  forall m o, In (m, o) (asked (sh st)) ->
  ans m o /\ Reach roots (fun x d => exists D, ans x (Read D) /\ In d D) m.
Proof.
  intros ans n roots st St.
  assert (S : sound ans (Reach roots (fun x d => exists D, ans x (Read D) /\ In d D)) st).
  { revert st St. apply steps_ind.
    - split; [intros m Hm; apply Reach_root; exact Hm |]. split; [intros m o [] |].
      intros w Hw. cbn [start workers] in Hw. apply repeat_spec in Hw. subst w. exact I.
    - intros s t. apply sound_step. intros m D d Hm Ha Hd. eapply Reach_dep; [exact Hm |]. exists D. split; assumption. }
  destruct S as (_ & A & _). intros m o H. destruct (A m o H). split; assumption.
Qed.

Theorem asked_exact : forall (dev : string -> outcome) n roots st,
  Steps (step (fun m o => o = dev m)) (start n roots) st -> joined st ->
  forall m, In m (map fst (asked (sh st))) <-> Reach roots (fun x d => exists D, dev x = Read D /\ In d D) m.
Proof.
  intros dev n roots st St J m. pose proof (asked_only _ _ _ _ St) as O. split.
  - intros H. apply in_map_iff in H as ((x & o) & <- & H). destruct (O x o H) as [_ R]. cbn [fst].
    clear H. induction R as [x Hx | x d R IH (D & E & Hd)]; [apply Reach_root; exact Hx |].
    eapply Reach_dep; [exact IH |]. exists D. split; [symmetry; exact E | exact Hd].
  - intros R. apply (joined_closed _ _ _ _ St J).
    induction R as [y Hy | y z R IH (D' & E' & Hz)]; [apply Reach_root; exact Hy |].
    eapply Reach_dep; [exact IH |]. pose proof (joined_closed _ _ _ _ St J y IH) as Y.
    apply in_map_iff in Y as ((y' & o') & <- & Y). destruct (O _ _ Y) as [-> _]. cbn [fst] in *. exists D'. rewrite E' in Y. split; assumption.
Qed.

(** ** Reading *)
Definition rown (f : string) (w : reader) : nat := match w with RHave x => times f [x] | _ => 0 end.
Definition kept (files : list string) (f : string) (st : cstate) : Prop :=
  times f (cqueue (csh st)) + total (rown f) (readers st) + times f (map fst (cread (csh st))) = times f files.
Lemma kept_step : forall ans files f s t, kept files f s -> cstep ans s t -> kept files f t.
Proof.
  intros ans files f s t H St. destruct (cstep_inv _ _ _ St) as (i & o & w & g & w' & Hi & _ & Hw & ->).
  unfold kept in *. pose proof (total_set _ (rown f) _ _ _ w' Hi) as E.
  pose proof (total_in _ (rown f) _ _ (nth_In _ _ _ _ Hi)) as Hb.
  destruct s as [[q u a] ws]; cbn [csh readers cqueue cread] in *.
  destruct w as [| |x| |]; cbn [rstep] in Hw; try discriminate.
  - injection Hw as <- <-. cbn [cqueue cread]. destruct q; cbn [rown] in *; lia.
  - destruct q as [| x q]; injection Hw as <- <-; cbn [cqueue cread]; cbn [rown] in E, Hb; [lia |].
    rewrite times_cons in H. lia.
  - injection Hw as <- <-. cbn [cqueue cread map fst]. rewrite times_cons. destruct o; cbn [rown] in E, Hb; lia.
  - destruct u; injection Hw as <- <-; cbn [cqueue cread]; cbn [rown] in *; lia.
Qed.
Theorem read_once : forall (ans : string -> reading -> Prop) n files st f, Steps (cstep ans) (cstart n files) st ->
  times f (map fst (cread (csh st))) <= times f files.
Proof.
  intros ans n files st f St. assert (K : kept files f st).
  { revert st St. apply csteps_ind; [| intros s t; apply kept_step].
    unfold kept, cstart. cbn [csh readers cqueue cread map]. rewrite total_repeat by reflexivity. cbn. lia. }
  unfold kept in K. lia.
Qed.
