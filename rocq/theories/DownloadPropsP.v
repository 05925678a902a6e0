(** Example data and witnesses for PropsDownload.v. *)
From Coq Require Import String Ascii List Bool Arith Lia.
From Verif Require Import Base DownloadM DownloadSpec DownloadP ReaderP FolderM FolderSpec FolderP.
Import ListNotations.
Open Scope string_scope.
Open Scope list_scope.
Open Scope nat_scope.

(** A device whose answer depends on the module only. *)
Definition answers (dev : string -> outcome) : string -> outcome -> Prop := fun m o => o = dev m.

(** The workers move in the given order. *)
Fixpoint play_on (dev : string -> outcome) (l : list nat) (st : state) : option state :=
  match l with
  | [] => Some st
  | i :: r =>
      match nth_error (workers st) i with
      | None => None
      | Some w => match move i (match w with WHave m => dev m | _ => Failed end) st with
                  | Some st' => play_on dev r st'
                  | None => None
                  end
      end
  end.

Lemma play_steps : forall dev l s0 s st, Steps (step (answers dev)) s0 s -> play_on dev l s = Some st ->
  Steps (step (answers dev)) s0 st.
Proof.
  induction l as [|i l IH]; intros s0 s st H E; cbn [play_on] in E.
  - injection E as <-. auto.
  - destruct (nth_error (workers s) i) as [w|] eqn:Ei; [|discriminate].
    destruct (move i _ s) as [s'|] eqn:Em; [|discriminate].
    apply (IH s0 s' st); auto. eapply Steps_next; eauto.
    eexists i, _, w. split; [auto|]. split; [|exact Em]. destruct w; try exact I. reflexivity.
Qed.

(** Two modules that import a third one; one module cannot be fetched. *)
Definition dev1 (m : string) : outcome :=
  if String.eqb m "a" then Read ["common"; "types"]
  else if String.eqb m "b" then Read ["common"]
  else if String.eqb m "types" then Failed
  else Read [].

(** Both workers have read their first module before either looks at
    [to_be_downloaded]. *)
Definition together : list nat :=
  [0; 0; 0; 1; 1; 1; 0; 1; 0; 0; 0; 0; 0; 1; 1; 1; 1; 0; 0; 0; 1; 1; 1; 0; 0; 1; 1; 1; 1; 0; 1; 1; 1].

Definition st1 : state :=
  match play_on dev1 together (start 2 ["a"; "b"]) with Some st => st | None => start 0 [] end.

Lemma st1_steps : Steps (step (answers dev1)) (start 2 ["a"; "b"]) st1.
Proof.
  assert (E : play_on dev1 together (start 2 ["a"; "b"]) = Some st1) by (vm_compute; reflexivity).
  exact (play_steps dev1 together _ _ _ (Steps_refl _ _) E).
Qed.

Lemma fetched_twice : exists dev roots st m,
  NoDup roots /\ (forall x D, dev x = Read D -> NoDup D) /\
  Steps (step (answers dev)) (start 2 roots) st /\ times m (map fst (asked (sh st))) = 2.
Proof.
  exists dev1, ["a"; "b"], st1, "common". split; [|split; [|split]].
  - repeat constructor; cbn; intuition discriminate.
  - intros x D. unfold dev1. destruct (String.eqb x "a"); [intros E; injection E as <-|].
    + repeat constructor; cbn; intuition discriminate.
    + destruct (String.eqb x "b"); [intros E; injection E as <-; repeat constructor; cbn; intuition|].
      destruct (String.eqb x "types"); [discriminate|]. intros E; injection E as <-. constructor.
  - exact st1_steps.
  - vm_compute. reflexivity.
Qed.

Lemma ex_download : Steps (step (answers dev1)) (start 2 ["a"; "b"]) st1 /\ joined st1 /\
  Stuck (step (answers dev1)) st1 /\
  (forall x D, answers dev1 x (Read D) -> incl D ["common"; "types"]) /\ (forall m, exists o, answers dev1 m o) /\
  queued (sh st1) = ["common"; "types"; "common"; "a"; "b"] /\
  Reach ["a"; "b"] (fun x d => exists D, In (x, Read D) (asked (sh st1)) /\ In d D) "types".
Proof.
  assert (A : asked (sh st1) = [("common", Read []); ("types", Failed); ("common", Read []);
                               ("b", Read ["common"]); ("a", Read ["common"; "types"])]) by reflexivity.
  split; [exact st1_steps|]. split; [reflexivity|]. split.
  { intros t H. destruct (step_inv _ _ _ H) as (i & o & w & g & w' & Hi & _ & Hw & _).
    assert (w = WExit) as ->.
    { assert (workers st1 = [WExit; WExit]) as E by reflexivity. rewrite E in Hi.
      destruct i as [|[|[|i]]]; cbn in Hi; congruence. }
    destruct (sh st1); discriminate. }
  split; [|split; [|split]].
  - intros x D. unfold answers, dev1. destruct (String.eqb x "a"); [intros E; injection E as ->; apply incl_refl|].
    destruct (String.eqb x "b"); [intros E; injection E as ->; intros y [->|[]]; left; auto|].
    destruct (String.eqb x "types"); [discriminate|]. intros E; injection E as ->. intros y [].
  - intros m. exists (dev1 m). reflexivity.
  - reflexivity.
  - apply Reach_dep with "a"; [apply Reach_root; left; auto|]. exists ["common"; "types"].
    rewrite A. split; [right; right; right; right; left; auto | right; left; auto].
Qed.

(** A folder with three files, one of which is not UTF-8. *)
Definition files1 := ["a.yang"; "bad.yang"; "c.yang"].
Definition reads1 (f : string) (o : reading) : Prop := o = if String.eqb f "bad.yang" then Raised else Fine.

(** The readers move in the given order. *)
Fixpoint cplay (ans : string -> reading) (l : list nat) (st : cstate) : option cstate :=
  match l with
  | [] => Some st
  | i :: r =>
      match nth_error (readers st) i with
      | None => None
      | Some w => match cmove i (match w with RHave f => ans f | _ => Fine end) st with
                  | Some st' => cplay ans r st'
                  | None => None
                  end
      end
  end.

Lemma cplay_steps : forall ans l s0 s st, Steps (cstep (fun f o => o = ans f)) s0 s -> cplay ans l s = Some st ->
  Steps (cstep (fun f o => o = ans f)) s0 st.
Proof.
  induction l as [|i l IH]; intros s0 s st H E; cbn [cplay] in E.
  - injection E as <-. auto.
  - destruct (nth_error (readers s) i) as [w|] eqn:Ei; [|discriminate].
    destruct (cmove i _ s) as [s'|] eqn:Em; [|discriminate].
    apply (IH s0 s' st); auto. eapply Steps_next; eauto.
    eexists i, _, w. split; [auto|]. split; [|exact Em]. destruct w; try exact I. reflexivity.
Qed.

Lemma dead_stuck : forall ans st, (forall w, In w (readers st) -> w = RExit) -> Stuck (cstep ans) st.
Proof.
  intros ans st H t St. destruct (cstep_inv _ _ _ St) as (i & o & w & g & w' & Hi & _ & Hw & _).
  rewrite (H w) in Hw; [|eapply nth_error_In; eauto]. destruct (csh st); discriminate.
Qed.

(** With a file that raises: both readers have stopped and one file is unfinished. *)
Lemma ex_hang : exists st, Steps (cstep reads1) (cstart 2 files1) st /\ Stuck (cstep reads1) st /\
  ~ cjoined st /\ length (cread (csh st)) = 3.
Proof.
  set (l := [0;0;1;1; 1; 0;0;0;0;0;0;0]).
  destruct (cplay (fun f => if String.eqb f "bad.yang" then Raised else Fine) l (cstart 2 files1)) as [st|] eqn:E;
    [|exfalso; vm_compute in E; discriminate].
  pose proof (cplay_steps _ l _ _ _ (Steps_refl _ _) E) as S. exists st. split; [exact S|].
  vm_compute in E. injection E as <-. split.
  - apply dead_stuck. cbn. intuition congruence.
  - split; [discriminate | reflexivity].
Qed.

(** Without it. *)
Lemma ex_returns : exists st, Steps (cstep (fun f o => o = Fine)) (cstart 2 ["a.yang"; "c.yang"]) st /\
  Stuck (cstep (fun f o => o = Fine)) st.
Proof.
  set (l := [0;0;1;1;1;1;1; 0;0;0]).
  destruct (cplay (fun f => Fine) l (cstart 2 ["a.yang"; "c.yang"])) as [st|] eqn:E;
    [|exfalso; vm_compute in E; discriminate].
  pose proof (cplay_steps _ l _ _ _ (Steps_refl _ _) E) as S. exists st. split; [exact S|].
  vm_compute in E. injection E as <-. apply dead_stuck. cbn. intuition congruence.
Qed.

(** ** Folders *)

Definition scanA : scan := Scan true "A" [] [("m", Some "module m"); ("n", None)] "<modules/>" None.
Definition files_A := ["m.yang"; cap_file; dep_file].
(** The device has been upgraded; the scan is killed after the first file is removed. *)
Definition scanB_killed : scan := Scan true "B" files_A [("m", Some "module m")] "<modules/>" (Some (1, 0)).
Definition force_killed : scan := Scan false "A" files_A [("m", Some "module m")] "<modules/>" (Some (1, 0)).
(** Killed while it writes the capabilities. *)
Definition scanA_killed : scan := Scan true "AB" [] [("m", Some "module m")] "<modules/>" (Some (5, 1)).

Lemma removed_last : forall c tr f, ~ Complete c (tr ++ [Remove f]).
Proof.
  intros c tr f (t1 & t2 & E & U). destruct (exists_last (l := Joined c :: t2)) as (x & y & Ex); [discriminate|].
  rewrite Ex, app_assoc in E. apply app_inj_tail in E as [_ <-].
  destruct x as [|x0 x]; [discriminate|]. injection Ex as _ ->.
  apply (U (Remove f)). apply in_or_app. right. left. auto.
Qed.

Lemma walks_same : forall fo, Walks (map fst fo) fo.
Proof. intros fo f. tauto. Qed.

Lemma changed_back : exists es fo tr c, Real es [] /\
  Forall (fun e => match e with EScan s => sc_check s = true | EOther _ _ => True end) es /\
  history es [] [] = (fo, tr) /\ need_download c fo = false /\ ~ Complete c tr.
Proof.
  exists [EScan scanA; EScan scanB_killed].
  destruct (history [EScan scanA; EScan scanB_killed] [] []) as [fo tr] eqn:E. exists fo, tr, "A".
  vm_compute in E. injection E as <- <-. split; [|split; [|split; [|split]]].
  - split; [exact (walks_same [])|]. split; [|exact I].
    exact (walks_same [("m.yang", "module m"); (cap_file, "A"); (dep_file, "<modules/>")]).
  - repeat constructor.
  - reflexivity.
  - reflexivity.
  - match goal with |- ~ Complete _ ?t => change t with (removelast t ++ [Remove "m.yang"]) end.
    apply removed_last.
Qed.

Lemma force_unseen : exists es fo tr c, Real es [] /\
  Forall (fun e => match e with EScan s => sc_caps s = c | EOther _ _ => True end) es /\
  history es [] [] = (fo, tr) /\ need_download c fo = false /\ ~ Complete c tr.
Proof.
  exists [EScan scanA; EScan force_killed].
  destruct (history [EScan scanA; EScan force_killed] [] []) as [fo tr] eqn:E. exists fo, tr, "A".
  vm_compute in E. injection E as <- <-. split; [|split; [|split; [|split]]].
  - split; [exact (walks_same [])|]. split; [|exact I].
    exact (walks_same [("m.yang", "module m"); (cap_file, "A"); (dep_file, "<modules/>")]).
  - repeat constructor.
  - reflexivity.
  - reflexivity.
  - match goal with |- ~ Complete _ ?t => change t with (removelast t ++ [Remove "m.yang"]) end.
    apply removed_last.
Qed.

Lemma ex_killed : exists fo tr, history [EScan scanA_killed] [] [] = (fo, tr) /\ Real [EScan scanA_killed] [] /\
  CapFirst [EScan scanA_killed] [] /\
  need_download "AB" fo = true /\ need_download "A" fo = false /\ Complete "AB" tr.
Proof.
  destruct (history [EScan scanA_killed] [] []) as [fo tr] eqn:E. exists fo, tr.
  vm_compute in E. injection E as <- <-. split; [reflexivity|].
  split; [split; [exact (walks_same []) | exact I]|]. split; [split; [intros []|exact I]|].
  split; [reflexivity|]. split; [reflexivity|].
  eexists _, _. split.
  - match goal with |- ?l = _ => instantiate (2 := firstn 3 l); instantiate (1 := skipn 4 l) end. reflexivity.
  - intros e He. cbn in He. intuition; subst; exact I.
Qed.
