(** Proofs about the folder of YANG files. *)
From Coq Require Import String Ascii List Bool Arith Lia.
From Verif Require Import Base BaseP RefP DeviceP FolderM FolderSpec.
Import ListNotations.
Open Scope string_scope.
Open Scope list_scope.
Open Scope nat_scope.

Definition cap (fo : folder) : option string := assoc String.eqb cap_file fo.

Lemma need_false : forall c fo, need_download c fo = false <-> cap fo = Some c.
Proof.
  intros c fo. unfold need_download, cap. destruct (assoc String.eqb cap_file fo) as [t|].
  - rewrite negb_false_iff, String.eqb_eq. split; congruence.
  - split; discriminate.
Qed.

Lemma assoc_remove : forall f k (fo : folder),
  assoc String.eqb k (filter (fun p => negb (String.eqb f (fst p))) fo) =
  if String.eqb f k then None else assoc String.eqb k fo.
Proof.
  intros f k fo. induction fo as [|[x v] fo IH]; cbn [filter assoc fst].
  - destruct (String.eqb f k); auto.
  - destruct (String.eqb f x) eqn:E1; cbn [negb].
    + rewrite IH. destruct (String.eqb f k) eqn:E2; auto.
      apply String.eqb_eq in E1. subst x. rewrite String.eqb_sym, E2. auto.
    + cbn [assoc]. rewrite IH. destruct (String.eqb k x) eqn:E3; auto.
      apply String.eqb_eq in E3. subst x. rewrite E1. auto.
Qed.

Lemma cap_act : forall e fo, cap (act e fo) =
  match e with
  | Remove f => if String.eqb f cap_file then None else cap fo
  | Write f s => if String.eqb cap_file f then Some s else cap fo
  | _ => cap fo
  end.
Proof.
  intros [f|f s|m|c] fo; cbn [act]; auto.
  - apply assoc_remove.
  - unfold cap. generalize cap_file. intros k. induction fo as [|[x v] fo IH]; cbn [dset assoc].
    + destruct (String.eqb k f); auto.
    + destruct (String.eqb f x) eqn:E; cbn [assoc].
      * apply String.eqb_eq in E. subst x. destruct (String.eqb k f); auto.
      * destruct (String.eqb k x) eqn:E2; auto.
        apply String.eqb_eq in E2. subst x. rewrite String.eqb_sym, E. auto.
Qed.

Lemma act_all_app : forall a b fo, act_all (a ++ b) fo = act_all b (act_all a fo).
Proof. intros. apply fold_left_app. Qed.

(** ** One scan *)

Definition tail_of (c deps : string) : list effect :=
  [Joined c; Write cap_file ""; Write cap_file c; Write dep_file ""; Write dep_file deps].

(** The name of a module file is never that of the file of capabilities. *)
Lemma yang_not_cap : forall m, String.eqb cap_file (m ++ ".yang")%string = false.
Proof.
  intros m. apply String.eqb_neq. intros E. apply (f_equal list_ascii_of_string) in E.
  assert (L : forall a b, list_ascii_of_string (a ++ b)%string = (list_ascii_of_string a ++ list_ascii_of_string b)%list).
  { induction a as [|x a IH]; intros b; [reflexivity | cbn; rewrite IH; reflexivity]. }
  rewrite L in E. apply (f_equal (@rev ascii)) in E. rewrite rev_app_distr in E. cbn in E. discriminate.
Qed.

Lemma cut_short_app : forall k j a b, cut_short k j (a ++ b) =
  if k <? length a then cut_short k j a else a ++ cut_short (k - length a) j b.
Proof.
  intros k j a b. unfold cut_short. destruct (k <? length a) eqn:E.
  - apply Nat.ltb_lt in E. rewrite firstn_app, nth_error_app1 by auto.
    replace (k - length a) with 0 by lia. simpl. rewrite app_nil_r. reflexivity.
  - apply Nat.ltb_ge in E. rewrite firstn_app, nth_error_app2 by auto.
    rewrite firstn_all2 by auto. rewrite <- app_assoc. reflexivity.
Qed.

Lemma cut_short_all : forall j l, cut_short (length l) j l = l.
Proof.
  intros j l. unfold cut_short. rewrite firstn_all.
  assert (nth_error l (length l) = None) as -> by (apply nth_error_None; auto).
  apply app_nil_r.
Qed.

(** Uncut scans are scans cut at the end. *)
Lemma scan_cut : forall s fo, exists k j, scan_effects s fo =
  cut_short k j (download_all (sc_check s) (sc_caps s) (sc_walk s) (sc_reqs s) (sc_deps s) fo).
Proof.
  intros s fo. unfold scan_effects. destruct (sc_crash s) as [[k j]|]; [exists k, j; auto|].
  eexists _, 0. symmetry. apply cut_short_all.
Qed.

Lemma cut_removes : forall k j w, cut_short k j (map Remove w) = map Remove (firstn k w).
Proof.
  intros k j w. unfold cut_short. rewrite firstn_map.
  assert (match nth_error (map Remove w) k with Some (Write f s) => [Write f (substring 0 j s)] | _ => [] end = []) as ->.
  { rewrite nth_error_map. destruct (nth_error w k); auto. }
  apply app_nil_r.
Qed.

Lemma removes_cap : forall w fo, cap (act_all (map Remove w) fo) = cap fo /\ ~ In cap_file w \/
  cap (act_all (map Remove w) fo) = None /\ In cap_file w.
Proof.
  intros w. induction w as [|f w IH]; intros fo; [left; split; auto|].
  change (act_all (map Remove (f :: w)) fo) with (act_all (map Remove w) (act (Remove f) fo)).
  pose proof (cap_act (Remove f) fo) as C. cbn beta iota in C.
  destruct (String.eqb f cap_file) eqn:E.
  - apply String.eqb_eq in E. subst f. right. split; [|left; auto].
    destruct (IH (act (Remove cap_file) fo)) as [[H _]|[H _]]; congruence.
  - apply String.eqb_neq in E. destruct (IH (act (Remove f) fo)) as [[H N]|[H I]].
    + left. split; [congruence|]. intros [X|X]; auto.
    + right. split; auto. right; auto.
Qed.

Definition quiet (e : effect) : Prop :=
  match e with Ask _ => True | Write f _ => f <> cap_file | _ => False end.

Lemma quiet_cut : forall k j l, Forall quiet l -> Forall quiet (cut_short k j l).
Proof.
  intros k j l H. unfold cut_short. apply Forall_app. split.
  - apply Forall_forall. intros e He. rewrite Forall_forall in H. apply H.
    rewrite <- (firstn_skipn k l). apply in_or_app. auto.
  - destruct (nth_error l k) as [[]|] eqn:E; auto.
    constructor; auto. rewrite Forall_forall in H. apply (H (Write f s)). eapply nth_error_In; eauto.
Qed.

Lemma quiet_cap : forall l fo, Forall quiet l -> cap (act_all l fo) = cap fo.
Proof.
  induction l as [|e l IH]; intros fo H; auto. inversion H as [|? ? He Hl]. subst.
  change (act_all (e :: l) fo) with (act_all l (act e fo)). rewrite IH by auto. rewrite cap_act.
  destruct e; cbn in He; try contradiction; auto.
  assert (String.eqb cap_file f = false) as ->; auto. apply String.eqb_neq. congruence.
Qed.

Lemma fetches_quiet : forall reqs, Forall quiet (flat_map fetch reqs).
Proof.
  intros reqs. apply Forall_forall. intros e He. apply in_flat_map in He as ([m t] & _ & He).
  assert (N : (m ++ ".yang")%string <> cap_file).
  { intros E. pose proof (yang_not_cap m) as Y. rewrite E, String.eqb_refl in Y. discriminate. }
  destruct t; cbn in He; intuition; subst; cbn; auto.
Qed.

Lemma prefix_substring : forall j s, prefix (substring 0 j s) s = true.
Proof.
  induction j as [|j IH]; intros [|c s]; cbn; auto.
  destruct (ascii_dec c c) as [_|N]; [apply IH | contradiction N; auto].
Qed.

Lemma prefix_refl : forall s, prefix s s = true.
Proof. induction s as [|c s IH]; cbn; auto. destruct (ascii_dec c c) as [_|N]; [apply IH | contradiction N; auto]. Qed.

(** The end of a scan: nothing, or all is complete and the file of capabilities begins
    like [c]. *)
Lemma cut_tail : forall k j c d, cut_short k j (tail_of c d) = [] \/
  exists w, cut_short k j (tail_of c d) = Joined c :: w /\ Untouched w /\
    forall fo, exists p, cap (act_all (Joined c :: w) fo) = Some p /\ prefix p c = true.
Proof.
  assert (D : String.eqb cap_file dep_file = false) by reflexivity.
  assert (U : forall w, Forall (fun e => match e with Write _ _ => True | _ => False end) w -> Untouched w).
  { intros w H e He. rewrite Forall_forall in H. specialize (H e He). destruct e; auto. }
  assert (E : forall c, prefix "" c = true) by (destruct c; auto).
  assert (S0 : substring 0 0 "" = "") by reflexivity.
  intros k j c d. unfold cut_short, tail_of.
  assert (T : forall w, (exists w1 p w2, w = w1 ++ Write cap_file p :: w2 /\ prefix p c = true /\
                 Forall (fun e => match e with Write f _ => f = dep_file | _ => False end) w2) ->
              forall fo, exists p, cap (act_all (Joined c :: w) fo) = Some p /\ prefix p c = true).
  { intros w (w1 & p & w2 & -> & Hp & Hw) fo. exists p. split; auto.
    change (Joined c :: w1 ++ Write cap_file p :: w2) with ((Joined c :: w1) ++ Write cap_file p :: w2).
    rewrite act_all_app. generalize (act_all (Joined c :: w1) fo). intros fo1.
    change (act_all (Write cap_file p :: w2) fo1) with (act_all w2 (act (Write cap_file p) fo1)).
    rewrite quiet_cap; [rewrite cap_act, String.eqb_refl; auto|].
    eapply Forall_impl; [|exact Hw]. intros [] H; try contradiction. subst. discriminate. }
  destruct k as [|[|[|[|[|k]]]]]; [left; reflexivity| | | | |]; right.
  - exists [Write cap_file (substring 0 j "")]. split; [reflexivity|]. split; [apply U; repeat constructor|].
    apply T. exists [], (substring 0 j ""), []. split; [reflexivity|]. split; [destruct j; auto | constructor].
  - exists [Write cap_file ""; Write cap_file (substring 0 j c)]. split; [reflexivity|]. split; [apply U; repeat constructor|].
    apply T. exists [Write cap_file ""], (substring 0 j c), []. split; [reflexivity|]. split; [apply prefix_substring | constructor].
  - exists [Write cap_file ""; Write cap_file c; Write dep_file (substring 0 j "")].
    split; [reflexivity|]. split; [apply U; repeat constructor|].
    apply T. exists [Write cap_file ""], c, [Write dep_file (substring 0 j "")].
    split; [reflexivity|]. split; [apply prefix_refl | repeat constructor].
  - exists [Write cap_file ""; Write cap_file c; Write dep_file ""; Write dep_file (substring 0 j d)].
    split; [reflexivity|]. split; [apply U; repeat constructor|].
    apply T. exists [Write cap_file ""], c, [Write dep_file ""; Write dep_file (substring 0 j d)].
    split; [reflexivity|]. split; [apply prefix_refl | repeat constructor].
  - exists [Write cap_file ""; Write cap_file c; Write dep_file ""; Write dep_file d].
    split; [destruct k; reflexivity|]. split; [apply U; repeat constructor|].
    apply T. exists [Write cap_file ""], c, [Write dep_file ""; Write dep_file d].
    split; [reflexivity|]. split; [apply prefix_refl | repeat constructor].
Qed.

Lemma complete_more : forall c tr l, Complete c tr -> Untouched l -> Complete c (tr ++ l).
Proof.
  intros c tr l (t1 & t2 & -> & H) Hl. exists t1, (t2 ++ l). split; [rewrite <- app_assoc; reflexivity|].
  intros e He. apply in_app_or in He as [He|He]; [apply (H e He) | apply (Hl e He)].
Qed.

Lemma complete_now : forall c tr w, Untouched w -> Complete c (tr ++ Joined c :: w).
Proof. intros c tr w H. exists tr, w. auto. Qed.

(** What one scan that is not skipped can leave behind. *)
Lemma scan_cases : forall k j walk reqs c d fo tr, Walks walk fo ->
  let l := cut_short k j (map Remove walk ++ flat_map fetch reqs ++ tail_of c d) in
  (exists n, l = map Remove (firstn n walk)) \/
  cap (act_all l fo) = None \/
  (exists p, cap (act_all l fo) = Some p /\ prefix p c = true /\ Complete c (tr ++ l)).
Proof.
  intros k j walk reqs c d fo tr W l. unfold l. clear l.
  rewrite cut_short_app. destruct (k <? length (map Remove walk)); [left; exists k; apply cut_removes|].
  assert (N : cap (act_all (map Remove walk) fo) = None).
  { destruct (removes_cap walk fo) as [[H X]|[H _]]; auto. rewrite H. unfold cap.
    destruct (assoc String.eqb cap_file fo) eqn:E; auto. exfalso. apply X, W.
    apply (assoc_In' String.eqb str_eqb_ok) in E. apply in_map_iff. eexists; split; [|exact E]. auto. }
  set (k' := k - length (map Remove walk)).
  rewrite cut_short_app. destruct (k' <? length (flat_map fetch reqs)).
  - right; left. rewrite act_all_app, quiet_cap; auto. apply quiet_cut, fetches_quiet.
  - destruct (cut_tail (k' - length (flat_map fetch reqs)) j c d) as [->|(w & -> & Hw & Hp)].
    + right; left. rewrite app_nil_r, act_all_app, quiet_cap; auto. apply fetches_quiet.
    + right; right. destruct (Hp (act_all (map Remove walk ++ flat_map fetch reqs) fo)) as (p & P1 & P2).
      exists p. rewrite (app_assoc (map Remove walk)), act_all_app. split; [auto|]. split; [auto|].
      rewrite app_assoc. apply complete_now; auto.
Qed.

(** ** Histories *)

Definition caps_ok (fo : folder) (tr : list effect) : Prop :=
  forall s, cap fo = Some s -> exists c, Complete c tr /\ prefix s c = true.

(** All scans look at the capabilities first, and the device never changes. *)
Theorem same_caps : forall c es fo tr, Real es [] ->
  Forall (fun e => match e with EScan s => sc_check s = true /\ sc_caps s = c | _ => True end) es ->
  history es [] [] = (fo, tr) -> need_download c fo = false -> Complete c tr.
Proof.
  intros c.
  assert (G : forall es fo0 tr0 fo tr, (cap fo0 = Some c -> Complete c tr0) -> Real es fo0 ->
    Forall (fun e => match e with EScan s => sc_check s = true /\ sc_caps s = c | _ => True end) es ->
    history es fo0 tr0 = (fo, tr) -> cap fo = Some c -> Complete c tr).
  { induction es as [|e es IH]; intros fo0 tr0 fo tr I R F H C; cbn [history] in H.
    - injection H as <- <-. auto.
    - inversion F as [|? ? Fe Fes]. subst. destruct R as [Re Res].
      apply (IH _ _ _ _ ) in H; auto. clear IH H C fo tr.
      destruct e as [s|f t]; cbn [event_effects].
      + destruct Fe as [Fc Fp]. destruct (scan_cut s fo0) as (k & j & ->). rewrite Fc, Fp.
        unfold download_all. cbn [andb]. destruct (negb (need_download c fo0)) eqn:Nd.
        * assert (cut_short k j [] = []) as -> by (unfold cut_short; destruct k; reflexivity).
          rewrite app_nil_r. auto.
        * apply negb_false_iff in Nd. cbn [event_effects] in *.
          fold (tail_of c (sc_deps s)).
          destruct (scan_cases k j (sc_walk s) (sc_reqs s) c (sc_deps s) fo0 tr0 Re) as [(n & ->)|[E|(p & _ & _ & E)]].
          -- intros X. exfalso. destruct (removes_cap (firstn n (sc_walk s)) fo0) as [[H _]|[H _]]; [|congruence].
             rewrite H in X. apply need_false in X. congruence.
          -- congruence.
          -- auto.
      + intros X. apply complete_more.
        * apply I. cbn [act_all fold_left] in X. rewrite cap_act in X.
          destruct (String.eqb cap_file f) eqn:E; auto. apply String.eqb_eq in E. congruence.
        * intros e [<-|[]]. exact Logic.I. }
  intros es fo tr R F H N. apply need_false in N. eapply (G es [] []); eauto. discriminate.
Qed.

Theorem cap_first : forall es fo tr c, Real es [] -> CapFirst es [] ->
  history es [] [] = (fo, tr) -> need_download c fo = false ->
  exists c', Complete c' tr /\ prefix c c' = true.
Proof.
  assert (G : forall es fo0 tr0 fo tr, caps_ok fo0 tr0 -> Real es fo0 -> CapFirst es fo0 ->
    history es fo0 tr0 = (fo, tr) -> caps_ok fo tr).
  { induction es as [|e es IH]; intros fo0 tr0 fo tr I R F H; cbn [history] in H.
    - injection H as <- <-. auto.
    - destruct R as [Re Res]. destruct F as [Fe Fes].
      apply (IH _ _ _ _ ) in H; auto. clear IH H fo tr.
      destruct e as [s|f t]; cbn [event_effects].
      + destruct (scan_cut s fo0) as (k & j & ->).
        unfold download_all. destruct (sc_check s && negb (need_download (sc_caps s) fo0)) eqn:Nd.
        * assert (cut_short k j [] = []) as -> by (unfold cut_short; destruct k; reflexivity).
          rewrite app_nil_r. auto.
        * fold (tail_of (sc_caps s) (sc_deps s)).
          destruct (scan_cases k j (sc_walk s) (sc_reqs s) (sc_caps s) (sc_deps s) fo0 tr0 Re)
            as [(n & ->)|[E|(p & E1 & E2 & E3)]].
          -- intros x X. destruct (removes_cap (firstn n (sc_walk s)) fo0) as [[H N]|[H _]]; [|congruence].
             rewrite H in X.
             assert (Hin : In cap_file (sc_walk s)).
             { apply Re. unfold cap in X. apply (assoc_In' String.eqb str_eqb_ok) in X.
               apply in_map_iff. eexists; split; [|exact X]. auto. }
             destruct (Fe Hin) as [w Ew]. rewrite Ew in N |- *. destruct n as [|n].
             ++ cbn [firstn map]. rewrite app_nil_r. apply I; auto.
             ++ exfalso. apply N. left. auto.
          -- intros x X. congruence.
          -- intros x X. exists (sc_caps s). split; auto. congruence.
      + intros x X. cbn [act_all fold_left] in X. rewrite cap_act in X.
        destruct (String.eqb cap_file f) eqn:E; [apply String.eqb_eq in E; congruence|].
        destruct (I x X) as (c & C1 & C2). exists c. split; auto. apply complete_more; auto.
        intros e [<-|[]]. exact Logic.I. }
  intros es fo tr c R F H N. apply need_false in N. eapply (G es [] [] fo tr); eauto.
  intros s X. discriminate.
Qed.

(** A finished download is never repeated as long as the capabilities stay the same. *)
Theorem not_retried : forall check c walk reqs deps fo, 
  download_all check c walk reqs deps fo <> [] ->
  forall es fo' tr, Forall (fun e => match e with
      | EScan s => sc_check s = true /\ sc_caps s = c | EOther f _ => f <> cap_file end) es ->
  history es (act_all (download_all check c walk reqs deps fo) fo) [] = (fo', tr) ->
  forall m, ~ In (Ask m) tr.
Proof.
  intros check c walk reqs deps fo NE.
  assert (C : cap (act_all (download_all check c walk reqs deps fo) fo) = Some c).
  { unfold download_all in *. destruct (check && negb (need_download c fo)); [contradiction NE; auto|].
    rewrite !act_all_app. unfold act_all at 1. cbn [fold_left]. rewrite !cap_act.
    assert (String.eqb cap_file dep_file = false) as -> by reflexivity. rewrite String.eqb_refl. auto. }
  revert C. generalize (act_all (download_all check c walk reqs deps fo) fo). clear.
  intros fo C es fo' tr F H m.
  assert (G : forall es fo tr0 fo' tr, cap fo = Some c -> ~ In (Ask m) tr0 ->
    Forall (fun e => match e with EScan s => sc_check s = true /\ sc_caps s = c | EOther f _ => f <> cap_file end) es ->
    history es fo tr0 = (fo', tr) -> ~ In (Ask m) tr).
  { clear. induction es as [|e es IH]; intros fo tr0 fo' tr C N F H; cbn [history] in H.
    - injection H as <- <-. auto.
    - inversion F as [|? ? Fe Fes]. subst. destruct e as [s|f t]; cbn [event_effects] in H.
      + destruct Fe as [F1 F2]. destruct (scan_cut s fo) as (k & j & E). rewrite E in H. unfold download_all in H.
        rewrite F1, F2 in H. apply need_false in C as C'. rewrite C' in H. cbn [andb negb] in H.
        assert (cut_short k j [] = []) as X by (unfold cut_short; destruct k; reflexivity).
        rewrite X, app_nil_r in H. eapply (IH _ _ _ _ C N); eauto.
      + eapply (IH _ _ _ _ ); [| |exact Fes|exact H].
        * cbn [act_all fold_left]. rewrite cap_act.
          assert (String.eqb cap_file f = false) as -> by (apply String.eqb_neq; congruence). auto.
        * intros X. apply in_app_or in X as [X|[X|[]]]; [auto | discriminate]. }
  eapply (G es fo []); eauto.
Qed.

(** A forced scan, and one after the capabilities changed, asks for everything. *)
Theorem asked_again : forall check c walk reqs deps fo m,
  check = false \/ cap fo <> Some c -> In m (map fst reqs) ->
  In (Ask m) (download_all check c walk reqs deps fo).
Proof.
  intros check c walk reqs deps fo m H Hm. unfold download_all.
  assert (check && negb (need_download c fo) = false) as ->.
  { destruct H as [->|H]; auto. destruct (need_download c fo) eqn:E; [apply andb_false_r|].
    apply need_false in E. contradiction. }
  apply in_or_app. right. apply in_or_app. left. apply in_flat_map.
  apply in_map_iff in Hm as ([x t] & <- & Hx). exists (x, t). split; auto. left. auto.
Qed.
