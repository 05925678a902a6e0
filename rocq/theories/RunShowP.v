(** Proofs: the printed form of a diff. *)
From Coq Require Import String Ascii List Bool Arith ZArith Lia Permutation.
From Verif Require Import Base BaseP RunningM RunSpec RunDiffP RunCliP RunTextP RunSibP RunOrderP RunAllP.
Import ListNotations.
Open Scope string_scope.
Open Scope list_scope.

(** Diffs as they are printed: none has the internal mark. *)
Fixpoint showable_item (x : item) : bool :=
  let '(It k v i) := x in
  negb (info_eqb i IBoth) && match v with None => true | Some l => forallb showable_item l end.

Lemma indent_printed : forall x n j, showable_item x = true -> j <> IBoth ->
  indent (printed_item n j x) = printed_item (S n) j x.
Proof.
  induction x as [k v i IH] using item_ind'; intros n j S J. cbn [printed_item showable_item] in *.
  apply andb_true_iff in S. destruct S as [S1 S2]. 
  set (j' := match j with ISame => i | _ => j end). assert (J' : j' <> IBoth) by (unfold j'; destruct j; try congruence; intro; subst; discriminate).
  destruct (String.eqb k ""); auto. unfold indent. cbn [flat_map]. fold indent.
  assert (H : indent_line (sign j' ++ spaces (2 * n + 1) ++ k) = [(sign j' ++ spaces (2 * (S n) + 1) ++ k)%string]).
  { replace (2 * S n + 1) with (S (S (2 * n + 1))) by lia. destruct j'; try congruence; reflexivity. }
  rewrite H. cbn [app]. f_equal. destruct v as [l |]; auto. clear H. change (flat_map indent_line) with indent.
  assert (G : forall l, Forall (fun x => forall n j, showable_item x = true -> j <> IBoth -> indent (printed_item n j x) = printed_item (S n) j x) l ->
    forallb showable_item l = true -> indent (flat_map (printed_item (S n) j') l) = flat_map (printed_item (S (S n)) j') l).
  { clear - J'. induction l as [| x r IHl]; intros F S; auto. inversion F; subst. cbn [forallb] in S. apply andb_true_iff in S. destruct S as [S1 S2]. cbn [flat_map].
    unfold indent in *. rewrite flat_map_app, IHl by auto. f_equal. auto. }
  apply G; auto.
Qed.

Lemma render_printed : forall x j, showable_item x = true -> j <> IBoth -> render_item (Some j) x = printed_item 0 j x.
Proof.
  induction x as [k v i IH] using item_ind'; intros j S J. cbn [printed_item render_item showable_item] in *.
  apply andb_true_iff in S. destruct S as [S1 S2].  destruct k as [| a k]; auto. cbn [String.eqb]. set (K := String a k) in *.
  set (j' := match j with ISame => i | _ => j end). assert (J' : j' <> IBoth) by (unfold j'; destruct j; try congruence; intro; subst; discriminate).
  assert (E : match j with ISame => Some i | _ => Some j end = Some j') by (unfold j'; destruct j; auto). rewrite E. f_equal.
  - destruct j'; try congruence; reflexivity.
  - destruct v as [l |]; auto. assert (G : forall l, Forall (fun x => forall j, showable_item x = true -> j <> IBoth -> render_item (Some j) x = printed_item 0 j x) l ->
    forallb showable_item l = true -> indent (flat_map (render_item (Some j')) l) = flat_map (printed_item 1 j') l).
    { clear - J'. induction l as [| x r IHl]; intros F S; auto. inversion F as [| ? ? F1 F2]; subst. cbn [forallb] in S. apply andb_true_iff in S. destruct S as [S1 S2]. cbn [flat_map].
      unfold indent in *. rewrite flat_map_app, IHl by auto. f_equal. rewrite F1 by auto. apply indent_printed; auto. }
    apply G; auto.
Qed.

Lemma list2config_printed : forall d, forallb showable_item d = true -> list2config (Some ISame) d = printed d.
Proof.
  unfold list2config, printed. induction d as [| x r IH]; intro S; auto. cbn [forallb] in S. apply andb_true_iff in S. destruct S as [S1 S2]. cbn [flat_map]. rewrite IH by auto. f_equal.
  apply render_printed; auto. discriminate.
Qed.

Lemma plain_showable : forall x, plain_item x = true -> showable_item x = true.
Proof.
  induction x as [k v i IH] using item_ind'; intros P. cbn [plain_item showable_item] in *. apply andb_true_iff in P. destruct P as [P1 P2].
  apply info_eqb_eq in P1. subst i. cbn [info_eqb negb andb]. destruct v as [l |]; auto.
  specialize (IH l eq_refl). revert IH P2. unfold plain. induction l as [| x r IHl]; intros IH P2; auto. cbn [forallb] in *. apply andb_true_iff in P2. destruct P2 as [P2 P3]. inversion IH; subst.
  rewrite IHl by auto. rewrite andb_true_r. auto.
Qed.
Lemma plain_list : forall l, plain l = true -> forallb showable_item l = true.
Proof. intros l P. unfold plain in P. rewrite forallb_forall in *. intros x H. apply plain_showable; auto. Qed.

Lemma Script_showable : forall l1 l2 d, Script l1 l2 d -> forallb showable_item l1 = true -> forallb showable_item l2 = true -> forallb showable_item d = true.
Proof.
  induction 1; intros S1 S2; cbn [forallb] in *; repeat match goal with H : andb _ _ = true |- _ => apply andb_true_iff in H; destruct H end; auto;
    cbn [showable_item forallb] in *; repeat match goal with H : andb _ _ = true |- _ => apply andb_true_iff in H; destruct H end;
    repeat (apply andb_true_iff; split); auto.
Qed.

Lemma running_printed : forall t1 t2, exists d, get_diff false t1 t2 = Ok d /\ running_str t1 t2 = Ok (printed d).
Proof.
  intros t1 t2. destruct (running_lists_total t1 t2) as (s1 & s2 & E & P1 & P2). destruct (list_diff_edit s1 s2 P1 P2) as (d & D & S).
  assert (G : get_diff false t1 t2 = Ok d) by (unfold get_diff; rewrite E; auto). exists d. split; auto. unfold running_str. rewrite G. cbn [bind]. f_equal.
  apply list2config_printed. apply (Script_showable s1 s2); auto; apply plain_list; auto.
Qed.

(** ** Trailing blanks *)

Lemma rstrip_idem : forall s, rstrip (rstrip s) = rstrip s.
Proof.
  induction s as [| c s IH]; auto. cbn [rstrip]. destruct (rstrip s) as [| d r] eqn:R.
  - destruct (is_ws c) eqn:W; auto. cbn [rstrip]. rewrite W. auto.
  - change (rstrip (String c (String d r))) with (match rstrip (String d r) with EmptyString => if is_ws c then "" else String c "" | r' => String c r' end). rewrite IH. auto.
Qed.

Lemma flush_tidy : forall rec st l, (forall ls r, rec ls = Ok r -> forallb tidy_item r = true) -> forallb tidy_item (p_ret st) = true -> flush rec st = Ok l -> forallb tidy_item l = true.
Proof.
  intros rec st l H P F. unfold flush in F. destruct (p_last st) as [| a s] eqn:E; [injection F as F; subst; auto |]. rewrite <- E in F. clear E. destruct (0 <? p_ind st)%nat.
  - apply bind_ok in F. destruct F as (c & C & F). injection F as F. subst l. rewrite forallb_app, P. cbn [forallb tidy_item andb]. rewrite rstrip_idem, String.eqb_refl. apply H in C. rewrite C. auto.
  - injection F as F. subst l. rewrite forallb_app, P. cbn [forallb tidy_item andb]. rewrite rstrip_idem, String.eqb_refl. auto.
Qed.

Lemma parse_line_tidy : forall rec st line st', (forall ls r, rec ls = Ok r -> forallb tidy_item r = true) -> forallb tidy_item (p_ret st) = true -> parse_line rec st line = Ok st' -> forallb tidy_item (p_ret st') = true.
Proof.
  intros rec st line st' H P E. unfold parse_line in E. destruct (skipped line); [injection E as E; subst; auto |].
  destruct (p_miss st && String.eqb (rstrip line) "!"). { apply bind_ok in E. destruct E as (r & F & E). injection E as E. subst st'. apply (flush_tidy rec st); auto. }
  destruct (is_comment line); [injection E as E; subst; auto |].
  assert (G : (if negb (is_missing_indent line) && p_miss st
      then Ok (PState (p_ret st) (p_last st) (p_sec st ++ [line]) (if Nat.eqb (p_ind st) 0 then 1 else p_ind st) true)
      else let! ret := flush rec st in Ok (PState ret line [] 0 (is_missing_indent line || p_miss st))) = Ok st' -> forallb tidy_item (p_ret st') = true).
  { clear E. intro E. destruct (negb (is_missing_indent line) && p_miss st); [injection E as E; subst; auto |]. apply bind_ok in E. destruct E as (r & F & E). injection E as E. subst st'. apply (flush_tidy rec st); auto. }
  cbv zeta in E. destruct line as [| [b0 b1 b2 b3 b4 b5 b6 b7] r]; [apply G; exact E |].
  destruct b0, b1, b2, b3, b4, b5, b6, b7; try (apply G; exact E). injection E as E. subst st'. auto.
Qed.

Lemma config2list_tidy : forall f ls l, config2list f ls = Ok l -> forallb tidy_item l = true.
Proof.
  induction f as [| f IH]; intros ls l H; [discriminate |]. cbn [config2list] in H. apply bind_ok in H. destruct H as (st & H1 & H2).
  apply (flush_tidy (config2list f) st); auto.
  assert (G : forall ls st st', forallb tidy_item (p_ret st) = true -> foldM (parse_line (config2list f)) st ls = Ok st' -> forallb tidy_item (p_ret st') = true).
  { clear H1 H2 st ls. induction ls as [| x r IHr]; intros st st' P F; simpl in F; [injection F as F; subst; auto |]. apply bind_ok in F. destruct F as (st1 & F1 & F).
    apply (IHr st1 st'); auto. apply (parse_line_tidy (config2list f) st x); auto. }
  apply (G ls (PState [] "" [] 0 false)); auto.
Qed.
Lemma parse_tidy : forall ls, exists l, parse ls = Ok l /\ forallb tidy_item l = true.
Proof. intro ls. destruct (parse_total ls) as (l & P). exists l. split; auto. apply (config2list_tidy _ _ _ P). Qed.
