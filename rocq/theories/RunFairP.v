(** The lines of a diff are lines of the texts. *)
From Coq Require Import String Ascii List Bool Arith Lia Permutation.
From Verif Require Import Base BaseP RunningM RunSpec RunDiffP RunCliP RunTextP RunSibP RunOrderP RunAllP RunShowP RunNestSpec RunNestP.
Import ListNotations.
Open Scope string_scope.
Open Scope list_scope.
Open Scope nat_scope.

Definition fair_key (k : string) : Prop := k <> "" /\ rstrip k = k /\ unsigned k.
Notation all_lines := (flat_map lines_of).

Lemma lines_fair : forall x, Forall fair_key (lines_of x) -> Fair x.
Proof.
  induction x as [k v i IH] using item_ind'. intro F. cbn [lines_of] in F. inversion F as [| ? ? (N & R & U) FR]; subst. constructor; auto. intros l E. subst v.
  specialize (IH l eq_refl). clear F. revert FR. induction IH as [| y r Hy _ IHr]; intro FR; constructor; cbn [flat_map] in FR; apply Forall_app in FR; destruct FR; auto.
Qed.

(** ** Reading *)
Lemma unsigned_prefix : forall s r, unsigned (s ++ r) -> unsigned s.
Proof. intros s r U a c q E P. apply (U a c (q ++ r)%string); auto. rewrite E, append_assoc. reflexivity. Qed.
Lemma unsigned_rstrip : forall s, unsigned s -> unsigned (rstrip s).
Proof. intros s U. destruct (rstrip_prefix s) as (r & E). apply (unsigned_prefix _ r). rewrite <- E. exact U. Qed.
Lemma unsigned_spaces : forall n s, unsigned s -> unsigned (spaces n ++ s).
Proof.
  induction n as [| n IH]; intros s U; auto. specialize (IH s U). cbn [spaces String.append]. intros a c r E P. destruct a as [| a0 a].
  - cbn in E. injection E as E _. subst c. reflexivity.
  - cbn in E. injection E as E1 E2. subst a0. apply (IH a c r E2). destruct P as [P | (b & w & P & W)]; [discriminate |]. destruct b as [| b0 b].
    + cbn in P. injection P as _ P. left. exact P.
    + cbn in P. injection P as _ P. right. exists b, w. auto.
Qed.
Lemma indentation_drop : forall n s, n <= indentation s -> unsigned s -> unsigned (sdrop n s).
Proof.
  induction n as [| n IH]; intros s L U; [destruct s; exact U |]. destruct s as [| c s]; [cbn in L; lia |]. cbn [indentation] in L.
  destruct (Ascii.eqb c " ") eqn:E.
  - apply Ascii.eqb_eq in E. subst c. cbn [sdrop]. apply IH; [| exact (unsigned_drop "" " " s eq_refl U)]. cbn in L. lia.
  - exfalso. destruct c as [[] [] [] [] [] [] [] []]; cbn in L, E; try lia; discriminate.
Qed.

Definition rec_fair (rec : list string -> res (list item)) : Prop := forall ls r, Forall unsigned ls -> rec ls = Ok r -> Forall fair_key (all_lines r).
Definition st_fair (st : pstate) : Prop :=
  Forall fair_key (all_lines (p_ret st)) /\ unsigned (p_last st) /\ (p_last st <> "" -> rstrip (p_last st) <> "") /\ Forall unsigned (p_sec st).

Lemma flush_fair : forall rec st l, rec_fair rec -> st_fair st -> flush rec st = Ok l -> Forall fair_key (all_lines l).
Proof.
  intros rec st l H (A & B & C & D) F. unfold flush in F. destruct (p_last st) as [| a s] eqn:E; [injection F as F; subst; auto |].
  assert (K : fair_key (rstrip (String a s))). { split; [apply C; discriminate |]. split; [apply rstrip_idem | apply unsigned_rstrip; exact B]. }
  destruct (0 <? p_ind st).
  - apply bind_ok in F. destruct F as (c & Ec & F). injection F as F. subst l. rewrite flat_map_app. apply Forall_app. split; auto. cbn [flat_map lines_of app]. constructor; auto.
    rewrite app_nil_r. apply (H (p_sec st)); auto.
  - injection F as F. subst l. rewrite flat_map_app. apply Forall_app. split; auto. cbn [flat_map lines_of app]. constructor; auto.
Qed.

Lemma skipped_strip : forall l, skipped l = false -> l <> "" -> rstrip l <> "".
Proof.
  intros l S N H. unfold skipped in S. apply orb_false_iff in S. destruct S as [_ S]. assert (strip l = ""); [| rewrite H0 in S; discriminate].
  unfold strip. destruct (rstrip (lstrip l)) eqn:E; auto. exfalso.
  assert (X : forall p s, rstrip (p ++ s) = "" -> rstrip s = ""). { induction p as [| p0 p IH]; intros q Q; auto. cbn [String.append rstrip] in Q. apply IH. destruct (rstrip (p ++ q)); [reflexivity | discriminate]. }
  assert (Y : exists p, l = (p ++ lstrip l)%string). { clear. induction l as [| c l (p & IH)]; [exists ""; auto |]. cbn [lstrip]. destruct (is_ws c); [exists (String c p); cbn; congruence | exists ""; auto]. }
  destruct Y as (p & Y). rewrite Y in H. apply X in H. congruence.
Qed.

Lemma parse_line_fair : forall rec st line st', rec_fair rec -> st_fair st -> unsigned line -> parse_line rec st line = Ok st' -> st_fair st'.
Proof.
  intros rec st line st' H F U E. assert (FF := flush_fair rec st). unfold parse_line in E. destruct (skipped line) eqn:S; [injection E as E; subst; auto |].
  assert (E0 : st_fair (PState [] "" [] 0 false)). { split; [constructor |]. split; [| split; [cbn; congruence | constructor]]. intros a c r X. destruct a; discriminate. }
  destruct (p_miss st && String.eqb (rstrip line) "!"). { apply bind_ok in E. destruct E as (r & F1 & E). injection E as E. subst st'. destruct E0 as (_ & E2 & E3 & E4). split; [apply (FF r); auto | auto]. }
  destruct (is_comment line); [injection E as E; subst; auto |]. destruct F as (A & B & C & D).
  assert (G : (if negb (is_missing_indent line) && p_miss st
      then Ok (PState (p_ret st) (p_last st) (p_sec st ++ [line]) (if p_ind st =? 0 then 1 else p_ind st) true)
      else let! ret := flush rec st in Ok (PState ret line [] 0 (is_missing_indent line || p_miss st))) = Ok st' -> st_fair st').
  { clear E. intro E. destruct (negb (is_missing_indent line) && p_miss st).
    - injection E as E; subst. split; auto. split; auto. split; auto. cbn [p_sec]. apply Forall_app. auto.
    - apply bind_ok in E. destruct E as (r & F1 & E). injection E as E. subst st'. split; [cbn [p_ret]; apply (FF r); auto; split; auto |]. split; auto. split; [| constructor].
      cbn [p_last]. apply skipped_strip. exact S. }
  cbv zeta in E. destruct line as [| [b0 b1 b2 b3 b4 b5 b6 b7] r]; [apply G; exact E |].
  destruct b0, b1, b2, b3, b4, b5, b6, b7; try (apply G; exact E). injection E as E. subst st'. split; auto. split; auto. split; auto. cbn [p_sec]. apply Forall_app. split; auto. constructor; [| constructor].
  match goal with |- unsigned (if ?a <? ?b then _ else _) => destruct (Nat.ltb_spec a b) as [L | L] end.
  - apply unsigned_spaces. apply indentation_drop; auto. exact (unsigned_drop "" " " r eq_refl U).
  - apply indentation_drop; auto.
Qed.

Lemma config2list_fair : forall f ls l, Forall unsigned ls -> config2list f ls = Ok l -> Forall fair_key (all_lines l).
Proof.
  induction f as [| f IH]; intros ls l U H; [discriminate |]. cbn [config2list] in H. apply bind_ok in H. destruct H as (st & H1 & H2).
  apply (flush_fair (config2list f) st); [exact IH | | exact H2].
  assert (G : forall ls st st', Forall unsigned ls -> st_fair st -> foldM (parse_line (config2list f)) st ls = Ok st' -> st_fair st').
  { clear - IH. induction ls as [| x r IHr]; intros st st' U P F; simpl in F; [injection F as F; subst; auto |]. apply bind_ok in F. destruct F as (st1 & F1 & F).
    inversion U; subst. apply (IHr st1 st'); auto. apply (parse_line_fair (config2list f) st x); auto. }
  apply (G ls (PState [] "" [] 0 false)); auto. split; [constructor |]. split; [| split; [cbn; congruence | constructor]]. intros a c r X. destruct a; discriminate.
Qed.

(** ** Moving *)
Lemma lines_incl : forall l l', incl l l' -> incl (all_lines l) (all_lines l').
Proof. intros l l' I x X. apply in_flat_map in X. destruct X as (y & Y & X). apply in_flat_map. exists y. auto. Qed.

Lemma deep_lines : forall rec mk l2, (forall a b c, rec a b = Ok c -> incl (all_lines c) (all_lines a)) -> forall l l', deep_items rec mk l2 l = Ok l' -> incl (all_lines l') (all_lines l).
Proof.
  intros rec mk l2 H. induction l as [| x r IH]; intros l' E; cbn [deep_items] in E; [injection E as E; subst; intros y [] |].
  apply bind_ok in E. destruct E as (r' & E1 & E). apply IH in E1. destruct x as [k v i]. cbn [ival ikey iinfo] in E.
  assert (Z : Ok (It k v i :: r') = Ok l' -> incl (all_lines l') (all_lines (It k v i :: r))).
  { intro Q. injection Q as Q. subst. cbn [flat_map]. apply incl_app; [apply incl_appl, incl_refl | apply incl_appr; exact E1]. }
  destruct v as [[| y ys] |]; auto. destruct (has_later k r && negb (smem k mk)); auto. destruct (last_kids k l2) as [v2 |]; auto.
  apply bind_ok in E. destruct E as (c & C & E). injection E as E. subst l'. apply H in C. cbn [flat_map]. apply incl_app; [| apply incl_appr; exact E1].
  apply incl_appl. cbn [lines_of]. intros z [Z1 | Z1]; [left; exact Z1 | right; apply C; exact Z1].
Qed.

Lemma handle_orderless_incl : forall f ol d l1 l2 l, handle_orderless f ol d l1 l2 = Ok l -> incl (all_lines l) (all_lines l1).
Proof.
  induction f as [| f IH]; intros ol d l1 l2 l H; [discriminate |]. cbn [handle_orderless] in H. apply bind_ok in H. destruct H as (m & L & H).
  destruct (level_total (ol d) l1 l2) as (m' & L' & I). rewrite L in L'. injection L' as L'. subst m'.
  apply deep_lines in H; [| intros a b c E; apply (IH ol (S d) a b); auto]. eapply incl_tran; [exact H |]. apply lines_incl. exact I.
Qed.

(** ** Diffs *)
Lemma with_info_lines : forall i x, lines_of (with_info i x) = lines_of x.
Proof. intros i [k v j]. reflexivity. Qed.
Lemma map_info_lines : forall i l, all_lines (map (with_info i) l) = all_lines l.
Proof. intros i l. induction l as [| x r IH]; auto. cbn [map flat_map]. rewrite with_info_lines, IH. reflexivity. Qed.

Lemma split_key_app : forall k l a x b, split_key k l = Ok (a, x, b) -> l = a ++ x :: b /\ ikey x = k.
Proof.
  intro k. induction l as [| y r IH]; intros a x b H; [discriminate |]. cbn [split_key] in H. destruct (String.eqb_spec (ikey y) k) as [E | E].
  - injection H as H1 H2 H3. subst. auto.
  - apply bind_ok in H. destruct H as (((a' & y') & b') & H & Q). injection Q as Q1 Q2 Q3. subst. destruct (IH _ _ _ H) as [H1 H2]. subst r. auto.
Qed.

Lemma cleanup_incl : forall d b, incl (all_lines (cleanup b d)) (all_lines d).
Proof.
  induction d as [| x r IH]; intro b; [intros y [] |]. cbn [cleanup flat_map]. specialize (IH (ikey x :: b)).
  assert (G : incl (all_lines (x :: cleanup (ikey x :: b) r)) (lines_of x ++ all_lines r)). { cbn [flat_map]. apply incl_app; [apply incl_appl, incl_refl | apply incl_appr; exact IH]. }
  destruct (iinfo x); auto. destruct (existsb (fun k => smem k b) (keys r)).
  - cbn [flat_map]. rewrite with_info_lines. exact G.
  - apply incl_appr. exact IH.
Qed.

Lemma compare_lines : forall f l1 l2 d, compare f l1 l2 = Ok d -> incl (all_lines d) (all_lines l1 ++ all_lines l2).
Proof.
  induction f as [| f IH]; intros l1 l2 d H; [discriminate |]. cbn [compare] in H. apply bind_ok in H. destruct H as (cs & _ & H). apply bind_ok in H. destruct H as (d0 & H & E). injection E as E. subst d.
  eapply incl_tran; [apply cleanup_incl |]. revert l1 l2 d0 H. induction cs as [| k cs IHc]; intros l1 l2 d0 H; cbn [raw_diff] in H.
  - injection H as H. subst d0. unfold minus, plus. rewrite flat_map_app, !map_info_lines. apply incl_refl.
  - apply bind_ok in H. destruct H as (((a1 & x1) & b1) & S1 & H). apply bind_ok in H. destruct H as (((a2 & x2) & b2) & S2 & H).
    apply bind_ok in H. destruct H as (c & C & H). apply bind_ok in H. destruct H as (e & E & H). injection H as H. subst d0.
    apply split_key_app in S1. apply split_key_app in S2. destruct S1 as [S1 K1]. destruct S2 as [S2 K2]. apply IHc in E. subst l1 l2.
    assert (CL : incl (all_lines c) (lines_of x1 ++ lines_of x2)).
    { destruct x1 as [k1 v1 i1]. destruct x2 as [k2 v2 i2]. cbn in K1, K2. subst k1 k2. cbn [ival] in C. unfold common_item in C. destruct (val_eqb v1 v2).
      - injection C as C. subst c. cbn [flat_map lines_of]. rewrite app_nil_r. destruct v1 as [l |]; cbn [option_map].
        + rewrite map_info_lines. apply incl_appl, incl_refl.
        + apply incl_appl, incl_refl.
      - destruct v1 as [l |]; destruct v2 as [l' |].
        + apply bind_ok in C. destruct C as (g & G & C). injection C as C. subst c. apply IH in G. cbn [flat_map lines_of]. rewrite app_nil_r. intros z [Z | Z]; [left; auto |].
          apply G in Z. apply in_app_or in Z. cbn. destruct Z; [right; apply in_or_app; left; auto |]. right. apply in_or_app. right. right. auto.
        + injection C as C. subst c. cbn [flat_map lines_of]. unfold minus. rewrite map_info_lines, app_nil_r. apply incl_appl, incl_refl.
        + injection C as C. subst c. cbn [flat_map lines_of]. unfold plus. rewrite map_info_lines, app_nil_r. apply incl_appr, incl_refl.
        + injection C as C. subst c. intros z []. }
    rewrite !flat_map_app. cbn [flat_map]. unfold minus, plus. rewrite !map_info_lines.
    intros z Z. repeat (apply in_app_or in Z; destruct Z as [Z | Z]); rewrite !in_app_iff.
    + auto.
    + auto.
    + apply CL in Z. apply in_app_or in Z. tauto.
    + apply E in Z. apply in_app_or in Z. tauto.
Qed.

(** ** From the texts *)
Theorem diff_fair : forall r t1 t2 d, get_diff r t1 t2 = Ok d -> Forall unsigned (map replace_line t1) -> Forall unsigned (map replace_line t2) -> Forall Fair d.
Proof.
  intros r t1 t2 d D U1 U2. unfold get_diff, running_lists, running2list in D.
  apply bind_ok in D. destruct D as ((s1 & s2) & S & D). apply bind_ok in S. destruct S as ((m1 & m2) & M & S).
  apply bind_ok in M. destruct M as (l1 & P1 & M). apply bind_ok in M. destruct M as (l2 & P2 & M). apply bind_ok in M. destruct M as (l & L & M). injection M as M1 M2. subst m1 m2.
  apply bind_ok in S. destruct S as (s1' & S1 & S). apply bind_ok in S. destruct S as (s2' & S2 & S). injection S as E1 E2. subst s1' s2'.
  assert (F1 := config2list_fair _ _ _ U1 P1). assert (F2 := config2list_fair _ _ _ U2 P2).
  apply handle_orderless_incl in L. apply handle_siblings_lines in S1. apply handle_siblings_lines in S2.
  rewrite Forall_forall in F1, F2.
  assert (G1 : Forall fair_key (all_lines s1)). { apply Forall_forall. intros x X. apply F1, L. apply (Permutation_in _ (Permutation_sym S1)). exact X. }
  assert (G2 : Forall fair_key (all_lines s2)). { apply Forall_forall. intros x X. apply F2. apply (Permutation_in _ (Permutation_sym S2)). exact X. }
  assert (G : Forall fair_key (all_lines d)).
  { rewrite Forall_forall in G1, G2. apply Forall_forall. intros x X. destruct r; apply compare_lines in D; apply D in X; apply in_app_or in X; destruct X; auto. }
  apply Forall_forall. intros x X. apply lines_fair. apply Forall_forall. intros y Y. rewrite Forall_forall in G. apply G. apply in_flat_map. eauto.
Qed.

(** A check for one line. *)
Fixpoint unsigned_b (start : bool) (s : string) : bool :=
  match s with
  | EmptyString => true
  | String c r => negb (start && is_sign c) && unsigned_b (is_ws c) r
  end.
Lemma unsigned_b_tail : forall s b, unsigned_b b s = true -> forall a c r, s = (a ++ String c r)%string ->
  ((a = "" /\ b = true) \/ exists x w, a = (x ++ String w "")%string /\ is_ws w = true) -> is_sign c = false.
Proof.
  induction s as [| d s IH]; intros b H a c r E P; [destruct a; discriminate |]. cbn [unsigned_b] in H. apply andb_true_iff in H. destruct H as [H1 H2].
  destruct a as [| a0 a]; cbn in E; injection E as E1 E2.
  - subst d. destruct P as [[_ P] | (x & w & P & _)]; [| destruct x; discriminate]. subst b. cbn in H1. destruct (is_sign c); auto; discriminate.
  - subst a0. apply (IH _ H2 a c r E2). destruct P as [[P _] | (x & w & P & W)]; [discriminate |]. destruct x as [| x0 x]; cbn in P; injection P as P1 P2.
    + subst. left. auto.
    + right. exists x, w. auto.
Qed.
Lemma unsigned_check : forall s, unsigned_b true s = true -> unsigned s.
Proof. intros s H a c r E P. apply (unsigned_b_tail s true H a c r E). destruct P as [P | P]; auto. Qed.
Lemma unsigned_lines : forall t, forallb (unsigned_b true) (map replace_line t) = true -> Forall unsigned (map replace_line t).
Proof. intros t H. apply Forall_forall. intros x X. rewrite forallb_forall in H. apply unsigned_check. auto. Qed.

(** ** The commands for nested lines, from the texts *)
Theorem added_below : forall r t1 t2 d p d' k, Forall unsigned (map replace_line (t1 ++ t2)) -> get_diff r t1 t2 = Ok d -> Below p d d' -> (forall h, In h p -> Kept h) ->
  In (It k None IPlus) d' -> clean k -> starts "no " k = false -> existsb (fun ps => re_test ps k) overwritable_commands = false ->
  exists ls, get_cli r t1 t2 = Ok ls /\ Within p (fun s => exists t, In t s /\ t <> "" /\ Begins k t) ls.
Proof. intros r t1 t2 d p d' k U D. rewrite map_app in U. apply Forall_app in U. destruct U as [U1 U2]. apply nested_added; auto. apply (diff_fair r t1 t2); auto. Qed.

Theorem section_below : forall r t1 t2 d p d' k l, Forall unsigned (map replace_line (t1 ++ t2)) -> get_diff r t1 t2 = Ok d -> Below p d d' -> (forall h, In h p -> Kept h) ->
  In (It k (Some l) IPlus) d' -> ordinary_item (It k (Some l) ISame) = true ->
  (forall ps, In ps overwritable_commands -> over_match ps (k :: list2config None l) = None) ->
  exists ls, get_cli r t1 t2 = Ok ls /\ Within p (fun s => exists a b, s = a ++ (k :: list2config None l) ++ b) ls /\
    parse (k :: list2config None l) = Ok [It k (Some l) ISame].
Proof. intros r t1 t2 d p d' k l U D. rewrite map_app in U. apply Forall_app in U. destruct U as [U1 U2]. apply nested_section; auto. apply (diff_fair r t1 t2); auto. Qed.

Theorem removed_below : forall r t1 t2 d p d' k v, Forall unsigned (map replace_line (t1 ++ t2)) -> get_diff r t1 t2 = Ok d -> Below p d d' -> (forall h, In h p -> Kept h) ->
  In (It k v IMinus) d' -> clean k -> starts "no " k = false ->
  (exists k', In (It k' None IPlus) d' /\ Begins k k' /\ v = None) \/
  (exists ls, get_cli r t1 t2 = Ok ls /\ Within p (fun s => exists t, In t s /\ t <> "" /\ Begins t ("no " ++ k)) ls) \/
  (exists x c ps m u, In x d' /\ MadeFrom x c /\ In ps overwritable_commands /\ over_match ps c = Some m /\
     handle_command ("no " ++ k) = (u, true) /\ Begins ("no " ++ lstrip m) u).
Proof. intros r t1 t2 d p d' k v U D. rewrite map_app in U. apply Forall_app in U. destruct U as [U1 U2]. apply nested_removed; auto. apply (diff_fair r t1 t2); auto. Qed.
