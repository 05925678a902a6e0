(** From texts to diffs and commands. *)
From Coq Require Import String Ascii List Bool Arith ZArith Lia Permutation.
From Verif Require Import Base BaseP RunningM RunSpec RunDiffP RunCliP RunTextP RunSibP RunOrderP.
Import ListNotations.
Open Scope string_scope.
Open Scope list_scope.
Open Scope nat_scope.

Lemma plain_app : forall a b, plain (a ++ b) = plain a && plain b.
Proof. intros. apply forallb_app. Qed.
Lemma plain_In : forall l x, plain l = true -> In x l -> plain_item x = true.
Proof. intros l x P H. unfold plain in P. rewrite forallb_forall in P. auto. Qed.
Lemma plain_incl : forall l l', incl l l' -> plain l' = true -> plain l = true.
Proof. intros l l' I P. apply forallb_forall. intros x X. apply (plain_In l'); auto. Qed.

(** ** Parsing *)

Lemma flush_plain : forall rec st l, (forall ls r, rec ls = Ok r -> plain r = true) -> plain (p_ret st) = true -> flush rec st = Ok l -> plain l = true.
Proof.
  intros rec st l H P F. unfold flush in F. destruct (p_last st) as [| a s]; [injection F as F; subst; auto |]. destruct (0 <? p_ind st).
  - apply bind_ok in F. destruct F as (c & C & F). injection F as F. subst l. rewrite plain_app, P. unfold plain. cbn [forallb plain_item info_eqb andb]. apply H in C. unfold plain in C. rewrite C. auto.
  - injection F as F. subst l. rewrite plain_app, P. auto.
Qed.

Lemma parse_line_plain : forall rec st line st', (forall ls r, rec ls = Ok r -> plain r = true) -> plain (p_ret st) = true -> parse_line rec st line = Ok st' -> plain (p_ret st') = true.
Proof.
  intros rec st line st' H P E. unfold parse_line in E. destruct (skipped line); [injection E as E; subst; auto |].
  destruct (p_miss st && String.eqb (rstrip line) "!"). { apply bind_ok in E. destruct E as (r & F & E). injection E as E. subst st'. apply (flush_plain rec st); auto. }
  destruct (is_comment line); [injection E as E; subst; auto |].
  assert (G : (if negb (is_missing_indent line) && p_miss st
      then Ok (PState (p_ret st) (p_last st) (p_sec st ++ [line]) (if p_ind st =? 0 then 1 else p_ind st) true)
      else let! ret := flush rec st in Ok (PState ret line [] 0 (is_missing_indent line || p_miss st))) = Ok st' -> plain (p_ret st') = true).
  { clear E. intro E. destruct (negb (is_missing_indent line) && p_miss st); [injection E as E; subst; auto |]. apply bind_ok in E. destruct E as (r & F & E). injection E as E. subst st'. apply (flush_plain rec st); auto. }
  cbv zeta in E. destruct line as [| [b0 b1 b2 b3 b4 b5 b6 b7] r]; [apply G; exact E |].
  destruct b0, b1, b2, b3, b4, b5, b6, b7; try (apply G; exact E). injection E as E. subst st'. auto.
Qed.

Lemma config2list_plain : forall f ls l, config2list f ls = Ok l -> plain l = true.
Proof.
  induction f as [| f IH]; intros ls l H; [discriminate |]. cbn [config2list] in H. apply bind_ok in H. destruct H as (st & H1 & H2).
  apply (flush_plain (config2list f) st); auto.
  assert (G : forall ls st st', plain (p_ret st) = true -> foldM (parse_line (config2list f)) st ls = Ok st' -> plain (p_ret st') = true).
  { clear H1 H2 st ls. induction ls as [| x r IHr]; intros st st' P F; simpl in F; [injection F as F; subst; auto |]. apply bind_ok in F. destruct F as (st1 & F1 & F).
    apply (IHr st1 st'); auto. apply (parse_line_plain (config2list f) st x); auto. }
  apply (G ls (PState [] "" [] 0 false)); auto.
Qed.
Lemma parse_plain : forall ls l, parse ls = Ok l -> plain l = true.
Proof. intros ls l H. apply config2list_plain in H. auto. Qed.

(** ** Moving and splitting *)

Lemma deep_plain : forall rec mk l2, (forall a b c, plain a = true -> rec a b = Ok c -> plain c = true) -> forall l l', plain l = true -> deep_items rec mk l2 l = Ok l' -> plain l' = true.
Proof.
  intros rec mk l2 H. induction l as [| x r IH]; intros l' P E; cbn [deep_items] in E; [injection E as E; subst; auto |].
  unfold plain in P. cbn [forallb] in P. apply andb_true_iff in P. destruct P as [Px Pr]. apply bind_ok in E. destruct E as (r' & E1 & E). apply IH in E1; auto.
  destruct x as [k v i]. cbn [ival ikey iinfo] in E.
  assert (Z : Ok (It k v i :: r') = Ok l' -> plain l' = true) by (intro Q; injection Q as Q; subst; unfold plain; cbn [forallb]; rewrite Px; auto).
  destruct v as [[| y ys] |]; auto. destruct (has_later k r && negb (smem k mk)); auto. destruct (last_kids k l2) as [v2 |]; auto.
  apply bind_ok in E. destruct E as (c & C & E). injection E as E. subst l'. unfold plain. cbn [forallb plain_item] in *. apply andb_true_iff in Px. destruct Px as [P1 P2]. apply H in C; auto.
  unfold plain in C, E1. rewrite P1, C, E1. auto.
Qed.

Lemma handle_orderless_plain : forall f ol d l1 l2 l, plain l1 = true -> handle_orderless f ol d l1 l2 = Ok l -> plain l = true.
Proof.
  induction f as [| f IH]; intros ol d l1 l2 l P H; [discriminate |]. cbn [handle_orderless] in H. apply bind_ok in H. destruct H as (m & L & H).
  destruct (level_total (ol d) l1 l2) as (m' & L' & I). rewrite L in L'. injection L' as L'. subst m'.
  apply deep_plain in H; auto. { intros a b c A E. apply (IH ol (S d) a b); auto. } apply (plain_incl m l1); auto.
Qed.

Lemma split_plain : forall sib x x' s, plain_item x = true -> split_siblings sib x = (x', s) -> plain_item x' = true /\ plain s = true.
Proof.
  intros sib [k v i] x' s P H. unfold split_siblings in H. cbn [ival ikey iinfo] in H. destruct v as [l |].
  2: { injection H as E1 E2. subst. auto. }
  destruct (sib k). 2: { injection H as E1 E2. subst. auto. }
  injection H as E1 E2. subst x' s. cbn [plain_item] in P. apply andb_true_iff in P. destruct P as [P1 P2].
  assert (PF : forall p, plain (filter p l) = true) by (intro p; apply (plain_incl _ l); [intros y Y; apply filter_In in Y; tauto | exact P2]). split; auto.
  cbn [plain_item]. rewrite P1. specialize (PF (fun c => negb (sib (ikey c)))). destruct (filter (fun c => negb (sib (ikey c))) l); auto.
Qed.

Lemma siblings_plain : forall f sib l l', plain l = true -> siblings f sib l = Ok l' -> plain l' = true.
Proof.
  induction f as [| f IH]; intros sib l l' P H; [discriminate |]. rewrite siblings_eq in H.
  assert (G : forall n l l', plain l = true -> sib_loop sib (siblings f sib) n l = Ok l' -> plain l' = true).
  { clear P H l l'. induction n as [| n IHn]; intros l l' P E; [simpl in E; injection E as E; subst; auto |]. destruct l as [| x r]; [simpl in E; injection E as E; subst; auto |].
    cbn [sib_loop] in E. fold (sib_loop sib (siblings f sib)) in E. destruct (split_siblings sib x) as [x' s] eqn:S.
    unfold plain in P. cbn [forallb] in P. apply andb_true_iff in P. destruct P as [Px Pr]. destruct (split_plain sib x x' s Px S) as [Px' Ps].
    apply bind_ok in E. destruct E as (x'' & E1 & E). apply bind_ok in E. destruct E as (r' & E2 & E). injection E as E. subst l'.
    apply IHn in E2; [| rewrite plain_app, Ps; auto]. unfold plain in *. cbn [forallb]. rewrite E2, andb_true_r.
    destruct x' as [k v i]. cbn [ival ikey iinfo] in E1. destruct v as [c |]; [| injection E1 as E1; subst; auto]. apply bind_ok in E1. destruct E1 as (c' & C & E1). injection E1 as E1. subst x''.
    cbn [plain_item] in *. apply andb_true_iff in Px'. destruct Px' as [Q1 Q2]. apply IH in C; auto. unfold plain in C. rewrite Q1, C. auto. }
  apply (G (length l) l); auto.
Qed.

(** ** The diff of two texts *)

Lemma running_lists_total : forall t1 t2, exists s1 s2, running_lists t1 t2 = Ok (s1, s2) /\ plain s1 = true /\ plain s2 = true.
Proof.
  intros t1 t2. unfold running_lists, running2list. destruct (parse_total (map replace_line t1)) as (l1 & P1). destruct (parse_total (map replace_line t2)) as (l2 & P2). rewrite P1, P2. cbn [bind].
  destruct (orderless_total match_orderless l1 l2) as (l & L). rewrite L. cbn [bind]. destruct (handle_siblings_total is_sibling_command l) as (s1 & S1). destruct (handle_siblings_total is_sibling_command l2) as (s2 & S2).
  rewrite S1, S2. cbn [bind]. exists s1, s2. split; auto. split.
  - apply (siblings_plain (S (depth l)) is_sibling_command l); auto. apply (handle_orderless_plain (S (depth l1)) match_orderless 0 l1 l2); auto. apply (parse_plain _ _ P1).
  - apply (siblings_plain (S (depth l2)) is_sibling_command l2); auto. apply (parse_plain _ _ P2).
Qed.

Lemma get_diff_script : forall t1 t2, exists s1 s2 d d', running_lists t1 t2 = Ok (s1, s2) /\
  get_diff false t1 t2 = Ok d /\ Script s1 s2 d /\ get_diff true t1 t2 = Ok d' /\ Script s2 s1 d'.
Proof.
  intros t1 t2. destruct (running_lists_total t1 t2) as (s1 & s2 & E & P1 & P2). unfold get_diff. rewrite E. cbn [bind].
  destruct (list_diff_script s1 s2) as (d & D1 & D2). destruct (list_diff_script s2 s1) as (d' & D3 & D4). exists s1, s2, d, d'. auto 10.
Qed.

Lemma running_total : forall t1 t2 r, (exists d, get_diff r t1 t2 = Ok d) /\ (exists b, running_bool t1 t2 = Ok b) /\ (exists s, running_str t1 t2 = Ok s) /\ (exists c, get_cli r t1 t2 = Ok c).
Proof.
  intros t1 t2 r. destruct (get_diff_script t1 t2) as (s1 & s2 & d & d' & _ & D & _ & D' & _).
  assert (G : exists x, get_diff r t1 t2 = Ok x) by (destruct r; eauto). split; auto. unfold running_bool, running_str, get_cli. rewrite D. cbn [bind]. split; eauto. split; eauto.
  destruct G as (x & G). rewrite G. cbn [bind]. destruct x; eauto. destruct (list2cli overwritable_commands (i :: x)) as [p n]. destruct (text_empty p); eauto. destruct (text_empty n); eauto.
Qed.

Lemma silent_same : forall t1 t2 s, running_lists t1 t2 = Ok (s, s) -> ~ surrounded s -> Silent t1 t2.
Proof.
  intros t1 t2 s E N. assert (D : list_diff s s = Ok []) by (apply self_diff; auto). unfold Silent, running_bool, running_str, get_cli, get_diff. rewrite E. cbn [bind]. rewrite D. cbn [bind]. auto 10.
Qed.

Lemma shuffled_silent : forall t1 t2 l1 l2, parse (map replace_line t1) = Ok l1 -> parse (map replace_line t2) = Ok l2 -> Shuffled match_orderless 0 l1 l2 ->
  forallb (apart is_sibling_command) l2 = true -> Silent t1 t2.
Proof.
  intros t1 t2 l1 l2 P1 P2 S A. apply (silent_same t1 t2 l2).
  - unfold running_lists, running2list. rewrite P1, P2. cbn [bind]. rewrite (orderless_shuffled _ _ _ S). cbn [bind]. unfold handle_siblings. rewrite siblings_apart by auto. auto.
  - apply NoDup_not_surrounded. inversion S; auto.
Qed.

Lemma self_silent : forall t l, parse (map replace_line t) = Ok l -> distinct l -> forallb (apart is_sibling_command) l = true -> Silent t t.
Proof. intros t l P D A. apply (shuffled_silent t t l l); auto. apply Shuffled_refl. auto. Qed.

(** The lines of the first text, moved and split, still are its lines. *)
Scheme Moved_mut := Induction for Moved Sort Prop with Inside_mut := Induction for Inside Sort Prop.
Lemma Moved_lines : forall ol d l l', Moved ol d l l' -> Permutation (flat_map lines_of l) (flat_map lines_of l').
Proof.
  intros ol d l l' H. apply (Moved_mut ol (fun d l l' _ => Permutation (flat_map lines_of l) (flat_map lines_of l')) (fun d l l' _ => Permutation (flat_map lines_of l) (flat_map lines_of l'))) with (n := d); auto.
  - intros d0 a m b P F I IH. rewrite <- IH. apply Permutation_flat_map. exact P.
  - intros d0 x a b I IH. cbn [flat_map]. apply Permutation_app_head. exact IH.
  - intros d0 k v w i a b M IHM I IHI. cbn [flat_map lines_of]. apply Permutation_app; [apply perm_skip; exact IHM | exact IHI].
Qed.

(** No line of either text is lost before the comparison. *)
Lemma running_lists_lines : forall t1 t2 l1 l2 s1 s2, parse (map replace_line t1) = Ok l1 -> parse (map replace_line t2) = Ok l2 -> distinct l1 -> distinct l2 ->
  running_lists t1 t2 = Ok (s1, s2) ->
  Permutation (flat_map lines_of l1) (flat_map lines_of s1) /\ Permutation (flat_map lines_of l2) (flat_map lines_of s2).
Proof.
  intros t1 t2 l1 l2 s1 s2 P1 P2 D1 D2 H. unfold running_lists, running2list in H. rewrite P1, P2 in H. cbn [bind] in H. destruct (orderless match_orderless l1 l2) as [l | e] eqn:L; [| discriminate]. cbn [bind] in H.
  apply bind_ok in H. destruct H as (a & A & H). apply bind_ok in H. destruct H as (b & B & H). injection H as E1 E2. subst a b. split.
  - rewrite (Moved_lines _ _ _ _ (orderless_moved _ _ _ _ D1 D2 L)). apply (handle_siblings_lines is_sibling_command). auto.
  - apply (handle_siblings_lines is_sibling_command). auto.
Qed.

(** ** Commands for the lines of the diff *)

Lemma get_cli_lines : forall r t1 t2 d, get_diff r t1 t2 = Ok d -> d <> [] -> exists ls, get_cli r t1 t2 = Ok ls /\
  (forall c t, In c (c_pos (cli_lists overwritable_commands d)) -> In t c -> t <> "" -> In t ls) /\
  (forall c t, In c (c_neg (cli_lists overwritable_commands d)) -> In t c -> t <> "" -> In t ls) /\
  (forall c t u, In c (c_pos (cli_lists overwritable_commands d)) -> c = t :: u -> t <> "" -> exists a b, ls = a ++ c ++ b).
Proof.
  intros r t1 t2 d D N. unfold get_cli. rewrite D. cbn [bind]. destruct d as [| x d]; [congruence |]. destruct (list2cli overwritable_commands (x :: d)) as [p n] eqn:E.
  unfold list2cli in E. set (cl := cli_lists overwritable_commands (x :: d)) in *. apply pair_equal_spec in E. destruct E as [E1 E2]. clearbody cl.
  assert (P : forall c t, In c (c_pos cl) -> In t c -> In t p) by (intros c t C T; rewrite <- E1; apply in_concat; exists c; auto).
  assert (Q : forall c t, In c (c_neg cl) -> In t c -> In t n) by (intros c t C T; rewrite <- E2; apply in_concat; exists c; split; auto; apply in_rev in C; auto).
  assert (B : forall c, In c (c_pos cl) -> exists a b, p = a ++ c ++ b). { intros c C. apply in_split in C. destruct C as (a & b & C). exists (concat a), (concat b). rewrite <- E1. unfold join_cmds. rewrite C, concat_app. auto. }
  assert (TE : forall l t, text_empty l = true -> In t l -> t <> "" -> False). { intros [| [| a s] [| y r']] t Z T NE; simpl in *; try discriminate; intuition. }
  assert (Z : exists ls, (if text_empty p then Ok n else if text_empty n then Ok p else Ok (n ++ ["!"] ++ p)) = Ok ls /\ (text_empty p = false -> exists a b, ls = a ++ p ++ b) /\ (text_empty n = false -> exists a b, ls = a ++ n ++ b)).
  { destruct (text_empty p) eqn:X; [exists n; repeat split; auto; try discriminate; intros _; exists [], []; rewrite app_nil_r; auto |]. destruct (text_empty n) eqn:Y.
    - exists p. repeat split; auto; try discriminate. intros _. exists [], []. rewrite app_nil_r. auto.
    - exists (n ++ ["!"] ++ p). repeat split; auto; intros _; [exists (n ++ ["!"]), []; rewrite app_nil_r, <- app_assoc; auto | exists [], (["!"] ++ p); auto]. }
  destruct Z as (ls & Z & ZP & ZN). exists ls. split; auto. split; [| split].
  - intros c t C T NE. pose proof (P c t C T) as I. destruct (text_empty p) eqn:X; [exfalso; apply (TE p t); auto |]. destruct (ZP eq_refl) as (a & b & L). rewrite L. apply in_or_app. right. apply in_or_app. auto.
  - intros c t C T NE. pose proof (Q c t C T) as I. destruct (text_empty n) eqn:X; [exfalso; apply (TE n t); auto |]. destruct (ZN eq_refl) as (a & b & L). rewrite L. apply in_or_app. right. apply in_or_app. auto.
  - intros c t u C CE NE. destruct (text_empty p) eqn:X; [exfalso; apply (TE p t); auto; apply (P c); auto; subst; left; auto |]. destruct (ZP eq_refl) as (a & b & L). destruct (B c C) as (a' & b' & Bp).
    exists (a ++ a'), (b' ++ b). rewrite L, Bp. rewrite <- !app_assoc. auto.
Qed.

Lemma Begins_nonempty : forall a b, a <> "" -> Begins a b -> b <> "".
Proof. intros a b N (r & E). subst. destruct a; [congruence | discriminate]. Qed.

Lemma added_line_cli : forall r t1 t2 d k, get_diff r t1 t2 = Ok d -> In (It k None IPlus) d -> clean k -> k <> "" -> starts "no " k = false ->
  existsb (fun ps => re_test ps k) overwritable_commands = false ->
  exists ls t, get_cli r t1 t2 = Ok ls /\ In t ls /\ Begins k t.
Proof.
  intros r t1 t2 d k D H C N S O. assert (DN : d <> []) by (intro; subst; destruct H). destruct (get_cli_lines r t1 t2 d D DN) as (ls & L & P & _).
  destruct (added_line overwritable_commands d k H C N S) as (t & T & B).
  { intros ps Hp. destruct (re_match ps k) eqn:M; auto. exfalso. assert (existsb (fun ps => re_test ps k) overwritable_commands = true); [| congruence]. apply existsb_exists. exists ps. split; auto. unfold re_test. rewrite M. auto. }
  exists ls, t. split; auto. split; auto. apply (P [t]); auto; [left; auto | apply (Begins_nonempty k); auto].
Qed.

Lemma added_section_cli : forall r t1 t2 d k l, get_diff r t1 t2 = Ok d -> In (It k (Some l) IPlus) d -> ordinary_item (It k (Some l) ISame) = true ->
  (forall ps, In ps overwritable_commands -> over_match ps (k :: list2config None l) = None) ->
  exists ls a b, get_cli r t1 t2 = Ok ls /\ ls = a ++ (k :: list2config None l) ++ b /\ parse (k :: list2config None l) = Ok [It k (Some l) ISame].
Proof.
  intros r t1 t2 d k l D H O M. assert (DN : d <> []) by (intro; subst; destruct H). destruct (get_cli_lines r t1 t2 d D DN) as (ls & L & _ & _ & P).
  pose proof O as O'. cbn [ordinary_item] in O'. apply andb_true_iff in O'. destruct O' as [O1 O2]. apply andb_true_iff in O1. destruct O1 as [O1 _]. apply andb_true_iff in O2. destruct O2 as [O2 O3].
  assert (KN : k <> "") by (intro; subst; discriminate). pose proof (section_commands l O3) as SC.
  assert (LN : list2config None l <> []). { destruct l as [| [k0 v0 i0] l]; [discriminate |]. cbn [forallb ordinary_item] in O3. apply andb_true_iff in O3. destruct O3 as [O3 _]. apply andb_true_iff in O3. destruct O3 as [O3 _]. apply andb_true_iff in O3. destruct O3 as [O3 _]. destruct k0; [discriminate |]. discriminate. }
  assert (I : In (k :: list2config None l) (c_pos (cli_lists overwritable_commands d))). { rewrite <- SC. apply added_section; auto; rewrite SC; auto. }
  destruct (P _ k _ I eq_refl KN) as (a & b & E). exists ls, a, b. split; auto. split; auto. apply render_parse. auto.
Qed.

Lemma removed_line_cli : forall r t1 t2 d k v, get_diff r t1 t2 = Ok d -> In (It k v IMinus) d -> clean k -> k <> "" -> starts "no " k = false ->
  (exists k', In (It k' None IPlus) d /\ Begins k k' /\ v = None) \/
  (exists ls t, get_cli r t1 t2 = Ok ls /\ In t ls /\ t <> "" /\ Begins t ("no " ++ k)) \/
  (exists x c ps m u, In x d /\ MadeFrom x c /\ In ps overwritable_commands /\ over_match ps c = Some m /\ handle_command ("no " ++ k) = (u, true) /\ Begins ("no " ++ lstrip m) u).
Proof.
  intros r t1 t2 d k v D H C N S. assert (DN : d <> []) by (intro; subst; destruct H). destruct (get_cli_lines r t1 t2 d D DN) as (ls & L & _ & P & _).
  destruct (removed_line overwritable_commands d k v H C N S) as [X | [(t & T & B) | X]]; auto.
  pose proof (cli_neg_nonempty overwritable_commands d t T) as NE. right. left. exists ls, t. split; auto. split; auto. apply (P [t]); auto. left. auto.
Qed.

Lemma list_diff_edit : forall l1 l2, plain l1 = true -> plain l2 = true -> exists d, list_diff l1 l2 = Ok d /\ Script l1 l2 d.
Proof. intros l1 l2 P1 P2. destruct (list_diff_script l1 l2) as (d & D & S). exists d. auto. Qed.
