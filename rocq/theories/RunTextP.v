(** Parsing and rendering of running configs. *)
From Coq Require Import String Ascii List Bool Arith ZArith Lia Permutation.
From Verif Require Import Base BaseP RunningM RunSpec RunDiffP RunCliP.
Import ListNotations.
Open Scope string_scope.
Open Scope list_scope.
Open Scope nat_scope.

(** ** Parsing never fails *)

Definition pinv (n : nat) (st : pstate) : Prop := p_last st <> "" -> length (p_sec st) < n.

Lemma flush_total : forall rec st n, pinv n st -> (forall ls, length ls < n -> exists l, rec ls = Ok l) -> exists l, flush rec st = Ok l.
Proof.
  intros rec st n P H. unfold flush. destruct (p_last st) as [| a s] eqn:E; [eauto |]. destruct (0 <? p_ind st); [| eauto].
  destruct (H (p_sec st)) as (l & L). { apply P. rewrite E. discriminate. } rewrite L. cbn [bind]. eauto.
Qed.

Lemma parse_line_total : forall rec st line n, pinv n st -> (forall ls, length ls < n -> exists l, rec ls = Ok l) ->
  exists st', parse_line rec st line = Ok st' /\ pinv (S n) st'.
Proof.
  intros rec st line n P H. assert (P' : pinv (S n) st) by (intro Q; specialize (P Q); lia). unfold parse_line.
  destruct (skipped line) eqn:K; [eauto |]. destruct (p_miss st && String.eqb (rstrip line) "!").
  { destruct (flush_total rec st n P H) as (l & L). rewrite L. cbn [bind]. eexists. split; [reflexivity |]. intro Q. simpl in Q. congruence. }
  destruct (is_comment line); [eauto |].
  assert (NE : line <> "") by (intro; subst; discriminate).
  assert (G : exists st', (if negb (is_missing_indent line) && p_miss st
      then Ok (PState (p_ret st) (p_last st) (p_sec st ++ [line]) (if p_ind st =? 0 then 1 else p_ind st) true)
      else let! ret := flush rec st in Ok (PState ret line [] 0 (is_missing_indent line || p_miss st))) = Ok st' /\ pinv (S n) st').
  { destruct (negb (is_missing_indent line) && p_miss st).
    - eexists. split; [reflexivity |]. intro Q. simpl in Q. specialize (P Q). cbn [p_sec]. rewrite app_length. simpl. lia.
    - destruct (flush_total rec st n P H) as (l & L). rewrite L. cbn [bind]. eexists. split; [reflexivity |]. intros _. simpl. lia. }
  assert (I : forall cur ind l', exists st', @Ok pstate (PState (p_ret st) (p_last st) (p_sec st ++ [l']) ind (p_miss st)) = Ok st' /\ pinv (S n) st' \/ cur = S cur).
  { intros cur ind l'. eexists. left. split; [reflexivity |]. intro Q. simpl in Q. specialize (P Q). cbn [p_sec]. rewrite app_length. simpl. lia. }
  destruct line as [| c r]; [congruence |].
  assert (D : Ascii.eqb c " " = true \/ Ascii.eqb c " " = false) by (destruct (Ascii.eqb c " "); auto).
  destruct D as [D | D].
  - apply Ascii.eqb_eq in D. subst c. cbv zeta. set (l' := if _ <? _ then _ else _). set (ind := if p_ind st =? 0 then _ else _).
    destruct (I 0 ind l') as (st' & [S' | S']); [exists st'; exact S' | discriminate].
  - clear I. cbv zeta. destruct c as [b0 b1 b2 b3 b4 b5 b6 b7]. destruct b0, b1, b2, b3, b4, b5, b6, b7; try exact G. discriminate.
Qed.

Lemma config2list_total : forall fuel ls, length ls < fuel -> exists l, config2list fuel ls = Ok l.
Proof.
  induction fuel as [| f IH]; intros ls L; [lia |]. cbn [config2list].
  assert (G : forall rest st n, n + length rest <= f -> pinv n st -> exists st', foldM (parse_line (config2list f)) st rest = Ok st' /\ pinv (n + length rest) st').
  { induction rest as [| x r IHr]; intros st n B P.
    - exists st. simpl. rewrite Nat.add_0_r. auto.
    - simpl in B. destruct (parse_line_total (config2list f) st x n P) as (st1 & E1 & P1). { intros y Y. apply IH. lia. }
      cbn [foldM]. rewrite E1. cbn [bind]. destruct (IHr st1 (S n)) as (st2 & E2 & P2); [lia | auto |]. exists st2. split; auto. simpl. rewrite Nat.add_succ_r. exact P2. }
  destruct (G ls (PState [] "" [] 0 false) 0) as (st & E & P). { simpl. lia. } { intro Q. simpl in Q. congruence. }
  rewrite E. cbn [bind]. apply (flush_total _ _ (0 + length ls)); auto. intros y Y. apply IH. simpl in Y. lia.
Qed.

Lemma parse_total : forall ls, exists l, parse ls = Ok l.
Proof. intro ls. apply config2list_total. lia. Qed.

(** ** Parsing the text of a tree *)

Lemma text_cons : forall n x l, text n (x :: l) = text_item n x ++ text n l.
Proof. reflexivity. Qed.

Lemma indentation_spaces : forall n k, indentation (spaces n ++ k)%string = n + indentation k.
Proof. induction n as [| n IH]; intro k; simpl; auto. Qed.
Lemma sdrop_spaces : forall n k, sdrop n (spaces n ++ k)%string = k.
Proof. induction n as [| n IH]; intro k; simpl; auto. Qed.

Definition good_line (l : string) : Prop := exists m k, ordinary_key k = true /\ l = (spaces m ++ k)%string.

Lemma ordinary_head : forall k, ordinary_key k = true -> exists c r, k = String c r /\ is_ws c = false /\ Ascii.eqb c "!" = false /\ Ascii.eqb c "%" = false /\
  rstrip k = k /\ starts "client " k = false /\ starts "Building configuration" k = false /\ starts "Current configuration" k = false.
Proof.
  intros [| c r] H; [discriminate |]. unfold ordinary_key in H. exists c, r.
  repeat (apply andb_true_iff in H; destruct H as [H ?]). repeat match goal with X : negb _ = true |- _ => apply negb_true_iff in X end.
  match goal with X : String.eqb _ _ = true |- _ => apply String.eqb_eq in X end. repeat split; auto.
Qed.

Lemma ws_space : forall c, is_ws c = false -> Ascii.eqb " " c = false.
Proof. intros c H. destruct (Ascii.eqb " " c) eqn:E; auto. apply Ascii.eqb_eq in E. subst. discriminate. Qed.

Lemma span_spaces : forall m c r, is_ws c = false -> span (Ascii.eqb " ") (spaces m ++ String c r)%string = (spaces m, String c r).
Proof.
  induction m as [| m IH]; intros c r H; cbn [spaces String.append span].
  - rewrite (ws_space c H). auto.
  - cbn. rewrite IH; auto.
Qed.

Lemma re_lit : forall p m k, ordinary_key k = true -> re_test (lit p) (spaces m ++ k)%string = starts p k.
Proof.
  intros p m k H. destruct (ordinary_head k H) as (c & r & E & W & _). subst k. unfold re_test, lit. cbn [re_match].
  rewrite span_spaces; auto. cbn [re_match option_map]. destruct (starts p (String c r)); reflexivity.
Qed.

Lemma starts1 : forall a c r, starts (String a "") (String c r) = Ascii.eqb c a.
Proof. intros. unfold starts. cbn. destruct (Ascii.eqb c a); auto. Qed.

Lemma not_comment : forall l, good_line l -> is_comment l = false.
Proof.
  intros l (m & k & O & E). subst l. unfold is_comment. rewrite !re_lit by auto.
  destruct (ordinary_head k O) as (c & r & E & W & A & B & _). subst k. rewrite !starts1, A, B. auto.
Qed.

Lemma lstrip_good : forall m k, ordinary_key k = true -> lstrip (spaces m ++ k)%string = k.
Proof.
  induction m as [| m IH]; intros k O; simpl.
  - destruct (ordinary_head k O) as (c & r & E & W & _). subst k. simpl. rewrite W. auto.
  - apply IH. auto.
Qed.
Lemma strip_good : forall m k, ordinary_key k = true -> strip (spaces m ++ k)%string = k.
Proof. intros m k O. unfold strip. rewrite lstrip_good by auto. destruct (ordinary_head k O) as (c & r & E & W & A & B & R & _). auto. Qed.

Lemma stake_starts : forall p s, String.eqb (stake (String.length p) s) p = starts p s.
Proof. reflexivity. Qed.

Lemma starts_spaces : forall p m k, (forall a q, p = String a q -> a <> " "%char) -> p <> "" -> starts p (spaces (S m) ++ k)%string = false.
Proof.
  intros p m k H N. destruct p as [| a q]; [congruence |]. unfold starts. cbn [spaces String.append String.length stake String.eqb].
  destruct (Ascii.eqb " " a) eqn:E; auto. apply Ascii.eqb_eq in E. exfalso. apply (H a q); auto.
Qed.

Lemma not_skipped : forall l, good_line l -> skipped l = false.
Proof.
  intros l (m & k & O & E). subst l. unfold skipped. rewrite strip_good by auto.
  destruct (ordinary_head k O) as (c & r & E & W & A & B & R & C1 & C2 & C3).
  assert (S1 : String.eqb (stake 22 (spaces m ++ k)%string) "Building configuration" = false).
  { change 22 with (String.length "Building configuration"). rewrite stake_starts. destruct m as [| m]; [auto |]. apply starts_spaces; [| discriminate]. intros a q Q. inversion Q. discriminate. }
  assert (S2 : String.eqb (stake 21 (spaces m ++ k)%string) "Current configuration" = false).
  { change 21 with (String.length "Current configuration"). rewrite stake_starts. destruct m as [| m]; [auto |]. apply starts_spaces; [| discriminate]. intros a q Q. inversion Q. discriminate. }
  rewrite S1, S2, !andb_false_r. subst k. auto.
Qed.

Lemma parse_top : forall rec st k, ordinary_key k = true -> p_miss st = false ->
  parse_line rec st k = let! ret := flush rec st in Ok (PState ret k [] 0 false).
Proof.
  intros rec st k O M. assert (GL : good_line k) by (exists 0, k; auto). unfold parse_line. rewrite not_skipped, not_comment, M by auto. cbn [andb].
  assert (MI : is_missing_indent k = false). { unfold is_missing_indent. pose proof (re_lit "client " 0 k O) as RL. cbn [spaces String.append] in RL. rewrite RL. destruct (ordinary_head k O) as (? & ? & ? & ? & ? & ? & ? & C & _). auto. }
  destruct (ordinary_head k O) as (c & r & E & W & _). subst k. rewrite MI. cbn [negb andb orb]. cbv zeta.
  destruct c as [b0 b1 b2 b3 b4 b5 b6 b7]. destruct b0, b1, b2, b3, b4, b5, b6, b7; try reflexivity. discriminate.
Qed.

Lemma parse_sub : forall rec st n l, good_line l -> 0 < n -> p_miss st = false ->
  (p_ind st = n \/ (p_ind st = 0 /\ indentation l = 0)) ->
  parse_line rec st (spaces n ++ l)%string = Ok (PState (p_ret st) (p_last st) (p_sec st ++ [l]) n false).
Proof.
  intros rec st n l GL N M I. assert (GL' : good_line (spaces n ++ l)%string).
  { destruct GL as (m & k & O & E). exists (n + m), k. split; auto. subst l. clear. induction n as [| n IH]; simpl; auto. rewrite IH. auto. }
  unfold parse_line. rewrite not_skipped, not_comment, M by auto. cbn [andb]. cbv zeta.
  destruct n as [| n]; [lia |]. set (L := (spaces (S n) ++ l)%string).
  assert (IL : indentation L = S n + indentation l) by apply indentation_spaces.
  assert (SD : sdrop (S n) L = l) by apply sdrop_spaces.
  assert (E : (if p_ind st =? 0 then indentation L else p_ind st) = S n).
  { destruct I as [I | [I I']].
    - rewrite I. reflexivity.
    - rewrite I, IL, I'. simpl. lia. }
  assert (C : (indentation L <? S n) = false) by (apply Nat.ltb_ge; lia).
  set (ind := if p_ind st =? 0 then indentation L else p_ind st) in *.
  transitivity (Ok (PState (p_ret st) (p_last st) (p_sec st ++ [if indentation L <? ind then (spaces (ind + 1) ++ sdrop (indentation L) L)%string else sdrop ind L]) ind false)); [rewrite <- M; reflexivity |].
  rewrite E, C, SD. reflexivity.
Qed.

Lemma text_good : forall n x, ordinary_item x = true -> Forall good_line (text_item n x).
Proof.
  intros n. induction x as [k v i IH] using item_ind'. intro O. cbn [ordinary_item] in O. apply andb_true_iff in O. destruct O as [O1 O2].
  apply andb_true_iff in O1. destruct O1 as [O1 _]. cbn [text_item]. constructor; [exists 0, k; auto |]. destruct v as [l |]; [| constructor].
  apply andb_true_iff in O2. destruct O2 as [_ O2]. apply Forall_forall. intros s Hs. apply in_map_iff in Hs. destruct Hs as (t & E & Ht). subst s.
  apply in_flat_map in Ht. destruct Ht as (c & Hc & Ht). assert (G : good_line t).
  { rewrite forallb_forall in O2. specialize (IH l eq_refl). rewrite Forall_forall in IH. specialize (IH c Hc (O2 c Hc)). rewrite Forall_forall in IH. auto. }
  destruct G as (m & q & Q & E). exists (n + m), q. split; auto. subst t. clear. induction n as [| n IH]; simpl; auto. rewrite IH. auto.
Qed.

Lemma foldM_app : forall (A B : Type) (f : A -> B -> res A) l1 l2 a, foldM f a (l1 ++ l2) = let! b := foldM f a l1 in foldM f b l2.
Proof. induction l1 as [| x r IH]; intros l2 a; simpl; auto. destruct (f a x); cbn [bind]; auto. Qed.

Lemma parse_subs : forall rec n ls st, 0 < n -> Forall good_line ls -> p_miss st = false -> p_ind st = n ->
  foldM (parse_line rec) st (map (fun t => (spaces n ++ t)%string) ls) = Ok (PState (p_ret st) (p_last st) (p_sec st ++ ls) n false).
Proof.
  intros rec n. induction ls as [| l r IH]; intros st N G M I; simpl.
  - rewrite app_nil_r. destruct st. simpl in *. subst. auto.
  - inversion G; subst. rewrite (parse_sub rec st (p_ind st) l); auto. cbn [bind]. rewrite IH; auto. cbn [p_ret p_last p_sec]. rewrite <- app_assoc. auto.
Qed.

Lemma text_head : forall n l, ordinary l = true -> l <> [] -> exists k r, text n l = k :: r /\ ordinary_key k = true.
Proof.
  intros n [| [k v i] r] O N; [congruence |]. simpl in O. apply andb_true_iff in O. destruct O as [O _]. apply andb_true_iff in O. destruct O as [O _].
  apply andb_true_iff in O. destruct O as [O _]. simpl. eauto.
Qed.

Lemma ordinary_indentation : forall k, ordinary_key k = true -> indentation k = 0.
Proof.
  intros k O. destruct (ordinary_head k O) as (c & r & E & W & _). subst k.
  change (match String c r with String " " q => S (indentation q) | _ => 0 end = 0).
  destruct c as [b0 b1 b2 b3 b4 b5 b6 b7]. destruct b0, b1, b2, b3, b4, b5, b6, b7; try reflexivity. discriminate.
Qed.

Lemma ordinary_Forall : forall n l, ordinary l = true -> Forall good_line (text n l).
Proof.
  intros n l O. apply Forall_forall. intros s Hs. apply in_flat_map in Hs. destruct Hs as (c & Hc & Ht).
  unfold ordinary in O. rewrite forallb_forall in O. pose proof (text_good n c (O c Hc)) as F. rewrite Forall_forall in F. auto.
Qed.

(** One tree: after its lines the section is waiting to be parsed. *)
Lemma parse_tree : forall rec n k v st ret, 0 < n -> ordinary_item (It k v ISame) = true -> p_miss st = false -> flush rec st = Ok ret ->
  foldM (parse_line rec) st (text_item n (It k v ISame)) =
  Ok (PState ret k (match v with None => [] | Some l => text n l end) (match v with None => 0 | Some _ => n end) false).
Proof.
  intros rec n k v st ret N O M F. cbn [ordinary_item] in O. apply andb_true_iff in O. destruct O as [O1 O2]. apply andb_true_iff in O1. destruct O1 as [O1 _].
  cbn [text_item foldM]. rewrite parse_top; auto. rewrite F. cbn [bind]. destruct v as [l |]; [| reflexivity].
  apply andb_true_iff in O2. destruct O2 as [NE O2]. assert (NE' : l <> []) by (destruct l; discriminate).
  destruct (text_head n l O2 NE') as (k1 & r1 & E & K1). pose proof (ordinary_Forall n l O2) as G. fold (text n l). rewrite E in *. inversion G; subst.
  cbn [map foldM]. rewrite (parse_sub rec _ n k1); auto. 2: { right. split; auto. apply ordinary_indentation. auto. }
  cbn [bind p_ret p_last p_sec]. rewrite parse_subs; auto.
Qed.

Lemma ordinary_rstrip : forall k, ordinary_key k = true -> rstrip k = k.
Proof. intros k O. destruct (ordinary_head k O) as (c & r & E & W & A & B & R & _). auto. Qed.

Lemma config2list_text : forall fuel n l, 0 < n -> ordinary l = true -> depth l < fuel -> config2list fuel (text n l) = Ok l.
Proof.
  induction fuel as [| f IH]; intros n l N O D; [lia |]. cbn [config2list].
  assert (G : forall rest st done, flush (config2list f) st = Ok done -> p_miss st = false -> ordinary rest = true -> depth rest <= f ->
    exists st', foldM (parse_line (config2list f)) st (text n rest) = Ok st' /\ flush (config2list f) st' = Ok (done ++ rest)).
  { induction rest as [| x r IHr]; intros st done F M O' D'.
    - exists st. rewrite app_nil_r. split; auto.
    - unfold ordinary in O'. cbn [forallb] in O'. apply andb_true_iff in O'. destruct O' as [Ox Or]. destruct x as [k v i].
      assert (i = ISame). { simpl in Ox. apply andb_true_iff in Ox. destruct Ox as [Ox _]. apply andb_true_iff in Ox. destruct Ox as [_ Ox]. apply info_eqb_eq in Ox. auto. }
      subst i. rewrite text_cons, foldM_app. rewrite (parse_tree _ n k v st done); auto. cbn [bind].
      cbn [depth fold_right] in D'. fold (depth r) in D'.
      match goal with |- context [foldM _ ?s (text n r)] => set (st1 := s) end.
      assert (F1 : flush (config2list f) st1 = Ok (done ++ [It k v ISame])).
      { unfold flush, st1. cbn [p_last p_ind p_sec p_ret]. cbn [ordinary_item] in Ox. apply andb_true_iff in Ox. destruct Ox as [Ok1 Ov].
        apply andb_true_iff in Ok1. destruct Ok1 as [Ok1 _]. rewrite (ordinary_rstrip k Ok1).
        destruct k as [| c k]; [discriminate |]. destruct v as [l' |]; [| reflexivity].
        assert (B : (0 <? n) = true) by (apply Nat.ltb_lt; auto). rewrite B. apply andb_true_iff in Ov. destruct Ov as [_ Ov].
        rewrite IH; auto. cbn [depth_item] in D'. change (fold_right (fun c n0 => Nat.max (depth_item c) n0) 0 l') with (depth l') in D'. lia. }
      destruct (IHr st1 _ F1) as (st' & E & F'); auto. { lia. } exists st'. split; auto. rewrite F'. rewrite <- app_assoc. auto. }
  destruct (G l (PState [] "" [] 0 false) []) as (st' & E & F); auto. { lia. } rewrite E. cbn [bind]. exact F.
Qed.

Lemma depth_text : forall n l, depth l <= length (text n l).
Proof.
  intros n. assert (H : forall x, depth_item x <= length (text_item n x)).
  { induction x as [k v i IH] using item_ind'. cbn [depth_item text_item length]. apply le_n_S. destruct v as [l |]; [| lia].
    rewrite map_length. specialize (IH l eq_refl). induction l as [| y r IHr]; [simpl; lia |]. inversion IH; subst. cbn [fold_right flat_map]. rewrite app_length. specialize (IHr H2). lia. }
  induction l as [| y r IHr]; [simpl; lia |]. rewrite text_cons, app_length. cbn [depth fold_right]. fold (depth r). specialize (H y). lia.
Qed.

Lemma parse_text_back : forall n l, 0 < n -> ordinary l = true -> parse (text n l) = Ok l.
Proof. intros n l N O. apply config2list_text; auto. pose proof (depth_text n l). lia. Qed.

(** ** Rendering *)

Lemma indent_spaces : forall ls, indent (map (fun t => (spaces 2 ++ t)%string) ls) = map (fun t => (spaces 2 ++ t)%string) (map (fun t => (spaces 2 ++ t)%string) ls).
Proof. induction ls as [| l r IH]; auto. unfold indent in *. cbn [map flat_map]. rewrite IH. reflexivity. Qed.

Lemma render_text : forall x, ordinary_item x = true -> render_item None x = map (fun t => (spaces 2 ++ t)%string) (text_item 2 x).
Proof.
  induction x as [k v i IH] using item_ind'. intro O. cbn [ordinary_item] in O. apply andb_true_iff in O. destruct O as [O1 O2].
  cbn [render_item text_item]. destruct k as [| c k]; [discriminate |]. cbn [map]. f_equal. destruct v as [l |]; [| reflexivity].
  apply andb_true_iff in O2. destruct O2 as [_ O2]. specialize (IH l eq_refl).
  assert (E : flat_map (render_item None) l = map (fun t => (spaces 2 ++ t)%string) (flat_map (text_item 2) l)).
  { clear O1 c k. induction l as [| y r IHr]; auto. inversion IH; subst. cbn [forallb] in O2. apply andb_true_iff in O2. destruct O2 as [Oy Or].
    cbn [flat_map]. rewrite map_app, H1, IHr; auto. }
  rewrite E. apply indent_spaces.
Qed.

Lemma list2config_text : forall l, ordinary l = true -> list2config None l = map (fun t => (spaces 2 ++ t)%string) (text 2 l).
Proof.
  induction l as [| x r IH]; intro O; auto. unfold ordinary in O. cbn [forallb] in O. apply andb_true_iff in O. destruct O as [Ox Or].
  unfold list2config, text in *. cbn [flat_map]. rewrite map_app, render_text, IH; auto.
Qed.

(** The commands printed for a new section, read as a config, are the section. *)
Lemma render_parse : forall k l, ordinary_item (It k (Some l) ISame) = true ->
  parse (k :: list2config None l) = Ok [It k (Some l) ISame].
Proof.
  intros k l O. rewrite <- (parse_text_back 2 [It k (Some l) ISame]); [| lia | cbn [ordinary forallb]; rewrite O; auto].
  f_equal. unfold text. cbn [flat_map text_item]. rewrite app_nil_r. rewrite list2config_text; auto.
  cbn [ordinary_item] in O. apply andb_true_iff in O. destruct O as [_ O]. apply andb_true_iff in O. tauto.
Qed.

Lemma rstrip_spaces : forall n k, ordinary_key k = true -> rstrip (spaces n ++ k)%string = (spaces n ++ k)%string.
Proof.
  intros n k O. assert (R := ordinary_rstrip k O). destruct (ordinary_head k O) as (c & r & E & _).
  induction n as [| n IH]; auto. cbn [spaces String.append rstrip]. rewrite IH. destruct (spaces n ++ k)%string eqn:E'; auto.
  destruct n; simpl in E'; [subst; congruence | discriminate].
Qed.

Lemma rstrip_lines_good : forall ls, Forall good_line ls -> rstrip_lines ls = ls.
Proof.
  induction ls as [| l r IH]; intro G; auto. inversion G as [| ? ? GL GR]; subst. cbn [rstrip_lines]. rewrite IH; auto. destruct r; auto.
  destruct GL as (m & k & O & E). subst l. rewrite rstrip_spaces by auto. destruct (ordinary_head k O) as (c & q & E & _). subst k. destruct m; reflexivity.
Qed.

Lemma section_commands : forall l, ordinary l = true -> rstrip_lines (list2config None l) = list2config None l.
Proof.
  intros l O. apply rstrip_lines_good. rewrite list2config_text by auto. pose proof (ordinary_Forall 2 l O) as G. apply Forall_forall. intros s Hs.
  apply in_map_iff in Hs. destruct Hs as (t & E & Ht). rewrite Forall_forall in G. destruct (G t Ht) as (m & k & Ok' & E'). exists (2 + m), k. split; auto. subst. reflexivity.
Qed.
