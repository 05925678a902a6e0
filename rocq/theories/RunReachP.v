(** The generated commands lead from one config to the other. *)
From Coq Require Import String Ascii List Bool Arith Lia Permutation.
From Verif Require Import Base BaseP RunningM RunSpec RunNestSpec RunDevSpec RunDiffP RunCliP RunDevP RunScriptP RunTextP RunNestP RunSibP RunOrderP RunAllP RunLevelP RunTreesP RunApplyP.
Import ListNotations.
Open Scope string_scope.
Open Scope list_scope.

Lemma item_fair : forall x, ordinary_item x = true -> Saying x -> Fair x.
Proof.
  induction x as [k v i IH] using item_ind'. intros O S0. inversion S0 as [a b c U N L]; subst. cbn [ordinary_item] in O. apply andb_true_iff in O. destruct O as [O1 O2].
  apply andb_true_iff in O1. destruct O1 as [O1 _]. destruct (ordinary_clean _ O1) as (_ & NE & _ & R). constructor; auto.
  intros l E. subst v. specialize (IH l eq_refl). specialize (L l eq_refl). apply andb_true_iff in O2. destruct O2 as [_ O2]. rewrite Forall_forall in *. rewrite forallb_forall in O2. auto.
Qed.
Lemma tree_fair : forall l, tree l -> Forall Fair l.
Proof.
  intros l [O _ A]. unfold ordinary in O. rewrite forallb_forall in O. rewrite Forall_forall in *. intros x H. apply item_fair; auto.
Qed.
Lemma Fair_info : forall k v i j, Fair (It k v i) -> Fair (It k v j).
Proof. intros k v i j H. inversion H; subst. constructor; auto. Qed.
Lemma Script_Fair : forall l1 l2 d, Script l1 l2 d -> Forall Fair l1 -> Forall Fair l2 -> Forall Fair d.
Proof.
  induction 1 as [| k v l1 l2 d HS IH | k v l1 l2 d HS IH | x l1 l2 d HS IH | x l1 l2 d HS IH | k v1 v2 w l1 l2 d Hv Hw IHw HS IH | k v w l1 l2 d Hw IHw HS IH | k v w l1 l2 d Hw IHw HS IH];
    intros F1 F2; try (apply Forall_cons_iff in F1; destruct F1 as [A1 F1]); try (apply Forall_cons_iff in F2; destruct F2 as [A2 F2]); auto.
  - constructor; auto. apply (Fair_info _ _ _ _ A1).
  - constructor; auto. apply (Fair_info _ _ _ _ A2).
  - constructor; auto. inversion A1 as [a b c N R U L1]; subst. inversion A2 as [a' b' c' _ _ _ L2]; subst. constructor; auto. intros l E. injection E as E. subst. auto.
  - constructor; auto. inversion A1 as [a b c N R U L1]; subst. constructor; auto. intros l E. injection E as E. subst. auto.
  - constructor; auto. inversion A2 as [a b c N R U L1]; subst. constructor; auto. intros l E. injection E as E. subst. auto.
Qed.
Lemma Place_trans : forall a b c e m w, Place a b c e -> Place c e m w -> Place a b m w.
Proof. intros a b c e m w H K. induction K; auto. apply (place_below _ _ m w k v w' i); auto. Qed.

Theorem script_apply : forall dv n d, depth d <= n -> forall l1 l2, Script l1 l2 d -> tree l1 -> tree l2 -> Settled dv l2 ->
  (forall m w, Place l2 d m w -> Obeys dv m w) -> exists P M, Cmds d P M /\ forall cfg, Same cfg l1 -> Same (run dv (M ++ P) cfg) l2.
Proof.
  induction n as [n IH] using lt_wf_ind. intros d Hn l1 l2 HS T1 T2 Q PL.
  assert (F : facts l1 l2 d) by (apply Script_facts; auto using tree_plain; [apply (t_dis _ T1) | apply (t_dis _ T2)]).
  assert (SUB : forall k w v1 v2, In (It k (Some w) ISame) d -> KeptIn l1 l2 d k v1 v2 ->
            exists P M, Cmds w P M /\ forall s, Same s (kids v1) -> Same (run dv (M ++ P) s) (kids v2)).
  { intros k w v1 v2 I (K1 & K2 & _ & _ & [[E U] | (w' & SW & _ & U)]).
    - assert (E2 := U _ I). subst v1 v2. exists [], []. split; [| intros s Ss; exact Ss].
      split; auto. split; auto. rewrite (plain_silent (depth w)); auto. apply (tree_plain _ (tree_kids _ _ _ _ T1 K1)).
    - assert (E2 := U _ I). injection E2 as E2. subst w'. assert (D : depth w < n). { pose proof (depth_In _ _ I) as D. rewrite (depth_val _ w) in D by auto. lia. }
      apply (IH (depth w) D w (le_n _) (kids v1) (kids v2)); auto; [apply (tree_kids _ _ _ _ T1 K1) | apply (tree_kids _ _ _ _ T2 K2) | apply (Settled_kids _ _ _ _ _ Q K2) |].
      intros m w0 H. apply PL. apply (Place_trans _ _ (kids v2) w); auto. apply (place_below _ _ l2 d k v2 w ISame); auto. constructor. }
  apply (level_apply dv l1 l2 d); auto.
  - apply PL. constructor.
  - apply (Script_Fair _ _ _ HS); apply tree_fair; auto.
  - intros k w I. destruct (f_kept _ _ _ F _ _ I) as (v1 & v2 & K). destruct (SUB _ _ _ _ I K) as (P & M & C & _). eauto.
  - intros k w v1 v2 P M I K C. destruct (SUB _ _ _ _ I K) as (P' & M' & C' & R). destruct (Cmds_fun _ _ _ _ _ C C'). subst. auto.
Qed.

(** ** Texts *)
Lemma Same_refl : forall n l, depth l <= n -> distinct l -> Same l l.
Proof.
  induction n as [n IH] using lt_wf_ind. intros l Hn D. constructor; [apply D | apply D | tauto |].
  intros k v1 i1 v2 i2 I1 I2. destruct (one_key _ _ _ _ _ _ (proj1 D) I1 I2) as [E _]. subst v2. destruct v1 as [w |]; auto. right. exists w, w. split; auto. split; auto.
  assert (Dw : depth w < n). { pose proof (depth_In _ _ I1) as X. rewrite (depth_val _ w) in X by auto. lia. }
  apply (IH (depth w)); auto. apply (distinct_kids _ _ _ _ D I1).
Qed.
Lemma Same_trans : forall n a b c, depth a <= n -> Same a b -> Same b c -> Same a c.
Proof.
  induction n as [n IH] using lt_wf_ind. intros a b c Hn H1 H2. inversion H1 as [x y N1 N2 K1 V1]; subst. inversion H2 as [x y _ N3 K2 V2]; subst. constructor; auto.
  - intros k. rewrite K1. auto.
  - intros k v1 i1 v3 i3 I1 I3. assert (X : In k (keys b)) by (apply K1; apply (In_keys _ _ _ _ I1)). destruct (keys_In _ _ X) as (v2 & i2 & I2).
    destruct (V1 _ _ _ _ _ I1 I2) as [[A B] | (w1 & w2 & A & B & C)]; destruct (V2 _ _ _ _ _ I2 I3) as [[A' B'] | (w2' & w3 & A' & B' & C')]; subst; try discriminate; auto.
    injection A' as A'. subst w2'. right. exists w1, w3. split; auto. split; auto. assert (Dw : depth w1 < n). { pose proof (depth_In _ _ I1) as Y. rewrite (depth_val _ w1) in Y by auto. lia. }
    apply (IH (depth w1) Dw w1 w2 w3); auto.
Qed.
Lemma Same_sym : forall n a b, depth a <= n -> Same a b -> Same b a.
Proof.
  induction n as [n IH] using lt_wf_ind. intros a b Hn H. inversion H as [x y N1 N2 K V]; subst. constructor; auto.
  - intros k. rewrite K. tauto.
  - intros k v1 i1 v2 i2 I1 I2. destruct (V _ _ _ _ _ I2 I1) as [[A B] | (w1 & w2 & A & B & C)]; [auto |]. subst. right. exists w2, w1. split; auto. split; auto.
    assert (Dw : depth w1 < n). { pose proof (depth_In _ _ I2) as Y. rewrite (depth_val _ w1) in Y by auto. lia. } apply (IH (depth w1)); auto.
Qed.
Lemma Same_Settled : forall dv n a b, depth a <= n -> Same a b -> Settled dv b -> Settled dv a.
Proof.
  induction n as [n IH] using lt_wf_ind. intros a b Hn H SB. inversion H as [x y N1 N2 K V]; subst. inversion SB as [l Rs R0 R1]; subst. constructor.
  - intros x X. apply Rs. apply K. auto.
  - intros x y X Y. apply R0; apply K; auto.
  - intros k v i I1. assert (X : In k (keys b)) by (apply K; apply (In_keys _ _ _ _ I1)). destruct (keys_In _ _ X) as (v2 & i2 & I2).
    destruct (V _ _ _ _ _ I1 I2) as [[A B] | (w1 & w2 & A & B & C)]; [discriminate |]. injection A as A. subst.
    assert (Dw : depth w1 < n). { pose proof (depth_In _ _ I1) as Y. rewrite (depth_val _ w1) in Y by auto. lia. } apply (IH (depth w1) Dw w1 w2); auto. apply (R1 _ _ _ I2).
Qed.

Definition Near (x' x : item) : Prop := ikey x' = ikey x /\ ((ival x' = None /\ ival x = None) \/ exists w' w, ival x' = Some w' /\ ival x = Some w /\ Same w' w).
Definition Nice (l : list item) : Prop := ordinary l = true /\ Forall distinct_item l /\ Forall Saying l.
Lemma Nice_cons : forall x l, Nice (x :: l) <-> Nice [x] /\ Nice l.
Proof.
  intros x l. unfold Nice, ordinary. cbn [forallb]. rewrite !Forall_cons_iff, !andb_true_iff. intuition.
Qed.
Lemma distinct_all : forall v, Forall distinct_item v <-> (fix all (l : list item) : Prop := match l with [] => True | c :: r => distinct_item c /\ all r end) v.
Proof. induction v as [| x v IH]; [split; auto |]. rewrite Forall_cons_iff, IH. tauto. Qed.
Lemma Near_refl : forall x, distinct_item x -> Near x x.
Proof.
  intros [k v i] D. split; auto. destruct v as [w |]; [right; exists w, w | left]; cbn; auto. split; auto. split; auto. apply (Same_refl (depth w)); auto.
  destruct D as [N A]. split; auto. apply distinct_all. auto.
Qed.
Lemma Moved_tree : forall ol d l l', Moved ol d l l' -> tree l -> tree l' /\ Same l' l.
Proof.
  intros ol d l l' H. apply (Moved_mut ol (fun d l l' _ => tree l -> tree l' /\ Same l' l) (fun d m l' _ => Nice m -> Nice l' /\ Forall2 Near l' m)) with (n := d); auto.
  - intros d0 a m b P _ I IH [O D Sy]. assert (NM : Nice m).
    { unfold Nice, ordinary in *. rewrite forallb_forall in *. rewrite !Forall_forall in *. destruct D as [_ D]. rewrite Forall_forall in D.
      split; [| split]; intros x Hx; (assert (In x a) by (apply (Permutation_in x (Permutation_sym P)); auto)); auto. }
    destruct (IH NM) as [NB F2]. assert (KB : keys b = keys m). { clear - F2. induction F2 as [| x y b m [E _] _ IH]; auto. cbn. unfold keys in IH. rewrite IH, E. auto. }
    assert (NK : NoDup (keys m)). { apply (Permutation_NoDup (Permutation_map ikey P)). apply D. }
    destruct NB as (NB1 & NB2 & NB3). split; [constructor; auto; split; auto; rewrite KB; auto |].
    constructor; [rewrite KB; auto | apply D | |].
    + intros k. rewrite KB. split; intros X; [apply (Permutation_in k (Permutation_sym (Permutation_map ikey P))); auto | apply (Permutation_in k (Permutation_map ikey P)); auto].
    + intros k v1 i1 v2 i2 I1 I2. assert (I3 : In (It k v2 i2) m) by (apply (Permutation_in _ P); auto).
      assert (X : exists y, In y m /\ Near (It k v1 i1) y). { clear - F2 I1. induction F2 as [| x y b m N _ IH]; [destruct I1 |]. destruct I1 as [I1 | I1]; [subst; exists y; split; auto; left; auto |].
        destruct (IH I1) as (z & Z1 & Z2). exists z. split; auto. right. auto. }
      destruct X as ([k' v' i'] & X1 & X2 & X3). cbn in X2, X3. subst k'. destruct (one_key _ _ _ _ _ _ NK X1 I3) as [E _]. subst v'. auto.
  - intros d0 x a b I IH N. apply Nice_cons in N. destruct N as [N1 N2]. destruct (IH N2) as [A B]. split; [apply Nice_cons; auto |]. constructor; auto.
    apply Near_refl. destruct N1 as (_ & D & _). inversion D; auto.
  - intros d0 k v w i a b M IHM I IHI N. apply Nice_cons in N. destruct N as [N1 N2]. destruct (IHI N2) as [A B]. destruct N1 as (O & D & Sy).
    assert (TV : tree v). { assert (IV : In (It k (Some v) i) [It k (Some v) i]) by (left; auto). constructor.
      - apply (ordinary_In _ _ _ _ O IV).
      - apply Forall_inv in D. destruct D as [D1 D2]. split; auto. apply distinct_all. auto.
      - apply (Saying_In _ _ _ _ Sy IV). }
    destruct (IHM TV) as [TW SW]. split.
    + apply Nice_cons. split; auto. split; [| split].
      * unfold ordinary in *. cbn [forallb ordinary_item] in *. rewrite andb_true_r in *. apply andb_true_iff in O. destruct O as [O1 O2]. rewrite O1. cbn. apply andb_true_iff in O2. destruct O2 as [O2 O3].
        apply andb_true_iff. split; [| apply (t_ord _ TW)]. destruct w as [| y w]; auto. inversion SW as [p q _ _ KS _ Ep Eq]; subst. destruct v as [| z v]; [discriminate |]. destruct (proj2 (KS (ikey z)) (or_introl eq_refl)).
      * constructor; auto. cbn [distinct_item]. destruct (t_dis _ TW) as [D1 D2]. split; auto. apply distinct_all. auto.
      * constructor; auto. apply Forall_inv in Sy. inversion Sy as [p q r U Nn L]; subst. constructor; auto; [intros x E; destruct (Nn x E); discriminate |]. intros l0 E. injection E as E. subst l0. apply (t_say _ TW).
    + constructor; auto. split; auto. cbn. right. exists w, v. auto.
Qed.

Lemma tree_apart : forall n l, depth l <= n -> tree l -> forallb (apart is_sibling_command) l = true.
Proof.
  induction n as [n IH] using lt_wf_ind. intros l Hn T. apply forallb_forall. intros [k v i] I1. cbn [apart]. destruct v as [w |]; auto.
  destruct (tree_key _ _ _ _ T I1) as (O & _ & _). assert (E : is_sibling_command k = false).
  { unfold is_sibling_command. change k with (spaces 0 ++ k)%string. rewrite (re_lit "client " 0 k O). unfold ordinary_key in O. destruct k as [| c r]; [discriminate |]. destruct (starts "client " (String c r)); auto. cbn [negb] in O. rewrite ?andb_false_r in O. discriminate. }
  rewrite E. cbn [negb orb]. assert (Dw : depth w < n). { pose proof (depth_In _ _ I1) as Y. rewrite (depth_val _ w) in Y by auto. lia. }
  apply (IH (depth w)); auto. apply (tree_kids _ _ _ _ T I1).
Qed.
Lemma lists_tree : forall t1 t2 l1 l2, parse (map replace_line t1) = Ok l1 -> parse (map replace_line t2) = Ok l2 -> tree l1 -> tree l2 ->
  exists s1, running_lists t1 t2 = Ok (s1, l2) /\ tree s1 /\ Same s1 l1.
Proof.
  intros t1 t2 l1 l2 P1 P2 T1 T2. unfold running_lists, running2list. rewrite P1, P2. cbn [bind]. destruct (orderless_total match_orderless l1 l2) as (s & E). rewrite E. cbn [bind].
  destruct (Moved_tree _ _ _ _ (orderless_moved _ _ _ _ (t_dis _ T1) (t_dis _ T2) E) T1) as [TS SS].
  unfold handle_siblings. rewrite (siblings_apart _ _ s) by (auto; apply (tree_apart (depth s)); auto). rewrite (siblings_apart _ _ l2) by (auto; apply (tree_apart (depth l2)); auto). cbn [bind]. eauto.
Qed.
(** The two parts of the commands, and the line between them *)
Definition parts (M P : list item) : list string :=
  match M, P with [], _ => text 2 P | _, [] => text 2 M | _, _ => text 2 M ++ ["!"] ++ text 2 P end.
Lemma get_cli_parts : forall r t1 t2 d P M, get_diff r t1 t2 = Ok d -> Cmds d P M -> get_cli r t1 t2 = Ok (parts M P).
Proof.
  intros r t1 t2 d P M D (O1 & O2 & E1 & E2). unfold get_cli. rewrite D. cbn [bind]. destruct d as [| x d].
  - cbn in E1, E2. assert (X : forall l, text 2 l = [] -> l = []) by (intros [| [k v i] l]; [auto | discriminate]). apply X in E1. apply X in E2. subst. reflexivity.
  - destruct (list2cli regs (x :: d)) as [p n]. cbn [fst snd] in E1, E2. subst p n. rewrite (text_nonempty P O1), (text_nonempty M O2). destruct M, P; reflexivity.
Qed.

Lemma text_bang : forall l, ordinary l = true -> filter (fun s => negb (String.eqb s "!")) (text 2 l) = text 2 l.
Proof.
  intros l O. assert (G := ordinary_Forall 2 l O). induction G as [| s r (m & k & K & E) _ IH]; auto. cbn [filter]. subst s.
  assert (X : String.eqb (spaces m ++ k) "!" = false). { apply String.eqb_neq. intro X. destruct (ordinary_head k ltac:(assumption)) as (c & q & Ek & W & B & _). subst k. destruct m as [| m]; cbn in X; [| discriminate]. injection X as X _. subst c. discriminate. }
  rewrite X. cbn [negb]. rewrite IH. auto.
Qed.
Lemma parts_read : forall M P, ordinary M = true -> ordinary P = true -> Reads (parts M P) (M ++ P).
Proof.
  intros M P O1 O2. split; [unfold ordinary in *; rewrite forallb_app, O1, O2; auto |]. unfold text. rewrite flat_map_app. fold (text 2 M) (text 2 P).
  unfold parts. destruct M as [| x M]; [apply text_bang; auto |]. destruct P as [| y P]; [rewrite text_bang by auto; rewrite app_nil_r; auto |].
  rewrite !filter_app, !text_bang by auto. cbn. auto.
Qed.

Theorem cli_forth : forall dv t1 t2 l1 l2 d ls, parse (map replace_line t1) = Ok l1 -> parse (map replace_line t2) = Ok l2 -> tree l1 -> tree l2 -> Settled dv l2 ->
  get_diff false t1 t2 = Ok d -> (forall m w, Place l2 d m w -> Obeys dv m w) -> get_cli false t1 t2 = Ok ls ->
  exists cs, Reads ls cs /\ forall cfg, Same cfg l1 -> Same (run dv cs cfg) l2.
Proof.
  intros dv t1 t2 l1 l2 d ls P1 P2 T1 T2 Q D PL C. destruct (lists_tree _ _ _ _ P1 P2 T1 T2) as (s1 & RL & TS & SS).
  destruct (get_diff_script t1 t2) as (a & b & d1 & d2 & R & D1 & S1 & _). rewrite RL in R. injection R as Ra Rb. subst a b. rewrite D in D1. injection D1 as D1. subst d1.
  destruct (script_apply dv (depth d) d (le_n _) s1 l2 S1 TS T2 Q PL) as (P & M & CM & RN). exists (M ++ P). split; [rewrite (get_cli_parts _ _ _ _ _ _ D CM) in C; injection C as C; subst ls; apply parts_read; apply CM |].
  intros cfg Sc. apply RN. apply (Same_trans (depth cfg) _ l1); auto. apply (Same_sym (depth s1)); auto.
Qed.
Theorem cli_back : forall dv t1 t2 l1 l2 s1 s2 d ls, parse (map replace_line t1) = Ok l1 -> parse (map replace_line t2) = Ok l2 -> tree l1 -> tree l2 -> Settled dv l1 ->
  running_lists t1 t2 = Ok (s1, s2) -> get_diff true t1 t2 = Ok d -> (forall m w, Place s1 d m w -> Obeys dv m w) -> get_cli true t1 t2 = Ok ls ->
  exists cs, Reads ls cs /\ forall cfg, Same cfg l2 -> Same (run dv cs cfg) l1.
Proof.
  intros dv t1 t2 l1 l2 s1 s2 d ls P1 P2 T1 T2 Q R0 D PL C. destruct (lists_tree _ _ _ _ P1 P2 T1 T2) as (s & RL & TS & SS). rewrite RL in R0. injection R0 as E1 E2. subst s s2.
  destruct (get_diff_script t1 t2) as (a & b & d1 & d2 & R & D1 & _ & D2 & S2). rewrite RL in R. injection R as Ra Rb. subst a b. rewrite D in D2. injection D2 as D2. subst d2.
  assert (QS : Settled dv s1) by (apply (Same_Settled dv (depth s1) s1 l1); auto).
  destruct (script_apply dv (depth d) d (le_n _) l2 s1 S2 T2 TS QS PL) as (P & M & CM & RN). exists (M ++ P). split; [rewrite (get_cli_parts _ _ _ _ _ _ D CM) in C; injection C as C; subst ls; apply parts_read; apply CM |].
  intros cfg Sc. assert (X := RN cfg Sc). apply (Same_trans (depth (run dv (M ++ P) cfg)) _ s1); auto.
Qed.
