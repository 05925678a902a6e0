(** A device that is given the commands made from a diff. *)
From Coq Require Import String Ascii List Bool Arith Lia.
From Verif Require Import Base BaseP RunningM RunSpec RunNestSpec RunDevSpec RunDiffP RunCliP RunDevP RunScriptP RunTextP RunNestP RegexP RunLevelP RunTreesP.
Import ListNotations.
Open Scope string_scope.
Open Scope list_scope.

Lemma NoDup_by_key : forall l : list item, NoDup l -> (forall t t', In t l -> In t' l -> ikey t = ikey t' -> t = t') -> NoDup (keys l).
Proof.
  induction l as [| x l IH]; intros N U; [constructor |]. inversion N as [| a b H1 H2]; subst. cbn. constructor.
  - intros H. apply in_map_iff in H. destruct H as (y & E & Hy). apply H1. rewrite (U x y); auto; [left; auto | right; auto].
  - apply IH; auto. intros t t' A B. apply U; right; auto.
Qed.
Lemma map_choice : forall (A B : Type) (f : A -> B) (R : A -> Prop) (l : list B), (forall c, In c l -> exists t, R t /\ c = f t) -> exists P, map f P = l /\ Forall R P.
Proof.
  induction l as [| c l IH]; intros H; [exists []; split; constructor |]. destruct (H c (or_introl eq_refl)) as (t & Rt & E). destruct IH as (P & EP & FP).
  { intros c' H'. apply H. right. auto. } exists (t :: P). cbn. split; [congruence | constructor; auto].
Qed.
Lemma plain_silent : forall n l, depth l <= n -> plain l = true -> list2cli regs l = ([], []).
Proof.
  induction n as [n IH] using lt_wf_ind. intros l Hn Hp. unfold list2cli, cli_lists.
  assert (G : forall m pks st, incl m l -> fold_left (fun s x => item_cli regs pks x s) m st = st).
  { induction m as [| [k v i] m IHm]; intros pks st I; auto. cbn [fold_left]. rewrite IHm by (intros y Hy; apply I; right; auto).
    assert (Ix : In (It k v i) l) by (apply I; left; auto). unfold plain in Hp. rewrite forallb_forall in Hp. pose proof (Hp _ Ix) as X. cbn [plain_item] in X.
    apply andb_true_iff in X. destruct X as [X1 X2]. apply info_eqb_eq in X1. subst i. rewrite item_cli_eq. unfold cli_item. destruct k as [| c k]; auto. destruct v as [w |]; auto.
    assert (D : depth w < n). { pose proof (depth_In _ _ Ix) as D. rewrite (depth_val _ w) in D by auto. lia. }
    rewrite (IH (depth w) D w); auto. }
  rewrite G by apply incl_refl. reflexivity.
Qed.

Section Apply.
Variable dv : device.
Variables l1 l2 d : list item.
Hypothesis T1 : tree l1.
Hypothesis T2 : tree l2.
Hypothesis F : facts l1 l2 d.
Hypothesis Q : Settled dv l2.
Hypothesis OB : Obeys dv l2 d.
Hypothesis FD : Forall Fair d.
Hypothesis SUB : forall k w, In (It k (Some w) ISame) d -> exists P M, Cmds w P M.
Hypothesis RUN : forall k w v1 v2 P M, In (It k (Some w) ISame) d -> KeptIn l1 l2 d k v1 v2 -> Cmds w P M ->
  forall s, Same s (kids v1) -> Same (run dv (M ++ P) s) (kids v2).

Lemma new_key : forall k v, In (It k v IPlus) d -> In k (keys l2).
Proof. intros k v H. apply (In_keys _ v ISame). apply (f_plus _ _ _ F). auto. Qed.
Lemma kept_key : forall k v, In (It k v ISame) d -> In k (keys l2).
Proof. intros k v H. destruct (f_kept _ _ _ F _ _ H) as (v1 & v2 & _ & K & _). apply (In_keys _ _ _ _ K). Qed.
Lemma kept_one : forall k v v', In (It k v ISame) d -> In (It k v' ISame) d -> v = v'.
Proof.
  intros k v v' H H'. destruct (f_kept _ _ _ F _ _ H) as (v1 & v2 & _ & _ & _ & _ & [[_ U] | (w & _ & _ & U)]); rewrite (U _ H), (U _ H'); auto.
Qed.
Lemma kept_new : forall k v v', In (It k v ISame) d -> In (It k v' IPlus) d -> False.
Proof. intros k v v' H H'. destruct (f_kept _ _ _ F _ _ H) as (v1 & v2 & _ & _ & _ & N & _). apply (N _ H'). Qed.
Lemma new_one : forall k v v', In (It k v IPlus) d -> In (It k v' IPlus) d -> v = v'.
Proof. intros k v v' H H'. apply (f_plus _ _ _ F) in H. apply (f_plus _ _ _ F) in H'. apply (one_key _ _ _ _ _ _ (proj1 (t_dis _ T2)) H H'). Qed.

Lemma pos_keys : forall t, Pos d t -> In (ikey t) (keys l2) \/ (In (It ("no " ++ ikey t) None IMinus) d /\ ival t = None).
Proof.
  intros t (x & H & PX). inversion PX as [k v N | k w P M C N | u X]; subst; cbn [ikey ival]; [left; apply (new_key _ _ H) | left; apply (kept_key _ _ H) | auto].
Qed.
Lemma pos_plain : forall t, Pos d t -> starts "no " (ikey t) = false.
Proof.
  intros t (x & H & PX). inversion PX as [k v N | k w P M C N | u X]; subst; cbn [ikey]; auto.
  - apply (section_key dv l2 d OB _ _ _ H).
  - destruct (d_key l1 l2 d T1 T2 F _ _ _ H) as (_ & _ & D). apply (D u eq_refl).
Qed.
Lemma back_only : forall x, In (It ("no " ++ x) None IMinus) d -> In x (keys l2) -> In (It x None ISame) l2 /\ forall w, ~ In (It x (Some w) ISame) d.
Proof.
  intros x H I1. destruct (ob_shown _ _ _ OB _ _ _ H (undo_no x) (Settled_shows _ _ _ Q I1)) as [A | [A _]]; auto.
  exfalso. destruct (d_key l1 l2 d T1 T2 F _ _ _ H) as (_ & _ & D). assert (X : starts "no " x = false) by apply (D x eq_refl). unfold Negates in A. congruence.
Qed.
Lemma back_new : forall x v, In (It ("no " ++ x) None IMinus) d -> In (It x v IPlus) d -> v = None.
Proof.
  intros x v H H'. destruct (back_only x H (new_key _ _ H')) as [A _]. apply (f_plus _ _ _ F) in H'. symmetry. apply (one_key _ _ _ _ _ _ (proj1 (t_dis _ T2)) A H').
Qed.
Lemma Pos_one : forall t t', Pos d t -> Pos d t' -> ikey t = ikey t' -> t = t'.
Proof.
  intros t t' (x & H & PX) (x' & H' & PX') E. inversion PX as [k v N | k w P M C N | u X]; subst; inversion PX' as [k' v' N' | k' w' P' M' C' N' | u' X']; subst; cbn [ikey] in E; subst; auto.
  - rewrite (new_one _ _ _ H H'). auto.
  - destruct (kept_new _ _ _ H' H).
  - rewrite (back_new _ _ H' H). auto.
  - destruct (kept_new _ _ _ H H').
  - assert (X := kept_one _ _ _ H H'). injection X as X. subst w'. destruct (Cmds_fun _ _ _ _ _ C C'). subst. auto.
  - destruct (back_only _ H' (kept_key _ _ H)) as [_ Y]. destruct (Y _ H).
  - rewrite (back_new _ _ H H'). auto.
  - destruct (back_only _ H (kept_key _ _ H')) as [_ Y]. destruct (Y _ H').
Qed.
(** The commands that take back *)
Lemma neg_keys : forall t, Neg d t -> (exists k v, In (It k v IMinus) d /\ Undoes (ikey t) k /\ Negates (ikey t) /\ ival t = None) \/
  (In (It (ikey t) None IPlus) d /\ Negates (ikey t) /\ ival t = None) \/
  exists w P M, In (It (ikey t) (Some w) ISame) d /\ Cmds w P M /\ M <> [] /\ ival t = Some M /\ starts "no " (ikey t) = false.
Proof.
  intros t (x & H & PX). inversion PX as [k v N X | u | k w P M C N]; subst; cbn [ikey ival].
  - left. exists k, v. destruct (nc_spec k (d_ord l1 l2 d T1 T2 F _ _ _ H) N) as (_ & UN & _ & y & E & _). do 2 (split; auto). split; auto. rewrite E. apply no_starts.
  - right. left. split; auto. split; auto. apply no_starts.
  - right. right. exists w, P, M. do 4 (split; auto). apply (section_key dv l2 d OB _ _ _ H).
Qed.
Lemma neg_info : forall t, Neg d t -> iinfo t = ISame.
Proof. intros t (x & H & PX). inversion PX; auto. Qed.
Lemma Neg_one : forall t t', Neg d t -> Neg d t' -> ikey t = ikey t' -> t = t'.
Proof.
  intros t t' H H' E. assert (X : ival t = ival t').
  { destruct (neg_keys _ H) as [(k & v & A1 & A2 & A3 & A4) | [(A1 & A2 & A3) | (w & P & M & A1 & A2 & A3 & A4 & A5)]];
      destruct (neg_keys _ H') as [(k' & v' & B1 & B2 & B3 & B4) | [(B1 & B2 & B3) | (w' & P' & M' & B1 & B2 & B3 & B4 & B5)]]; try congruence; unfold Negates in *; try congruence.
    rewrite E in A1. assert (Y := kept_one _ _ _ A1 B1). injection Y as Y. subst w'. destruct (Cmds_fun _ _ _ _ _ A2 B2). congruence. }
  assert (I1 := neg_info _ H). assert (I2 := neg_info _ H'). destruct t, t'. cbn in *. congruence.
Qed.

(** The lists of commands *)
Lemma lists : exists P M, Cmds d P M /\ NoDup (keys P) /\ NoDup (keys M) /\ (forall t, In t P -> Pos d t) /\ (forall t, In t M -> Neg d t) /\
  (forall t, ordinary_item t = true -> In (text_item 2 t) (c_pos (fin d)) -> In t P) /\
  (forall t, ordinary_item t = true -> In (text_item 2 t) (c_neg (fin d)) -> In t M).
Proof.
  pose proof (cli_NoDup regs d) as [NP NM]. rewrite (lists_eq d) in NP, NM. change (finish regs (st0 d)) with (fin d) in NP, NM.
  destruct (map_choice _ _ (text_item 2) (Pos d) (c_pos (fin d))) as (P & EP & HP). { intros c H. apply (pos_incl dv l1 l2 d T1 T2 F OB FD SUB). auto. }
  destruct (map_choice _ _ (text_item 2) (Neg d) (rev (c_neg (fin d)))) as (M & EM & HM).
  { intros c H. apply in_rev in H. apply (neg_incl dv l1 l2 d T1 T2 F OB FD SUB) in H. auto. }
  rewrite Forall_forall in HP, HM.
  assert (PO : forall t, Pos d t -> ordinary_item t = true) by (apply (Pos_ordinary l1 l2 d); auto).
  assert (NO : forall t, Neg d t -> ordinary_item t = true) by (apply (Neg_ordinary l1 l2 d); auto).
  exists P, M. split.
  { split; [unfold ordinary; apply forallb_forall; auto |]. split; [unfold ordinary; apply forallb_forall; auto |].
    assert (X : forall l, text 2 l = concat (map (text_item 2) l)) by (intros l; unfold text; apply flat_map_concat_map).
    unfold list2cli. cbn [fst snd]. rewrite (lists_eq d). change (finish regs (st0 d)) with (fin d). unfold join_cmds. rewrite !X, EP, EM. auto. }
  split. { apply NoDup_by_key; [apply (NoDup_map_inv (text_item 2)); rewrite EP; auto |]. intros t t' A B. apply Pos_one; auto. }
  split. { apply NoDup_by_key; [apply (NoDup_map_inv (text_item 2)); rewrite EM; apply NoDup_rev; auto |]. intros t t' A B. apply Neg_one; auto. }
  split; auto. split; auto. split.
  - intros t O H. rewrite <- EP in H. apply in_map_iff in H. destruct H as (t' & E & H). rewrite (text_item_inj t t'); auto.
  - intros t O H. apply (in_rev (c_neg (fin d))) in H. rewrite <- EM in H. apply in_map_iff in H. destruct H as (t' & E & H). rewrite (text_item_inj t t'); auto.
Qed.

(** A list of commands none of which makes [y] go *)
Lemma phase : forall L cfg y, NoDup (keys L) -> shows dv y = true -> (forall c, In c L -> kills dv c y = false) ->
  (forall v i, In (It y v i) L -> look y (run dv L cfg) = Some (below dv v (old (look y cfg)))) /\
  (~ In y (keys L) -> look y (run dv L cfg) = look y cfg).
Proof.
  intros L cfg y N G K. assert (NK : forall L', incl L' L -> existsb (fun c => kills dv c y) L' = false).
  { intros L' I. destruct (existsb _ L') eqn:E; auto. apply existsb_exists in E. destruct E as (c & C1 & C2). rewrite K in C2; auto. }
  split.
  - intros v i H. destruct (in_split _ _ H) as (a & b & E). subst L. unfold keys in N. rewrite map_app in N. cbn [map ikey] in N. apply NoDup_remove in N. destruct N as [_ N].
    assert (NO : forall c, In c a \/ In c b -> ~ own dv y c). { intros c Hc [E _]. apply N. rewrite <- E. apply in_or_app. destruct Hc; [left | right]; apply in_map; auto. }
    rewrite run_own; auto.
    + rewrite run_other by auto. rewrite NK; auto. intros c Hc. apply in_or_app. auto.
    + intros c Hc. apply K. apply in_or_app. right. right. auto.
  - intros H. rewrite run_other; [rewrite NK; auto; apply incl_refl |]. intros c Hc [E _]. apply H. rewrite <- E. apply in_map. auto.
Qed.
Lemma phase_leaf : forall L cfg y s, NoDup (keys L) -> shows dv y = true -> (forall c, In c L -> kills dv c y = false) ->
  (forall c, In c L -> ikey c = y -> ival c = None) -> look y cfg = Some s -> look y (run dv L cfg) = Some s.
Proof.
  intros L cfg y s N G K V E. destruct (phase L cfg y N G K) as [A B]. destruct (in_dec string_dec y (keys L)) as [I1 | NI].
  - apply keys_In in I1. destruct I1 as (v & i & I1). assert (X := V _ I1 eq_refl). cbn in X. subst v. rewrite (A _ _ I1), E. reflexivity.
  - rewrite B; auto.
Qed.
Lemma Same_empty : forall s, Same s [] -> s = [].
Proof. intros [| z s] H; auto. inversion H as [u1 u2 _ _ KS _ Eu1 Eu2]; subst. destruct (proj1 (KS (ikey z)) (or_introl eq_refl)). Qed.

Lemma level_apply : exists P M, Cmds d P M /\ forall cfg, Same cfg l1 -> Same (run dv (M ++ P) cfg) l2.
Proof.
  destruct lists as (P & M & C & NP & NM & HP & HM & PF & MF). exists P, M. split; auto. intros cfg SC.
  pose proof (tree_full _ T1) as FU1. pose proof (tree_full _ T2) as FU2. pose proof (Same_full _ _ SC FU1) as FC. pose proof (look_Same _ _ SC) as LS.
  assert (KE : forall c y, ikey c <> y -> evicts dv (ikey c) y = false -> kills dv c y = false) by (intros c y _ E; unfold kills; rewrite E; apply andb_false_r).
  assert (KO : forall c y, ikey c = y -> shows dv y = true -> kills dv c y = false) by (intros c y E G; unfold kills; rewrite E, String.eqb_refl, G; auto).
  assert (KM : forall y, In y (keys l2) -> Negates y \/ (forall v, ~ In (It y v IPlus) d) -> forall c, In c M -> kills dv c y = false).
  { intros y Hy Np c Hc. destruct (string_dec (ikey c) y) as [E | NE]; [apply KO; auto; apply (Settled_shows _ _ _ Q Hy) |]. apply KE; auto.
    destruct (neg_keys _ (HM _ Hc)) as [(k & v & A1 & A2 & A3 & A4) | [(A1 & A2 & A3) | (w & P0 & M0 & A1 & _)]].
    - apply (ob_stays _ _ _ OB k v _ y); auto.
    - apply (Settled_pair _ _ _ _ Q); auto. apply (new_key _ _ A1).
    - apply (Settled_pair _ _ _ _ Q); auto. apply (kept_key _ _ A1). }
  assert (KP : forall y, In y (keys l2) -> forall c, In c P -> kills dv c y = false).
  { intros y Hy c Hc. destruct (string_dec (ikey c) y) as [E | NE]; [apply KO; auto; apply (Settled_shows _ _ _ Q Hy) |]. apply KE; auto.
    destruct (pos_keys _ (HP _ Hc)) as [A | [A _]]; [apply (Settled_pair _ _ _ _ Q); auto |]. apply (ob_stays _ _ _ OB _ _ _ y A (undo_no _)); auto.
    left. unfold Negates. rewrite (pos_plain _ (HP _ Hc)). discriminate. }
  assert (LEAF : forall c, (In [c] (c_pos (fin d)) -> In (It c None ISame) P) /\ (In [c] (c_neg (fin d)) -> In (It c None ISame) M)).
  { intros c. split; intros H.
    - destruct (pos_incl dv l1 l2 d T1 T2 F OB FD SUB _ H) as (t & Pt & Et). destruct (Pos_leaf l1 l2 d T1 T2 F _ _ Pt (eq_sym Et)) as (_ & _ & _ & O). apply PF; auto. cbn [ordinary_item]. rewrite O. auto.
    - destruct (neg_incl dv l1 l2 d T1 T2 F OB FD SUB _ H) as (t & Pt & Et). destruct (Neg_leaf l1 l2 d T1 T2 F _ _ Pt (eq_sym Et)) as (_ & _ & _ & O). apply MF; auto. cbn [ordinary_item]. rewrite O. auto. }
  assert (KILL : forall y v1, In (It y v1 IMinus) d -> (In (It y None IPlus) d /\ v1 = None) \/ exists c, (In c P \/ In c M) /\ kills dv c y = true).
  { intros y v1 H. destruct (gone dv l1 l2 d T1 T2 F OB FD SUB y v1 H) as [A | (c & A & B & E)]; auto. right. exists (It c None ISame).
    split; [destruct A as [A | A]; apply LEAF in A; auto |]. unfold kills. cbn [ikey]. rewrite (proj2 (String.eqb_neq c y) B), E. auto. }
  apply Same_look; auto. { apply full_run. auto. }
  intros y. destruct (look y l2) as [s2 |] eqn:L2.
  - apply look_Some in L2. destruct L2 as (v2 & i2 & I2 & E2). subst s2. assert (i2 = ISame) by apply (tree_info _ _ _ _ T2 I2). subst i2.
    assert (Hy : In y (keys l2)) by apply (In_keys _ _ _ _ I2). assert (SH : shows dv y = true) by apply (Settled_shows _ _ _ Q Hy).
    destruct (f_to _ _ _ F _ _ I2) as [IP | (v1 & KI)].
    + rewrite run_app. destruct (starts "no " y) eqn:NY.
      * (* a new line that begins with no *)
        assert (v2 = None) by apply (no_leaf dv l2 d OB _ _ _ IP NY). subst v2. destruct (no_split _ NY) as (x & Ey).
        assert (InM : In (It y None ISame) M). { apply LEAF. subst y. apply (neg_new dv l1 l2 d T1 T2 F OB FD SUB). auto. }
        destruct (phase M cfg y NM SH (KM y Hy (or_introl NY))) as [PH _]. destruct (phase P (run dv M cfg) y NP SH (KP y Hy)) as [_ PH2].
        rewrite PH2, (PH _ _ InM). 2: { intros H. apply keys_In in H. destruct H as (v & i & H). apply HP, pos_plain in H. cbn [ikey] in H. congruence. }
        cbn [below kids]. assert (OLD : old (look y cfg) = []); [| rewrite OLD; apply Same_nil]. specialize (LS y). destruct (look y l1) as [s1 |] eqn:L1; [| destruct (look y cfg); [destruct LS | auto]].
        apply look_Some in L1. destruct L1 as (v1 & i1 & I1 & E1). destruct (tree_key _ _ _ _ T1 I1) as (_ & _ & D). destruct (D x Ey) as [Ev _]. subst v1 s1. destruct (look y cfg) as [s |]; [| destruct LS].
        cbn in *. apply Same_empty. auto.
      * (* another new line *)
        assert (PN : Pos d (It y v2 ISame)) by (exists (It y v2 IPlus); split; auto; constructor; auto).
        assert (InP : In (It y v2 ISame) P). { destruct v2 as [w2 |]; [apply PF; [apply (Pos_ordinary l1 l2 d); auto | apply (pos_block dv l1 l2 d T1 T2 F OB FD SUB); auto] | apply LEAF; apply (pos_new dv l1 l2 d T1 T2 F OB FD SUB); auto]. }
        destruct (phase P (run dv M cfg) y NP SH (KP y Hy)) as [PH _]. rewrite (PH _ _ InP). clear PH.
        assert (OLD : old (look y (run dv M cfg)) = []).
        { rewrite run_other. 2: { intros c Hc [O _]. destruct (neg_keys _ (HM _ Hc)) as [(k & v & _ & _ & A & _) | [(_ & A & _) | (w & _ & _ & A & _)]]; rewrite O in A; unfold Negates in A; try congruence. apply (kept_new _ _ _ A IP). }
          destruct (existsb (fun c => kills dv c y) M) eqn:EX; auto. specialize (LS y). destruct (look y l1) as [s1 |] eqn:L1; [| destruct (look y cfg); [destruct LS | auto]].
          apply look_Some in L1. destruct L1 as (v1 & i1 & I1 & E1). subst s1. assert (i1 = ISame) by apply (tree_info _ _ _ _ T1 I1). subst i1.
          destruct (f_from _ _ _ F _ _ I1) as [IM | (v' & _ & _ & _ & NPl & _)]; [| destruct (NPl _ IP)].
          destruct (KILL _ _ IM) as [[A B] | (c & [A | A] & B)].
          - subst v1. destruct (look y cfg) as [s |]; [| destruct LS]. cbn in *. apply Same_empty. auto.
          - exfalso. rewrite (KP y Hy c A) in B. discriminate.
          - exfalso. assert (X : existsb (fun c => kills dv c y) M = true) by (apply existsb_exists; eauto). congruence. }
        rewrite OLD. destruct v2 as [w2 |]; cbn [below kids]; [| apply Same_nil].
        apply (fresh dv (depth w2)); auto; [apply (tree_kids _ _ _ _ T2 I2) | apply (Settled_kids _ _ _ _ _ Q I2)].
    + (* a line that is kept *)
      pose proof KI as (K1 & K2 & K3 & K4 & K5). specialize (LS y). rewrite (look_In _ _ _ _ (proj1 FU1) K1) in LS. destruct (look y cfg) as [s |] eqn:LC; [| destruct LS].
      assert (KMy := KM y Hy (or_intror K4)). assert (KPy := KP y Hy). rewrite run_app.
      destruct (existsb (fun x => String.eqb (ikey x) y && info_eqb (iinfo x) ISame && match ival x with Some _ => true | None => false end) d) eqn:EX.
      * apply existsb_exists in EX. destruct EX as ([k o i] & Hx & Ex). cbn [ikey iinfo ival] in Ex. apply andb_true_iff in Ex. destruct Ex as [Ex E3]. apply andb_true_iff in Ex. destruct Ex as [Ex E4].
        apply String.eqb_eq in Ex. apply info_eqb_eq in E4. subst k i. destruct o as [w |]; [| discriminate]. assert (NY := section_key dv l2 d OB _ _ _ Hx).
        assert (X : exists Py My, Cmds w Py My /\ Same (run dv (My ++ Py) s) (kids v2)).
        { destruct K5 as [[E U] | (w' & SW & I & U)].
          - assert (E5 := U _ Hx). subst v1 v2. exists [], []. split; [| exact LS]. split; auto. split; auto. rewrite (plain_silent (depth w)); auto. apply (tree_plain _ (tree_kids _ _ _ _ T1 K1)).
          - assert (E5 := U _ Hx). injection E5 as E5. subst w'. destruct (SUB _ _ I) as (P0 & M0 & C0). exists P0, M0. split; auto. apply (RUN y w v1 v2); auto. }
        destruct X as (Py & My & C0 & B5). destruct (phase P (run dv M cfg) y NP SH KPy) as [PA PB]. destruct (phase M cfg y NM SH KMy) as [MA MB].
        assert (LM : look y (run dv M cfg) = Some (run dv My s)).
        { destruct My as [| z My].
          - rewrite MB; auto. intros H. apply keys_In in H. destruct H as (v & i & H). destruct (neg_keys _ (HM _ H)) as [(k & v' & _ & _ & A & _) | [(_ & A & _) | (w' & P1 & M1 & A1 & A2 & A3 & _)]]; cbn [ikey] in *; unfold Negates in *; try congruence.
            assert (Y := kept_one _ _ _ A1 Hx). injection Y as Y. subst w'. destruct (Cmds_fun _ _ _ _ _ C0 A2) as [_ Y]. apply A3. auto.
          - assert (N0 : Neg d (It y (Some (z :: My)) ISame)) by (exists (It y (Some w) ISame); split; auto; apply (ne_kept d y w Py (z :: My)); auto; discriminate).
            rewrite (MA (Some (z :: My)) ISame); [rewrite LC; auto |]. apply MF; [apply (Neg_ordinary l1 l2 d); auto | apply (neg_block dv l1 l2 d T1 T2 F OB FD SUB); auto]. }
        assert (LP : look y (run dv P (run dv M cfg)) = Some (run dv Py (run dv My s))).
        { destruct Py as [| z Py].
          - rewrite PB; auto. intros H. apply in_map_iff in H. destruct H as (t & Et & H). apply HP in H. destruct H as (x & H & PX).
            inversion PX as [k v N | k w' P1 M1 C1 N1 | u X]; subst; cbn [ikey] in *.
            + apply (K4 _ H).
            + assert (Y := kept_one _ _ _ H Hx). injection Y as Y. subst w'. destruct (Cmds_fun _ _ _ _ _ C0 C1) as [Y _]. apply N1. auto.
            + destruct (back_only _ H Hy) as [_ Y]. apply (Y _ Hx).
          - assert (N0 : Pos d (It y (Some (z :: Py)) ISame)) by (exists (It y (Some w) ISame); split; auto; apply (po_kept d y w (z :: Py) My); auto; discriminate).
            rewrite (PA (Some (z :: Py)) ISame); [rewrite LM; auto |]. apply PF; [apply (Pos_ordinary l1 l2 d); auto | apply (pos_block dv l1 l2 d T1 T2 F OB FD SUB); auto]. }
        rewrite LP, <- run_app. exact B5.
      * assert (NW : forall w, ~ In (It y (Some w) ISame) d).
        { intros w H. assert (Z : existsb (fun x => String.eqb (ikey x) y && info_eqb (iinfo x) ISame && match ival x with Some _ => true | None => false end) d = true); [| congruence].
          apply existsb_exists. exists (It y (Some w) ISame). split; auto. cbn. rewrite String.eqb_refl. auto. }
        destruct K5 as [[E U] | (w & _ & I & _)]; [| destruct (NW _ I)]. subst v2.
        rewrite (phase_leaf P (run dv M cfg) y s); auto.
        { intros c Hc Ek. destruct (HP _ Hc) as (x & H & PX). inversion PX as [k v N | k w' P1 M1 C1 N1 | u X]; subst; cbn [ikey ival] in *; auto; exfalso; [apply (K4 _ H) | apply (NW _ H)]. }
        apply phase_leaf; auto. intros c Hc Ek. destruct (neg_keys _ (HM _ Hc)) as [(k & v & A1 & A2 & A3 & A4) | [(A1 & A2 & A3) | (w & P0 & M0 & A1 & _)]]; auto. rewrite Ek in A1. destruct (NW _ A1).
  - (* a line that is not to stay *)
    apply look_None in L2.
    assert (OWN : (exists c, In (It c None ISame) P /\ kills dv (It c None ISame) y = true /\ starts "no " y = true) \/ forall c, In c (M ++ P) -> ~ own dv y c).
    { destruct (existsb (fun c => String.eqb (ikey c) y && shows dv y) M) eqn:EM.
      - apply existsb_exists in EM. destruct EM as (c & Hc & E). apply andb_true_iff in E. destruct E as [O SH]. apply String.eqb_eq in O. left.
        destruct (neg_keys _ (HM _ Hc)) as [(k & v & A1 & A2 & A3 & A4) | [(A1 & A2 & A3) | (w & P0 & M0 & A1 & _)]]; rewrite O in *; [| destruct L2; apply (new_key _ _ A1) | destruct L2; apply (kept_key _ _ A1)].
        destruct (ob_shown _ _ _ OB _ _ _ A1 A2 SH) as [[A _] | (A & c' & B1 & B2 & B3)]; [destruct L2; apply (In_keys _ _ _ _ A) |]. exists c'.
        assert (PL : starts "no " c' = false) by (unfold Negates in B2; destruct (starts "no " c'); [destruct B2 |]; reflexivity). split; [apply LEAF; apply (pos_new dv l1 l2 d T1 T2 F OB FD SUB); auto |]. split; auto.
        unfold kills. cbn [ikey]. assert (E : String.eqb c' y = false) by (apply String.eqb_neq; intros X; subst; unfold Negates in A; congruence). rewrite E, B3. auto.
      - right. intros c Hc [O SH]. apply in_app_or in Hc. destruct Hc as [Hc | Hc].
        + assert (X : existsb (fun c => String.eqb (ikey c) y && shows dv y) M = true); [| congruence]. apply existsb_exists. exists c. split; auto. rewrite O, String.eqb_refl, SH. auto.
        + destruct (pos_keys _ (HP _ Hc)) as [A | [A _]]; rewrite O in A; auto. destruct (ob_shown _ _ _ OB _ _ _ A (undo_no y) SH) as [[B _] | [B _]]; [apply L2; apply (In_keys _ _ _ _ B) |].
          assert (Z := pos_plain _ (HP _ Hc)). rewrite O in Z. unfold Negates in B. congruence. }
    destruct OWN as [(c & C1 & C2 & C3) | NOWN].
    { rewrite run_app, run_other. 2: { intros c' Hc' [O _]. assert (Z := pos_plain _ (HP _ Hc')). rewrite O in Z. congruence. }
      assert (X : existsb (fun c => kills dv c y) P = true) by (apply existsb_exists; eauto). rewrite X. auto. }
    rewrite run_other by auto. destruct (existsb (fun c => kills dv c y) (M ++ P)) eqn:EX; auto. specialize (LS y). destruct (look y l1) as [s1 |] eqn:L1.
    + exfalso. apply look_Some in L1. destruct L1 as (v1 & i1 & I1 & E1). assert (i1 = ISame) by apply (tree_info _ _ _ _ T1 I1). subst i1.
      destruct (f_from _ _ _ F _ _ I1) as [IM | (v' & _ & K2 & _)]; [| apply L2; apply (In_keys _ _ _ _ K2)].
      assert (X : existsb (fun c => kills dv c y) (M ++ P) = true); [| congruence]. apply existsb_exists.
      destruct (KILL _ _ IM) as [[A B] | (c & A & B)]; [exfalso; apply L2; apply (new_key _ _ A) |]. exists c. split; auto. apply in_or_app. tauto.
    + destruct (look y cfg); [destruct LS | auto].
Qed.
End Apply.
