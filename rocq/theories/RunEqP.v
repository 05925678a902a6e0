(** Proofs: diffs with the same text are the same. *)
From Coq Require Import String Ascii List Bool Arith Lia Permutation.
From Verif Require Import Base BaseP RunningM RunSpec RunDiffP RunCliP RunTextP RunSibP RunOrderP RunAllP RunShowP RunNestSpec RunNestP RunFairP RunEqM RunEqSpec.
Import ListNotations.
Open Scope string_scope.
Open Scope list_scope.
Open Scope nat_scope.

(** ** Lines *)
Lemma one_app : forall a b, one_line_text (a ++ b) <-> one_line_text a /\ one_line_text b.
Proof. induction a as [| c a IH]; intros b; cbn; [tauto |]. rewrite IH. tauto. Qed.
Lemma one_spaces : forall n, one_line_text (spaces n).
Proof. induction n; cbn; auto. split; auto. discriminate. Qed.
Lemma one_sdrop : forall n s, one_line_text s -> one_line_text (sdrop n s).
Proof. induction n; intros [| c s] H; cbn; auto. apply IHn. apply H. Qed.
Lemma one_rstrip : forall s, one_line_text s -> one_line_text (rstrip s).
Proof. intros s H. destruct (rstrip_prefix s) as (r & E). rewrite E in H. apply one_app in H. apply H. Qed.
Lemma one_replace : forall n a b s, one_line_text b -> one_line_text s -> one_line_text (replace_str n a b s).
Proof.
  induction n as [| n IH]; intros a b s B H; [destruct s; auto |]. destruct s as [| c s]; auto. cbn [replace_str]. destruct (starts a (String c s)).
  - apply one_app. split; auto. apply IH; auto. apply one_sdrop. auto.
  - split; [apply H | apply IH; auto; apply H].
Qed.
Lemma one_replace_line : forall l, one_line_text l -> one_line_text (replace_line l).
Proof.
  unfold replace_line. assert (G : forall ps, (forall p, In p ps -> one_line_text (snd p)) -> forall s, one_line_text s -> one_line_text (fold_left (fun s p => replace_str (S (String.length s)) (fst p) (snd p) s) ps s)).
  { induction ps as [| p ps IH]; intros P s H; auto. cbn [fold_left]. apply IH; [intros; apply P; right; auto |]. apply one_replace; auto. apply P. left. auto. }
  apply G. intros p H. cbn in H. repeat (destruct H as [H | H]; [subst; cbn; repeat split; discriminate |]). destruct H.
Qed.

Definition good_key (k : string) : Prop := k <> "" /\ (forall r, k <> String " " r) /\ one_line_text k.
Definition rec_good (rec : list string -> res (list item)) : Prop := forall ls r, Forall one_line_text ls -> rec ls = Ok r -> Forall good_key (all_lines r).
Definition st_good (st : pstate) : Prop :=
  Forall good_key (all_lines (p_ret st)) /\ (p_last st <> "" -> good_key (rstrip (p_last st))) /\ Forall one_line_text (p_sec st).
Lemma flush_good : forall rec st l, rec_good rec -> st_good st -> flush rec st = Ok l -> Forall good_key (all_lines l).
Proof.
  intros rec st l H (A & C & D) F. unfold flush in F. destruct (p_last st) as [| a s] eqn:E; [injection F as F; subst; auto |].
  assert (K : good_key (rstrip (String a s))) by (apply C; discriminate).
  destruct (0 <? p_ind st).
  - apply bind_ok in F. destruct F as (c & Ec & F). injection F as F. subst l. rewrite flat_map_app. apply Forall_app. split; auto. cbn [flat_map lines_of app]. constructor; auto.
    rewrite app_nil_r. apply (H (p_sec st)); auto.
  - injection F as F. subst l. rewrite flat_map_app. apply Forall_app. split; auto. cbn [flat_map lines_of app]. constructor; auto.
Qed.
Lemma rstrip_head : forall s r, rstrip s = String " " r -> exists q, s = String " " q.
Proof. intros s r H. destruct (rstrip_prefix s) as (q & E). rewrite H in E. cbn in E. eauto. Qed.
Lemma parse_line_good : forall rec st line st', rec_good rec -> st_good st -> one_line_text line -> parse_line rec st line = Ok st' -> st_good st'.
Proof.
  intros rec st line st' H F U E. assert (FF := flush_good rec st). unfold parse_line in E. destruct (skipped line) eqn:SK; [injection E as E; subst; auto |].
  destruct (p_miss st && String.eqb (rstrip line) "!"). { apply bind_ok in E. destruct E as (r & F1 & E). injection E as E. subst st'. split; [apply (FF r); auto |]. split; [cbn; congruence | constructor]. }
  destruct (is_comment line); [injection E as E; subst; auto |]. destruct F as (A & C & D).
  assert (G : (forall r, line <> String " " r) -> (if negb (is_missing_indent line) && p_miss st
      then Ok (PState (p_ret st) (p_last st) (p_sec st ++ [line]) (if p_ind st =? 0 then 1 else p_ind st) true)
      else let! ret := flush rec st in Ok (PState ret line [] 0 (is_missing_indent line || p_miss st))) = Ok st' -> st_good st').
  { clear E. intros NB E. destruct (negb (is_missing_indent line) && p_miss st).
    - injection E as E; subst. split; auto. split; auto. cbn [p_sec]. apply Forall_app. auto.
    - apply bind_ok in E. destruct E as (r & F1 & E). injection E as E. subst st'. split; [cbn [p_ret]; apply (FF r); auto; split; auto |]. split; [| constructor].
      cbn [p_last]. intros NE. split; [apply skipped_strip; auto |]. split; [| apply one_rstrip; auto]. intros q Q. apply rstrip_head in Q. destruct Q as (q' & Q). apply (NB q'). auto. }
  cbv zeta in E. destruct line as [| [b0 b1 b2 b3 b4 b5 b6 b7] r]; [apply G; [discriminate | exact E] |].
  destruct b0, b1, b2, b3, b4, b5, b6, b7; try (apply G; [discriminate | exact E]). injection E as E. subst st'. split; auto. split; auto. cbn [p_sec]. apply Forall_app. split; auto. constructor; [| constructor].
  match goal with |- one_line_text (if ?a <? ?b then _ else _) => destruct (Nat.ltb_spec a b) as [L | L] end.
  - apply (proj2 (one_app (spaces _) _)). split; [apply one_spaces |]. apply one_sdrop. apply U.
  - apply one_sdrop. auto.
Qed.
Lemma config2list_good : forall f ls l, Forall one_line_text ls -> config2list f ls = Ok l -> Forall good_key (all_lines l).
Proof.
  induction f as [| f IH]; intros ls l U H; [discriminate |]. cbn [config2list] in H. apply bind_ok in H. destruct H as (st & H1 & H2).
  apply (flush_good (config2list f) st); [exact IH | | exact H2].
  assert (G : forall ls st st', Forall one_line_text ls -> st_good st -> foldM (parse_line (config2list f)) st ls = Ok st' -> st_good st').
  { clear - IH. induction ls as [| x r IHr]; intros st st' U P F; simpl in F; [injection F as F; subst; auto |]. apply bind_ok in F. destruct F as (st1 & F1 & F).
    inversion U; subst. apply (IHr st1 st'); auto. apply (parse_line_good (config2list f) st x); auto. }
  apply (G ls (PState [] "" [] 0 false)); auto. split; [constructor |]. split; [cbn; congruence | constructor].
Qed.
Lemma diff_good : forall r t1 t2 d, get_diff r t1 t2 = Ok d -> Forall one_line_text t1 -> Forall one_line_text t2 -> Forall good_key (all_lines d).
Proof.
  intros r t1 t2 d D U1 U2. assert (V : forall t, Forall one_line_text t -> Forall one_line_text (map replace_line t)). { induction 1; cbn; constructor; auto. apply one_replace_line. auto. }
  apply V in U1, U2. unfold get_diff, running_lists, running2list in D.
  apply bind_ok in D. destruct D as ((s1 & s2) & S1 & D). apply bind_ok in S1. destruct S1 as ((m1 & m2) & M & S1).
  apply bind_ok in M. destruct M as (l1 & P1 & M). apply bind_ok in M. destruct M as (l2 & P2 & M). apply bind_ok in M. destruct M as (l & L & M). injection M as M1 M2. subst m1 m2.
  apply bind_ok in S1. destruct S1 as (s1' & S1 & S2). apply bind_ok in S2. destruct S2 as (s2' & S2 & S3). injection S3 as E1 E2. subst s1' s2'.
  assert (F1 := config2list_good _ _ _ U1 P1). assert (F2 := config2list_good _ _ _ U2 P2).
  apply handle_orderless_incl in L. apply handle_siblings_lines in S1. apply handle_siblings_lines in S2.
  rewrite Forall_forall in F1, F2.
  assert (G1 : Forall good_key (all_lines s1)). { apply Forall_forall. intros x X. apply F1, L. apply (Permutation_in _ (Permutation_sym S1)). exact X. }
  assert (G2 : Forall good_key (all_lines s2)). { apply Forall_forall. intros x X. apply F2. apply (Permutation_in _ (Permutation_sym S2)). exact X. }
  rewrite Forall_forall in G1, G2. apply Forall_forall. intros x X. destruct r; apply compare_lines in D; apply D in X; apply in_app_or in X; destruct X; auto.
Qed.

(** ** Texts *)
Lemma unlines_inj : forall a b, Forall one_line_text a -> Forall one_line_text b -> unlines a = unlines b -> a = b.
Proof.
  assert (G : forall x y r q, one_line_text x -> one_line_text y -> (x ++ String nl r = y ++ String nl q)%string -> x = y /\ r = q).
  { assert (J : forall (c c' : ascii) (p p' : string), String c p = String c' p' -> c = c' /\ p = p') by (intros c c' p p' E; inversion E; auto).
    induction x as [| c x IH]; intros [| c' y] r q X Y E; cbn [String.append] in E; apply J in E; destruct E as [E1 E2].
    - auto.
    - exfalso. apply (proj1 Y). symmetry. exact E1.
    - exfalso. apply (proj1 X). exact E1.
    - destruct (IH y r q (proj2 X) (proj2 Y) E2). subst. auto. }
  induction a as [| x a IH]; intros [| y b] A B E; auto; cbn [unlines] in E.
  - destruct y; discriminate.
  - destruct x; discriminate.
  - inversion A; subst. inversion B; subst. apply G in E; auto. destruct E as [E1 E2]. subst. f_equal. auto.
Qed.

(** ** Tokens *)
Definition token := (nat * info * string)%type.
Definition show (t : token) : string := let '(n, j, k) := t in (sign j ++ spaces (2 * n + 1) ++ k)%string.
Definition under (j i : info) : info := match j with ISame => i | _ => j end.
Fixpoint toks (n : nat) (j : info) (x : item) : list token :=
  let '(It k v i) := x in (n, under j i, k) :: match v with None => [] | Some l => flat_map (toks (S n) (under j i)) l end.
Definition all_toks n j l := flat_map (toks n j) l.
Definition good_tok (t : token) : Prop := let '(n, j, k) := t in j <> IBoth /\ good_key k.
Lemma spaces_inj : forall n m k k', (forall r, k <> String " " r) -> (forall r, k' <> String " " r) -> k <> "" -> k' <> "" -> (spaces n ++ k = spaces m ++ k')%string -> n = m /\ k = k'.
Proof.
  induction n as [| n IH]; intros [| m] k k' A B N N' E; cbn in E; auto.
  - exfalso. apply (A _ E).
  - exfalso. apply (B _ (eq_sym E)).
  - injection E as E. destruct (IH m k k' A B N N' E). auto.
Qed.
Lemma show_inj : forall t t', good_tok t -> good_tok t' -> show t = show t' -> t = t'.
Proof.
  intros [[n j] k] [[m j'] k'] [J (N & B & _)] [J' (N' & B' & _)] E. cbn [show] in E.
  assert (X : j = j' /\ (spaces (2 * n + 1) ++ k = spaces (2 * m + 1) ++ k')%string).
  { destruct j, j'; cbn in E; try congruence; injection E as E; auto; discriminate. }
  destruct X as [X Y]. subst j'. apply spaces_inj in Y; auto. destruct Y as [Y Z]. subst. assert (n = m) by lia. subst. auto.
Qed.
Lemma show_one : forall t, good_tok t -> one_line_text (show t).
Proof.
  intros [[n j] k] [J (_ & _ & O)]. cbn [show]. apply one_app. split; [destruct j; cbn; split; auto; discriminate |]. apply one_app. split; auto. apply one_spaces.
Qed.
Lemma map_show_inj : forall a b, Forall good_tok a -> Forall good_tok b -> map show a = map show b -> a = b.
Proof.
  induction a as [| x a IH]; intros [| y b] A B E; auto; try discriminate. cbn [map] in E. injection E as E1 E2. inversion A; subst. inversion B; subst. f_equal; auto. apply show_inj; auto.
Qed.
Lemma printed_toks : forall x n j, Forall good_key (lines_of x) -> printed_item n j x = map show (toks n j x).
Proof.
  induction x as [k v i IH] using item_ind'. intros n j G. cbn [lines_of] in G. inversion G as [| a b (N & _) GR]; subst. cbn [printed_item toks map show]. fold (under j i).
  rewrite (proj2 (String.eqb_neq k "") N). f_equal. destruct v as [l |]; auto. specialize (IH l eq_refl). clear G N. revert GR. induction IH as [| y r Hy _ IHr]; intro GR; auto.
  cbn [flat_map] in *. apply Forall_app in GR. destruct GR as [G1 G2]. rewrite map_app, IHr by auto. rewrite Hy by auto. reflexivity.
Qed.
Lemma printed_all : forall d, Forall good_key (all_lines d) -> printed d = map show (all_toks 0 ISame d).
Proof.
  unfold printed, all_toks. induction d as [| x d IH]; intro G; auto. cbn [flat_map] in *. apply Forall_app in G. destruct G. rewrite map_app, IH by auto. rewrite printed_toks by auto. auto.
Qed.

(** Below an added or removed line the lines have no sign of their own. *)
Fixpoint okay (j : info) (x : item) : bool :=
  let '(It k v i) := x in
  negb (info_eqb (under j i) IBoth) && (info_eqb j ISame || info_eqb i ISame) && match v with None => true | Some l => forallb (okay (under j i)) l end.
Lemma plain_okay : forall x j, j <> IBoth -> plain_item x = true -> okay j x = true.
Proof.
  induction x as [k v i IH] using item_ind'. intros j J P. cbn [plain_item okay] in *. apply andb_true_iff in P. destruct P as [P1 P2]. apply info_eqb_eq in P1. subst i.
  assert (U : under j ISame = j) by (destruct j; auto). rewrite U. assert (X : info_eqb j IBoth = false) by (destruct j; auto; congruence). rewrite X. cbn [negb andb info_eqb]. rewrite orb_true_r. cbn [andb].
  destruct v as [l |]; auto. specialize (IH l eq_refl). unfold plain in P2. rewrite forallb_forall in *. rewrite Forall_forall in IH. auto.
Qed.
Lemma Script_okay : forall l1 l2 d, Script l1 l2 d -> plain l1 = true -> plain l2 = true -> forallb (okay ISame) d = true.
Proof.
  assert (Q : forall k v i j, plain_item (It k v i) = true -> j <> IBoth -> okay ISame (It k v j) = true).
  { intros k v i j P J. cbn [plain_item okay under] in *. apply andb_true_iff in P. destruct P as [_ P]. assert (X : info_eqb j IBoth = false) by (destruct j; auto; congruence). rewrite X. cbn [negb andb info_eqb orb].
    destruct v as [l |]; auto. unfold plain in P. rewrite forallb_forall in *. intros x X'. apply plain_okay; auto. }
  unfold plain. induction 1 as [| k v l1 l2 d HS IH | k v l1 l2 d HS IH | x l1 l2 d HS IH | x l1 l2 d HS IH | k v1 v2 w l1 l2 d Hv Hw IHw HS IH | k v w l1 l2 d Hw IHw HS IH | k v w l1 l2 d Hw IHw HS IH];
    intros F1 F2; cbn [forallb] in *; try (apply andb_true_iff in F1; destruct F1 as [A1 F1]); try (apply andb_true_iff in F2; destruct F2 as [A2 F2]); auto; rewrite ?IH by auto; rewrite ?andb_true_r.
  - apply (Q _ _ _ _ A1). discriminate.
  - apply (Q _ _ _ _ A2). discriminate.
  - apply plain_okay; auto. discriminate.
  - cbn [plain_item okay under info_eqb negb andb orb] in *. apply IHw; auto.
  - cbn [plain_item okay under info_eqb negb andb orb] in *. apply IHw; auto.
  - cbn [plain_item okay under info_eqb negb andb orb] in *. apply IHw; auto.
Qed.
Lemma okay_toks : forall x n j, okay j x = true -> Forall good_key (lines_of x) -> Forall good_tok (toks n j x).
Proof.
  induction x as [k v i IH] using item_ind'. intros n j O G. cbn [okay lines_of toks] in *. inversion G as [| a b GK GR]; subst. rewrite !andb_true_iff in O. destruct O as [[O1 O2] O3]. constructor.
  - split; auto. intro E. rewrite E in O1. discriminate.
  - destruct v as [l |]; [| constructor]. specialize (IH l eq_refl). rewrite forallb_forall in O3. apply Forall_forall. intros t T. apply in_flat_map in T. destruct T as (x & X & T).
    rewrite Forall_forall in IH. specialize (IH x X (S n) (under j i) (O3 x X)). refine (proj1 (Forall_forall _ _) (IH _) t T). apply Forall_forall. intros y Y. rewrite Forall_forall in GR. apply GR. apply in_flat_map. eauto.
Qed.
Lemma all_okay_toks : forall d, forallb (okay ISame) d = true -> Forall good_key (all_lines d) -> Forall good_tok (all_toks 0 ISame d).
Proof.
  intros d O G. rewrite forallb_forall in O. apply Forall_forall. intros t T. apply in_flat_map in T. destruct T as (x & X & T). assert (Y := okay_toks x 0 ISame (O x X)).
  refine (proj1 (Forall_forall _ _) (Y _) t T). apply Forall_forall. intros y Z. rewrite Forall_forall in G. apply G. apply in_flat_map. eauto.
Qed.

(** What follows a list of lines is on a higher level. *)
Definition above (n : nat) (r : list token) : Prop := match r with [] => True | (m, _, _) :: _ => m < n end.
Lemma toks_list : forall n j k v i, toks n j (It k v i) = (n, under j i, k) :: all_toks (S n) (under j i) (lines_below v).
Proof. intros n j k [l |] i; reflexivity. Qed.
Lemma okay_list : forall j k v i, okay j (It k v i) = true -> (j = ISame \/ i = ISame) /\ forallb (okay (under j i)) (lines_below v) = true.
Proof.
  intros j k v i H. cbn [okay] in H. rewrite !andb_true_iff in H. destruct H as [[_ H1] H2]. split; [| destruct v; auto]. apply orb_true_iff in H1. destruct H1 as [H1 | H1]; apply info_eqb_eq in H1; auto.
Qed.
Lemma toks_alike : forall m l l' n j r r', depth l <= m -> forallb (okay j) l = true -> forallb (okay j) l' = true -> above n r -> above n r' ->
  all_toks n j l ++ r = all_toks n j l' ++ r' -> Alike l l' /\ r = r'.
Proof.
  induction m as [m IH] using lt_wf_ind. induction l as [| [k v i] l IHl]; intros l' n j r r' D O O' A A' E.
  - destruct l' as [| [k' v' i'] l']; [split; [constructor | auto] |]. exfalso. unfold all_toks in E. cbn [flat_map app] in E. rewrite toks_list in E. cbn [app] in E. rewrite E in A. cbn in A. lia.
  - destruct l' as [| [k' v' i'] l']. { exfalso. unfold all_toks in E. cbn [flat_map app] in E. rewrite toks_list in E. cbn [app] in E. rewrite <- E in A'. cbn in A'. lia. }
    unfold all_toks in E. cbn [flat_map] in E. rewrite !toks_list in E. fold (all_toks n j l) (all_toks n j l') in E. cbn [app] in E. injection E as E1 E2 E3. subst k'.
    cbn [forallb] in O, O'. apply andb_true_iff in O, O'. destruct O as [O1 O2]. destruct O' as [O1' O2']. apply okay_list in O1, O1'. destruct O1 as [J1 O1]. destruct O1' as [J1' O1'].
    assert (Ei : i = i'). { destruct J1 as [J1 | J1]; [subst j; exact E1 |]. destruct J1' as [J1' | J1']; [subst j; exact E1 | congruence]. } subst i'.
    rewrite <- !app_assoc in E3. assert (Dv : lines_below v = [] \/ depth (lines_below v) < m).
    { destruct v as [w |]; auto. right. pose proof (depth_In (It k (Some w) i) (It k (Some w) i :: l) (or_introl eq_refl)) as X. rewrite (depth_val _ w) in X by auto. cbn [lines_below]. lia. }
    assert (Dl : depth l <= m). { cbn [depth] in D |- *. unfold depth in *. cbn [fold_right] in D. lia. }
    assert (AB : forall a q, above n q -> above (S n) (all_toks n j a ++ q)).
    { intros [| [k0 v0 i0] a] q H; [| unfold all_toks; cbn [flat_map]; rewrite toks_list; cbn; lia]. cbn [all_toks flat_map app]. destruct q as [| [[p0 q0] s0] q]; cbn in *; auto. }
    assert (G : Alike (lines_below v) (lines_below v') /\ all_toks n j l ++ r = all_toks n j l' ++ r').
    { destruct Dv as [Dv | Dv].
      - rewrite Dv in *. cbn [all_toks flat_map app] in E3. destruct (lines_below v') as [| [k0 v0 i0] w'] eqn:Ev'; [split; [constructor | exact E3] |]. exfalso.
        unfold all_toks in E3 at 2. cbn [flat_map] in E3. rewrite toks_list in E3. cbn [app] in E3. assert (X := AB l r A). rewrite E3 in X. cbn in X. lia.
      - apply (IH (depth (lines_below v)) Dv (lines_below v) (lines_below v') (S n) (under j i)); auto. }
    destruct G as [G1 G2]. destruct (IHl l' n j r r' Dl O2 O2' A A' G2) as [G3 G4]. split; auto. constructor; auto.
Qed.
Lemma alike_toks : forall l l', Alike l l' -> forall n j, all_toks n j l = all_toks n j l'.
Proof.
  induction 1 as [| k v v' i l l' H1 IH1 H2 IH2]; intros n j; auto. unfold all_toks in *. cbn [flat_map]. rewrite !toks_list. unfold all_toks. rewrite IH1, IH2. auto.
Qed.

Theorem running_eq_alike : forall t1 t2 t3 t4 d d', Forall one_line_text (t1 ++ t2 ++ t3 ++ t4) -> get_diff false t1 t2 = Ok d -> get_diff false t3 t4 = Ok d' ->
  (running_eq (t1, t2) (t3, t4) = Ok true <-> Alike d d').
Proof.
  intros t1 t2 t3 t4 d d' U D D'. rewrite !Forall_app in U. destruct U as (U1 & U2 & U3 & U4).
  assert (G := diff_good _ _ _ _ D U1 U2). assert (G' := diff_good _ _ _ _ D' U3 U4).
  assert (O : forall a b e, get_diff false a b = Ok e -> forallb (okay ISame) e = true).
  { intros a b e E. destruct (running_lists_total a b) as (s1 & s2 & R & P1 & P2). destruct (get_diff_script a b) as (x & y & e1 & e2 & R' & E1 & S1 & _). rewrite R in R'. injection R' as Ra Rb. subst x y. rewrite E in E1. injection E1 as E1. subst e1.
    apply (Script_okay _ _ _ S1 P1 P2). }
  assert (O1 := O _ _ _ D). assert (O2 := O _ _ _ D').
  destruct (running_printed t1 t2) as (x & X & Y). rewrite D in X. injection X as X. subst x. destruct (running_printed t3 t4) as (x & X & Y'). rewrite D' in X. injection X as X. subst x.
  unfold running_eq, running_text. cbn [fst snd]. rewrite Y, Y'. cbn [bind]. rewrite !printed_all by auto.
  assert (T1 := all_okay_toks _ O1 G). assert (T2 := all_okay_toks _ O2 G'). split.
  - intros E. injection E as E. apply String.eqb_eq in E.
    assert (M : forall t, Forall good_tok t -> Forall one_line_text (map show t)) by (induction 1; cbn [map]; constructor; auto; apply show_one; auto).
    apply unlines_inj in E; auto. apply map_show_inj in E; auto. destruct (toks_alike (depth d) d d' 0 ISame [] []) as [A _]; auto; [exact I | exact I |]. rewrite !app_nil_r. auto.
  - intros A. rewrite (alike_toks _ _ A). rewrite String.eqb_refl. auto.
Qed.
Lemma alike_filled : forall d d', Alike d d' -> Filled d -> Filled d' -> d = d'.
Proof.
  induction 1 as [| k v v' i l l' H1 IH1 H2 IH2]; intros F F'; auto. inversion F as [| ? ? ? FL | ? w ? ? N FW FL]; subst; inversion F' as [| ? ? ? FL' | ? w' ? ? N' FW' FL']; subst; rewrite IH2 by auto; auto.
  - exfalso. cbn in H1. inversion H1; subst. auto.
  - exfalso. cbn in H1. inversion H1; subst. auto.
  - cbn in *. rewrite IH1 by auto. auto.
Qed.
