(** Proofs: the matcher of the model agrees with the meaning of the expressions. *)
From Coq Require Import String Ascii List Bool Arith Lia.
From Verif Require Import Base RunningM RunSpec.
Import ListNotations.
Open Scope string_scope.
Open Scope list_scope.

Definition stops (p : ascii -> bool) (s : string) : Prop := match s with EmptyString => True | String c _ => p c = false end.

Lemma span_ok : forall p s a b, span p s = (a, b) -> s = (a ++ b)%string /\ all_chars p a /\ stops p b.
Proof.
  intros p s. induction s as [| c r IH]; intros a b H; cbn [span] in H.
  - injection H as H1 H2. subst. simpl. auto.
  - destruct (p c) eqn:E.
    + destruct (span p r) as [a' b'] eqn:S. injection H as H1 H2. subst. destruct (IH a' b eq_refl) as (A & B & C). subst r. simpl. auto.
    + injection H as H1 H2. subst. simpl. auto.
Qed.
Lemma span_max : forall p a b, all_chars p a -> stops p b -> span p (a ++ b)%string = (a, b).
Proof.
  intros p a b A B. induction a as [| c r IH]; cbn [append].
  - destruct b as [| d b]; auto. simpl in *. rewrite B. auto.
  - destruct A as [A1 A2]. cbn [span]. rewrite A1, (IH A2). auto.
Qed.

Lemma starts_app : forall p s, starts p (p ++ s)%string = true /\ sdrop (String.length p) (p ++ s)%string = s.
Proof.
  intros p s. unfold starts. induction p as [| c r IH]; cbn [append String.length stake sdrop].
  - split; auto.
  - destruct IH as [H1 H2]. split; auto. cbn [String.eqb]. rewrite Ascii.eqb_refl. auto.
Qed.
Lemma starts_eq : forall p s, starts p s = true -> s = (p ++ sdrop (String.length p) s)%string.
Proof.
  induction p as [| c r IH]; intros s H; cbn [String.length sdrop append]; auto.
  destruct s as [| d s]; [discriminate |]. unfold starts in *. cbn [String.length stake String.eqb] in H. destruct (Ascii.eqb d c) eqn:E; [| discriminate].
  apply Ascii.eqb_eq in E. subst d. cbn [sdrop]. f_equal. apply IH. auto.
Qed.
Lemma app_s_assoc : forall a b c, ((a ++ b) ++ c)%string = (a ++ (b ++ c))%string.
Proof. induction a as [| x a IH]; intros b c; cbn [append]; auto. rewrite IH. auto. Qed.

(** No piece can match more than one way. *)
Definition ends_at (p : ascii -> bool) (ps : list piece) : bool :=
  match ps with
  | PLit (String c _) :: _ => negb (p c)
  | PSpaceOrEnd :: _ => negb (p " "%char)
  | _ => false
  end.
Fixpoint single (ps : list piece) : bool :=
  match ps with
  | [] => true
  | PSpaces :: r => match r with PWord :: _ => true | _ => ends_at (Ascii.eqb " ") r end && single r
  | PWord :: r => ends_at (fun c => negb (is_ws c)) r && single r
  | PDigits :: r => ends_at is_digit r && single r
  | _ :: r => single r
  end.

Lemma ends_stops : forall p ps w rest, ends_at p ps = true -> Match ps w rest -> stops p (w ++ rest)%string.
Proof.
  intros p ps w rest E M. destruct M as [| | ps l w rest M | | | | ps w rest M | ps M]; simpl in E; try discriminate.
  - destruct l as [| c l]; [discriminate |]. apply negb_true_iff in E. exact E.
  - apply negb_true_iff in E. exact E.
  - exact I.
Qed.

Lemma white_ok : forall c, is_ws c = white c.
Proof. intro c. destruct c as [[] [] [] [] [] [] [] []]; reflexivity. Qed.
Lemma digit_ok : forall c, is_digit c = digit c.
Proof. intro c. destruct c as [[] [] [] [] [] [] [] []]; reflexivity. Qed.
Lemma all_ext : forall p q s, (forall c, p c = q c) -> all_chars p s -> all_chars q s.
Proof. intros p q s E. induction s as [| c s IH]; cbn [all_chars]; auto. intros [H1 H2]. rewrite <- E. auto. Qed.
Lemma nonwhite_ok : forall c, negb (is_ws c) = negb (white c).
Proof. intro c. rewrite white_ok. reflexivity. Qed.

Lemma match_sound : forall ps s w, re_match ps s = Some w -> exists rest, s = (w ++ rest)%string /\ Match ps w rest.
Proof.
  induction ps as [| p r IH]; intros s w H; cbn [re_match] in H.
  - injection H as H. subst. exists s. split; auto. constructor.
  - destruct p as [| l | | | |].
    + destruct (span (Ascii.eqb " ") s) as [a b] eqn:S. apply span_ok in S. destruct S as (S1 & S2 & _). destruct (re_match r b) as [w' |] eqn:R; [| discriminate].
      injection H as H. subst w s. destruct (IH b w' R) as (rest & E & M). subst b. exists rest. split; [rewrite app_s_assoc; auto |]. constructor; auto.
    + destruct (starts l s) eqn:S; [| discriminate]. apply starts_eq in S. destruct (re_match r (sdrop (String.length l) s)) as [w' |] eqn:R; [| discriminate].
      injection H as H. subst w. destruct (IH _ w' R) as (rest & E & M). exists rest. split; [rewrite app_s_assoc, <- E; auto |]. constructor; auto.
    + destruct (span (fun c => negb (is_ws c)) s) as [a b] eqn:S. apply span_ok in S. destruct S as (S1 & S2 & _).
      destruct a as [| c a]; [discriminate |]. destruct (re_match r b) as [w' |] eqn:R; [| discriminate].
      injection H as H. subst w s. destruct (IH b w' R) as (rest & E & M). subst b. exists rest. split; [cbn [append]; rewrite app_s_assoc; auto |]. apply (mt_word r (String c a)); auto; [discriminate |]. apply (all_ext _ _ _ nonwhite_ok S2).
    + destruct (span is_digit s) as [a b] eqn:S. apply span_ok in S. destruct S as (S1 & S2 & _).
      destruct a as [| c a]; [discriminate |]. destruct (re_match r b) as [w' |] eqn:R; [| discriminate].
      injection H as H. subst w s. destruct (IH b w' R) as (rest & E & M). subst b. exists rest. split; [cbn [append]; rewrite app_s_assoc; auto |]. apply (mt_digits r (String c a)); auto; [discriminate |]. apply (all_ext _ _ _ digit_ok S2).
    + destruct s as [| c b]; [discriminate |]. destruct (is_digit c) eqn:D; [| discriminate]. destruct (re_match r b) as [w' |] eqn:R; [| discriminate].
      injection H as H. subst w. destruct (IH b w' R) as (rest & E & M). subst b. exists rest. split; auto. apply mt_digit; auto. rewrite <- digit_ok. exact D.
    + destruct s as [| c b].
      * destruct (re_match r "") as [w' |] eqn:R; [| discriminate]. injection H as H. simpl in H. subst w'. destruct (IH "" w R) as (rest & E & M).
        destruct w; [| discriminate]. destruct rest; [| discriminate]. exists "". split; auto. apply mt_end; auto.
      * destruct (Ascii.eqb c " ") eqn:D; [| discriminate]. apply Ascii.eqb_eq in D. subst c. destruct (re_match r b) as [w' |] eqn:R; [| discriminate].
        injection H as H. subst w. destruct (IH b w' R) as (rest & E & M). subst b. exists rest. split; auto. apply mt_space; auto.
Qed.

Lemma match_complete : forall ps w rest, Match ps w rest -> single ps = true -> re_match ps (w ++ rest)%string = Some w.
Proof.
  intros ps w rest M. induction M as [rest | ps a w rest A M IH | ps l w rest M IH | ps a w rest N A M IH | ps a w rest N A M IH | ps c w rest D M IH | ps w rest M IH | ps M IH]; intro S;
    cbn [re_match].
  - auto.
  - cbn [single] in S. apply andb_true_iff in S. destruct S as [S1 S2]. rewrite app_s_assoc, span_max; auto.
    + rewrite (IH S2). auto.
    + destruct ps as [| q r]; [discriminate |]. destruct q; try (apply (ends_stops _ _ _ _ S1 M); fail).
      inversion M as [| | | ? a' w' ? N' A' M' | | | |]; subst. destruct a' as [| c a']; [contradiction |]. destruct A' as [A1 _]. simpl.
      destruct c as [[] [] [] [] [] [] [] []]; try reflexivity; discriminate.
  - cbn [single] in S. rewrite app_s_assoc. destruct (starts_app l (w ++ rest)%string) as [E1 E2]. rewrite E1, E2, (IH S). auto.
  - apply (all_ext _ _ _ (fun c => eq_sym (nonwhite_ok c))) in A. cbn [single] in S. apply andb_true_iff in S. destruct S as [S1 S2]. rewrite app_s_assoc, span_max; auto; [| apply (ends_stops _ _ _ _ S1 M)].
    destruct a as [| c a]; [contradiction |]. rewrite (IH S2). auto.
  - apply (all_ext _ _ _ (fun c => eq_sym (digit_ok c))) in A. cbn [single] in S. apply andb_true_iff in S. destruct S as [S1 S2]. rewrite app_s_assoc, span_max; auto; [| apply (ends_stops _ _ _ _ S1 M)].
    destruct a as [| c a]; [contradiction |]. rewrite (IH S2). auto.
  - cbn [single append] in *. rewrite digit_ok, D, (IH S). auto.
  - cbn [single append] in *. rewrite Ascii.eqb_refl, (IH S). auto.
  - cbn [single append] in *. rewrite (IH S). auto.
Qed.

Theorem test_ok : forall ps s, single ps = true -> (re_test ps s = true <-> exists w rest, s = (w ++ rest)%string /\ Match ps w rest).
Proof.
  intros ps s S. unfold re_test. split.
  - destruct (re_match ps s) as [w |] eqn:E; [| discriminate]. intros _. destruct (match_sound ps s w E) as (rest & H). exists w, rest. auto.
  - intros (w & rest & E & M). subst s. rewrite (match_complete ps w rest M S). auto.
Qed.

Lemma tables_single : forallb (fun p => single (fst p)) orderless_commands = true /\ forallb single overwritable_commands = true /\ (forall l, stops (Ascii.eqb " ") l -> l <> "" -> single (lit l) = true).
Proof.
  split; [vm_compute; reflexivity |]. split; [vm_compute; reflexivity |]. intros l H N. destruct l as [| c l]; [contradiction |]. unfold stops in H. unfold lit. cbn [single ends_at]. rewrite H. auto.
Qed.

Theorem orderless_lines : forall d k, match_orderless d k = true <->
  exists ps w rest, In (ps, d) orderless_commands /\ k = (w ++ rest)%string /\ Match ps w rest.
Proof.
  intros d k. unfold match_orderless. rewrite existsb_exists. destruct tables_single as (T & _ & _). rewrite forallb_forall in T. split.
  - intros ([ps d'] & I & H). apply andb_true_iff in H. destruct H as [H1 H2]. apply Nat.eqb_eq in H1. cbn [fst snd] in *. subst d'.
    apply (test_ok ps k (T _ I)) in H2. destruct H2 as (w & rest & H2). exists ps, w, rest. auto.
  - intros (ps & w & rest & I & E & M). exists (ps, d). split; auto. cbn [fst snd]. rewrite Nat.eqb_refl. apply (test_ok ps k (T _ I)). eauto.
Qed.

Theorem overwritable_match : forall ps k w, In ps overwritable_commands -> (re_match ps k = Some w <-> exists rest, k = (w ++ rest)%string /\ Match ps w rest).
Proof.
  intros ps k w I. destruct tables_single as (_ & T & _). rewrite forallb_forall in T. split; [apply match_sound |].
  intros (rest & E & M). subst k. apply match_complete; auto.
Qed.

Lemma client_line : forall k, is_sibling_command k = true <-> exists a r, all_chars (Ascii.eqb " ") a /\ k = (a ++ "client " ++ r)%string.
Proof.
  intro k. unfold is_sibling_command. rewrite test_ok by reflexivity. split.
  - intros (w & rest & E & M). inversion M as [| ? a w1 ? A M1 | | | | | |]; subst. inversion M1 as [| | ? ? w2 ? M2 | | | | |]; subst. inversion M2; subst. exists a, rest. split; auto.
    rewrite !app_s_assoc. reflexivity.
  - intros (a & r & A & E). exists (a ++ ("client " ++ ""))%string, r. split; [rewrite E, !app_s_assoc; reflexivity |]. apply mt_spaces; auto. apply mt_lit. constructor.
Qed.
