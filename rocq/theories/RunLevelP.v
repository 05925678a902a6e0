(** The commands made from one level of a diff, as trees. *)
From Coq Require Import String Ascii List Bool Arith Lia.
From Verif Require Import Base BaseP RunningM RunSpec RunNestSpec RunDevSpec RunDiffP RunCliP RunDevP RunScriptP RunTextP RunNestP RegexP.
Import ListNotations.
Open Scope string_scope.
Open Scope list_scope.

Notation regs := overwritable_commands.

(** [P] and [M] are the commands that configure and those that take back. *)
Definition Cmds (d P M : list item) : Prop :=
  ordinary P = true /\ ordinary M = true /\ text 2 P = fst (list2cli regs d) /\ text 2 M = snd (list2cli regs d).
Lemma Cmds_fun : forall d P M P' M', Cmds d P M -> Cmds d P' M' -> P = P' /\ M = M'.
Proof.
  intros d P M P' M' (A & B & C & D) (A' & B' & C' & D').
  assert (X : forall l l', ordinary l = true -> ordinary l' = true -> text 2 l = text 2 l' -> l = l').
  { intros l l' O O' E. assert (R := parse_text_back 2 l ltac:(lia) O). rewrite E, parse_text_back in R by (auto; lia). congruence. }
  split; apply X; congruence.
Qed.
Lemma text_item_inj : forall t t', ordinary_item t = true -> ordinary_item t' = true -> text_item 2 t = text_item 2 t' -> t = t'.
Proof.
  intros t t' O O' E. assert (X : forall x, ordinary_item x = true -> parse (text_item 2 x) = Ok [x]).
  { intros x Ox. assert (R := parse_text_back 2 [x] ltac:(lia)). unfold ordinary, text in R. cbn [forallb flat_map] in R. rewrite Ox, app_nil_r in R. auto. }
  assert (R := X _ O). rewrite E, (X _ O') in R. congruence.
Qed.

(** ** Lines *)
Lemma ordinary_clean : forall k, ordinary_key k = true -> clean k /\ k <> "" /\ lstrip k = k /\ rstrip k = k.
Proof.
  intros k O. destruct (ordinary_head _ O) as (c & r & E & W & _). assert (R := ordinary_rstrip _ O). subst k.
  assert (L : lstrip (String c r) = String c r) by (cbn; rewrite W; auto).
  split; [unfold clean, strip; rewrite L; auto |]. split; [discriminate |]. auto.
Qed.
Definition nc (k : string) : string := fst (handle_command ("no " ++ k)).
Lemma Begins_tail : forall p a b, Begins (p ++ a) (p ++ b) -> Begins a b.
Proof. induction p; cbn; intros a' b H; auto. apply IHp. destruct H as (r & H). exists r. cbn in H. congruence. Qed.
Lemma nc_spec : forall k, ordinary_key k = true -> starts "no " k = false -> handle_command ("no " ++ k) = (nc k, true) /\
  Undoes (nc k) k /\ ordinary_key (nc k) = true /\ exists x, nc k = ("no " ++ x)%string /\ Begins x k.
Proof.
  intros k O N. destruct (ordinary_clean _ O) as (C & NE & L & R). destruct (handle_no k C NE N) as (u & Hu & B & _).
  assert (E : nc k = u) by (unfold nc; rewrite Hu; auto). split; [rewrite E; auto |]. unfold nc.
  unfold handle_command in *. destruct (starts "no no " ("no " ++ k)) eqn:NN; [discriminate |].
  destruct (find (fun sc => starts sc ("no " ++ k)) short_no_commands) as [sc |] eqn:F.
  - apply find_some in F. destruct F as [F1 F2]. apply starts_iff in F2. cbn [fst] in *. split; [apply undo_short; auto |].
    assert (X : exists x, strip sc = ("no " ++ x)%string /\ ordinary_key (strip sc) = true).
    { cbn [short_no_commands In] in F1. repeat (destruct F1 as [F1 | F1]; [subst sc; eexists; split; vm_compute; reflexivity |]). destruct F1. }
    destruct X as (x & X1 & X2). split; auto. exists x. split; auto. injection Hu as Hu. rewrite <- Hu, X1 in B. apply (Begins_tail "no " x k B).
  - assert (S0 : starts "no " ("no " ++ k) = true) by (apply starts_iff; eauto). rewrite S0 in *. cbn [fst].
    assert (CN : strip ("no " ++ k) = ("no " ++ k)%string) by (apply clean_no; auto). rewrite CN.
    split. { apply undo_line; auto. intros sc Hs Hr. apply (find_none _ _ F) in Hs. rewrite (proj2 (starts_iff sc ("no " ++ k)%string)) in Hs; [discriminate | auto]. }
    split; [| exists k; split; auto; exists ""; rewrite append_nil; auto].
    assert (RN : rstrip ("no " ++ k) = ("no " ++ k)%string) by (apply rstrip_app; auto). unfold ordinary_key.
    change (("no " ++ k)%string) with (String "n" ("o " ++ k)) in RN |- *. rewrite RN, String.eqb_refl. reflexivity.
Qed.
(** Lines that begin with "no " *)
Lemma no_split : forall k, starts "no " k = true -> exists x, k = ("no " ++ x)%string.
Proof. intros k H. apply starts_iff in H. destruct H as (x & H). eauto. Qed.
Lemma no_starts : forall x, starts "no " ("no " ++ x) = true.
Proof. intros x. apply starts_iff. exists x. auto. Qed.
Lemma handle_no_no : forall x, ordinary_key x = true -> handle_command ("no " ++ "no " ++ x) = (x, false).
Proof.
  intros x O. destruct (ordinary_clean _ O) as (C & _). unfold handle_command.
  assert (S0 : starts "no no " ("no " ++ "no " ++ x) = true) by (apply starts_iff; exists x; reflexivity). rewrite S0. f_equal. exact C.
Qed.
Lemma handle_minus : forall x, ordinary_key ("no " ++ x) = true -> starts "no " x = false -> (forall sc, In sc short_no_commands -> ~ Begins sc ("no " ++ x)) ->
  handle_command ("no " ++ x) = ("no " ++ x, true)%string.
Proof.
  intros x O N H. destruct (ordinary_clean _ O) as (C & _). rewrite (handle_add _ C); [rewrite no_starts; auto | |].
  - destruct (starts "no no " ("no " ++ x)) eqn:E; auto. apply starts_iff in E. destruct E as (r & E). change ("no no " ++ r)%string with ("no " ++ "no " ++ r)%string in E.
    assert (X : x = ("no " ++ r)%string) by (cbn in E; injection E as E; exact E). rewrite X, no_starts in N. discriminate.
  - intros sc Hs. destruct (starts sc ("no " ++ x)) eqn:E; auto. apply starts_iff in E. destruct (H sc Hs E).
Qed.
Lemma handle_plain : forall k, ordinary_key k = true -> starts "no " k = false -> handle_command k = (k, false).
Proof.
  intros k O N. destruct (ordinary_clean _ O) as (C & NE & L & R). rewrite (handle_add k C); [rewrite N; auto | |].
  - destruct (starts "no no " k) eqn:E; auto. apply starts_iff in E. destruct E as (r & E).
    assert (starts "no " k = true) by (apply starts_iff; rewrite E; exists ("no " ++ r)%string; reflexivity). congruence.
  - intros sc Hs. destruct (starts sc k) eqn:E; auto. apply starts_iff in E. destruct E as (r & E). assert (starts "no " k = true); [| congruence].
    apply starts_iff. rewrite E. simpl in Hs. repeat (destruct Hs as [Hs | Hs]; [subst sc; eexists; simpl; reflexivity |]). destruct Hs.
Qed.

(** Which kind a line is of *)
Definition heads : list (list piece * string) :=
  combine regs ["username "; "password "; "description "; "ip address"; "ipv6 address"].
Lemma kind_head : forall ps k m rest, In ps regs -> ordinary_key k = true -> k = (m ++ rest)%string -> Match ps m rest -> exists h, In (ps, h) heads /\ Begins h k.
Proof.
  intros ps k m rest Hp O E M. destruct (ordinary_head _ O) as (c & r & Ek & W & _).
  assert (Z : forall l ps', Match (PSpaces :: PLit l :: ps') m rest -> Begins l k).
  { intros l ps' H. inversion H as [| q a w rs A H2 | | | | | |]; subst. inversion H2 as [| | q2 l2 w2 rs2 H3 | | | | |]; subst.
    destruct a as [| a0 a]; [exists (w2 ++ rest)%string; cbn; rewrite append_assoc; auto |]. cbn in Ek. injection Ek as Ea _. subst a0.
    destruct A as [A _]. apply Ascii.eqb_eq in A. subst c. discriminate. }
  cbn [overwritable_commands In] in Hp. unfold heads. cbn [overwritable_commands combine In].
  repeat (destruct Hp as [Hp | Hp]; [subst ps; eexists; split; [| apply (Z _ _ M)]; tauto |]). destruct Hp.
Qed.
Lemma kind_one : forall ps ps' k m rest m' rest', In ps regs -> In ps' regs -> ordinary_key k = true ->
  k = (m ++ rest)%string -> Match ps m rest -> k = (m' ++ rest')%string -> Match ps' m' rest' -> ps = ps'.
Proof.
  intros ps ps' k m rest m' rest' H H' O E M E' M'. destruct (kind_head _ _ _ _ H O E M) as (h & A & (r & B)). destruct (kind_head _ _ _ _ H' O E' M') as (h' & A' & (r' & B')).
  clear E M E' M' H H'. rewrite B in B'. clear O B. unfold heads in A, A'. cbn [overwritable_commands combine In] in A, A'.
  repeat (destruct A as [A | A]; [injection A as A1 A2; subst ps h;
    repeat (destruct A' as [A' | A']; [injection A' as A1' A2'; subst ps' h'; first [reflexivity | cbn in B'; discriminate] |]); destruct A' |]). destruct A.
Qed.
Lemma Begins_strip : forall m k, lstrip k = k -> Begins m k -> Begins (strip m) k /\ lstrip m = m.
Proof.
  intros m k L (r & E). assert (X : lstrip m = m).
  { destruct m as [| c m]; auto. subst k. cbn in L |- *. destruct (is_ws c) eqn:W; auto. exfalso.
    assert (Z : forall s, String.length (lstrip s) <= String.length s) by (induction s as [| a s IH]; cbn; auto; destruct (is_ws a); cbn; lia).
    specialize (Z (m ++ r)%string). rewrite L in Z. cbn in Z. lia. }
  split; auto. unfold strip. rewrite X. destruct (rstrip_prefix m) as (q & Q). exists (q ++ r)%string. rewrite <- append_assoc, <- Q. auto.
Qed.

(** Lines that begin alike are of the same kind. *)
Definition stems : list (list piece * string) := combine regs ["use"; "pas"; "des"; "ip a"; "ipv6"].
Lemma rstrip_begins : forall p s, rstrip p = p -> Begins p (rstrip (p ++ s)).
Proof.
  induction p as [| c p IH]; intros s H; [exists (rstrip s); auto |]. cbn [String.append rstrip] in *. destruct p as [| c2 p].
  - cbn [rstrip] in H. destruct (is_ws c) eqn:W; [discriminate |]. cbn [String.append]. destruct (rstrip s); eexists; reflexivity.
  - assert (R : rstrip (String c2 p) = String c2 p). { destruct (rstrip (String c2 p)); [destruct (is_ws c); discriminate | congruence]. }
    destruct (IH s R) as (r & E). rewrite E. cbn [String.append]. eexists. reflexivity.
Qed.
Lemma kind_stem : forall ps k m rest, In ps regs -> ordinary_key k = true -> k = (m ++ rest)%string -> Match ps m rest -> exists h, In (ps, h) stems /\ Begins h (strip m).
Proof.
  intros ps k m rest Hp O E M. destruct (ordinary_head _ O) as (c & r & Ek & W & _).
  assert (Z : forall l ps', Match (PSpaces :: PLit l :: ps') m rest -> Begins l m).
  { intros l ps' H. inversion H as [| q a w rs A H2 | | | | | |]; subst. inversion H2 as [| | q2 l2 w2 rs2 H3 | | | | |]; subst.
    destruct a as [| a0 a]; [exists w2; cbn; auto |]. cbn in Ek. injection Ek as Ea _. subst a0.
    destruct A as [A _]. apply Ascii.eqb_eq in A. subst c. discriminate. }
  cbn [overwritable_commands In] in Hp. unfold stems. cbn [overwritable_commands combine In].
  assert (Y : forall l ps' h, ps = PSpaces :: PLit l :: ps' -> (forall w, Begins h (strip (l ++ w))) -> Begins h (strip m)).
  { intros l ps' h Ep Hw. rewrite Ep in M. destruct (Z _ _ M) as (w & Ew). rewrite Ew. apply Hw. }
  destruct Hp as [Hp | [Hp | [Hp | [Hp | [Hp | []]]]]].
  - exists "use". split; [left; congruence |]. apply (Y _ _ _ (eq_sym Hp)). intros w. apply (rstrip_begins "use" ("rname " ++ w)). reflexivity.
  - exists "pas". split; [right; left; congruence |]. apply (Y _ _ _ (eq_sym Hp)). intros w. apply (rstrip_begins "pas" ("sword " ++ w)). reflexivity.
  - exists "des". split; [right; right; left; congruence |]. apply (Y _ _ _ (eq_sym Hp)). intros w. apply (rstrip_begins "des" ("cription " ++ w)). reflexivity.
  - exists "ip a". split; [right; right; right; left; congruence |]. apply (Y _ _ _ (eq_sym Hp)). intros w. apply (rstrip_begins "ip a" ("ddress" ++ w)). reflexivity.
  - exists "ipv6". split; [right; right; right; right; left; congruence |]. apply (Y _ _ _ (eq_sym Hp)). intros w. apply (rstrip_begins "ipv6" (" address" ++ w)). reflexivity.
Qed.
Lemma same_kind : forall ps ps' k k' m rest m' rest', In ps regs -> In ps' regs -> ordinary_key k = true -> ordinary_key k' = true ->
  k = (m ++ rest)%string -> Match ps m rest -> k' = (m' ++ rest')%string -> Match ps' m' rest' -> strip m = strip m' -> ps = ps'.
Proof.
  intros ps ps' k k' m rest m' rest' H H' O O' E M E' M' ES. destruct (kind_stem _ _ _ _ H O E M) as (h & A & (r & B)). destruct (kind_stem _ _ _ _ H' O' E' M') as (h' & A' & (r' & B')).
  rewrite ES, B' in B. clear - A A' B. unfold stems in A, A'. cbn [overwritable_commands combine In] in A, A'.
  repeat (destruct A as [A | A]; [injection A as A1 A2; subst ps h;
    repeat (destruct A' as [A' | A']; [injection A' as A1' A2'; subst ps' h'; first [reflexivity | cbn in B; discriminate] |]); destruct A' |]). destruct A.
Qed.

(** ** Which commands that configure are overwritten *)
Lemma over_flat : forall pos rs o, fold_left (fun o ps => fold_left (over_step ps) pos o) rs o = fold_left (fun o q => over_step (fst q) o (snd q)) (list_prod rs pos) o.
Proof.
  induction rs as [| ps rs IH]; intros o; [reflexivity |]. cbn [fold_left list_prod]. rewrite fold_left_app, IH. f_equal.
  generalize o. clear. induction pos as [| p pos IH]; intros o; [reflexivity |]. cbn [fold_left map]. apply IH.
Qed.
Definition em (q : list piece * (nat * cmd)) : option string := option_map strip (over_match (fst q) (snd (snd q))).
Lemma over_del : forall prs done o,
  (forall e i, In (e, i) (o_dict o) -> exists ps c, In (ps, (i, c)) done /\ em (ps, (i, c)) = Some e) ->
  (forall i, In i (o_del o) -> exists x q y ps c e, done = x ++ q :: y /\ In (ps, (i, c)) x /\ em (ps, (i, c)) = Some e /\ em q = Some e) ->
  forall i, In i (o_del (fold_left (fun o q => over_step (fst q) o (snd q)) prs o)) ->
  exists x q y ps c e, done ++ prs = x ++ q :: y /\ In (ps, (i, c)) x /\ em (ps, (i, c)) = Some e /\ em q = Some e.
Proof.
  induction prs as [| [ps [j c]] prs IH]; intros done o K D i H; [rewrite app_nil_r; auto |]. cbn [fold_left fst snd] in H.
  assert (D' : forall i, In i (o_del o) -> exists x q y ps' c' e, done ++ [(ps, (j, c))] = x ++ q :: y /\ In (ps', (i, c')) x /\ em (ps', (i, c')) = Some e /\ em q = Some e).
  { intros n Hn. destruct (D n Hn) as (x & q & y & ps' & c' & e & E & A). exists x, q, (y ++ [(ps, (j, c))]), ps', c', e. split; auto. rewrite E, <- app_assoc. auto. }
  assert (K' : forall e i, In (e, i) (o_dict o) -> exists ps' c', In (ps', (i, c')) (done ++ [(ps, (j, c))]) /\ em (ps', (i, c')) = Some e).
  { intros e n Hn. destruct (K e n Hn) as (ps' & c' & A & B). exists ps', c'. split; auto. apply in_or_app. auto. }
  destruct (IH (done ++ [(ps, (j, c))]) (over_step ps o (j, c))) with (i := i) as (x & q & y & R); auto.
  - intros e n Hn. unfold over_step in Hn. destruct (over_match ps c) as [m |] eqn:M; auto. cbn [o_dict] in Hn. apply dset_In in Hn. destruct Hn as [[A B] | Hn]; auto.
    subst e n. exists ps, c. split; [apply in_or_app; right; left; auto |]. unfold em. cbn. rewrite M. auto.
  - intros n Hn. unfold over_step in Hn. destruct (over_match ps c) as [m |] eqn:M; auto. cbn [o_del] in Hn. destruct (assoc String.eqb (strip m) (o_dict o)) as [j' |] eqn:A; auto.
    apply in_app_or in Hn. destruct Hn as [Hn | [Hn | []]]; auto. subst j'.
    assert (A2 : In (strip m, n) (o_dict o)).
    { clear - A. induction (o_dict o) as [| [e k] r IH]; cbn in A; [discriminate |]. destruct (String.eqb (strip m) e) eqn:E; [| right; auto].
      apply String.eqb_eq in E. injection A as A. subst. left. auto. }
    destruct (K _ _ A2) as (ps' & c' & B1 & B2). exists done, (ps, (j, c)), [], ps', c', (strip m). do 3 (split; auto). unfold em. cbn. rewrite M. auto.
  - exists x, q, y. rewrite <- app_assoc in R. exact R.
Qed.
Lemma prod_order : forall (A B : Type) (rs : list A) (pos : list B) x r p' y p, NoDup rs -> list_prod rs pos = x ++ (r, p') :: y -> In (r, p) x ->
  exists a b, pos = a ++ p' :: b /\ In p a.
Proof.
  induction rs as [| r0 rs IH]; intros pos x r p' y p N E H; [destruct x; discriminate |]. cbn [list_prod] in E. apply NoDup_cons_iff in N. destruct N as [N1 N2].
  assert (G : forall (X : list (A * B)) L R q T, X ++ R = L ++ q :: T -> (exists L2, X = L ++ q :: L2) \/ exists L2, L = X ++ L2 /\ R = L2 ++ q :: T).
  { induction X as [| z X IHX]; intros L R q T Eq; [right; exists L; auto |]. destruct L as [| l L]; cbn in Eq; injection Eq as E1 E2; subst; [left; exists X; auto |].
    destruct (IHX _ _ _ _ E2) as [(L2 & E3) | (L2 & E3 & E4)]; [left; exists L2; subst; auto | right; exists L2; subst; auto]. }
  destruct (G _ _ _ _ _ E) as [(L2 & E1) | (L2 & E1 & E2)].
  - assert (X : forall (l : list B) x L2, map (fun y => (r0, y)) l = x ++ (r, p') :: L2 -> In (r, p) x -> exists a b, l = a ++ p' :: b /\ In p a).
    { clear. induction l as [| z l IHl]; intros x L2 E H; [destruct x; discriminate |]. destruct x as [| q x]; [destruct H |]. cbn in E. injection E as E1 E2.
      destruct H as [H | H].
      - subst q. injection H as _ H. subst z. assert (I1 : In (r, p') (map (fun y => (r0, y)) l)) by (rewrite E2; apply in_or_app; right; left; auto).
        apply in_map_iff in I1. destruct I1 as (w & W1 & W2). injection W1 as _ W1. subst w. destruct (in_split _ _ W2) as (a & b & W). exists (p :: a), b. subst l. split; auto. left. auto.
      - destruct (IHl _ _ E2 H) as (a & b & A1 & A2). exists (z :: a), b. subst l. split; auto. right. auto. }
    apply (X pos x L2); auto.
  - subst x. apply in_app_or in H. destruct H as [H | H].
    + exfalso. apply in_map_iff in H. destruct H as (w & W1 & W2). injection W1 as W1 _. subst r. apply N1.
      assert (I1 : In (r0, p') (list_prod rs pos)) by (rewrite E2; apply in_or_app; right; left; auto). apply in_prod_iff in I1. tauto.
    + apply (IH pos L2 r p' y p); auto.
Qed.
Lemma enum_split : forall (A : Type) (cs : list A) s a i c b, combine (seq s (length cs)) cs = a ++ (i, c) :: b -> cs = map snd a ++ c :: map snd b /\ i = s + length a.
Proof.
  induction cs as [| z cs IH]; intros s a i c b E; [destruct a; discriminate |]. cbn in E. destruct a as [| q a]; cbn in E; injection E as E1 E2.
  - subst. cbn. split; [| lia]. f_equal. clear. revert i. induction cs as [| y cs IH]; intros i; cbn; auto. f_equal. apply IH.
  - subst q. destruct (IH _ _ _ _ _ E2) as [A1 A2]. cbn. split; [f_equal; auto | lia].
Qed.
Lemma app_same : forall (A : Type) (a a' : list A) b b', length a = length a' -> a ++ b = a' ++ b' -> a = a' /\ b = b'.
Proof. induction a as [| x a IH]; intros [| x' a'] b b' L E; try discriminate; auto. cbn in *. injection E as E1 E2. destruct (IH a' b b'); [lia | auto |]. subst. auto. Qed.
(** A command that no later one of the same kind replaces is kept. *)
Lemma over_last : forall st A c B, c_pos st = A ++ c :: B ->
  (forall c1 c2 ps ps' m m', In c1 (c_pos st) -> In c2 (c_pos st) -> In ps regs -> In ps' regs -> over_match ps c1 = Some m -> over_match ps' c2 = Some m' -> strip m = strip m' -> ps = ps') ->
  (forall c' ps m m', In c' B -> In ps regs -> over_match ps c = Some m -> over_match ps c' = Some m' -> strip m <> strip m') ->
  In c (c_pos (overwrite regs st)).
Proof.
  intros st A c B E SK H. unfold overwrite. cbn [c_pos]. apply in_map_iff. exists (length A, c). split; auto. apply filter_In.
  assert (EN : enumerate (c_pos st) = combine (seq 0 (length A)) A ++ (length A, c) :: combine (seq (S (length A)) (length B)) B).
  { unfold enumerate. rewrite E, app_length. cbn [length]. rewrite seq_app. cbn [seq plus]. assert (G : forall (X Y : Type) (a a' : list X) (b b' : list Y), length a = length b -> combine (a ++ a') (b ++ b') = combine a b ++ combine a' b').
    { induction a as [| x a IH]; intros a' [| y b] b' L; try discriminate; auto. cbn in *. f_equal. apply IH. lia. } rewrite G by apply seq_length. reflexivity. }
  split; [rewrite EN; apply in_or_app; right; left; auto |]. cbn [fst]. apply negb_true_iff. rewrite over_flat. set (o := fold_left _ _ _).
  destruct (mem Nat.eqb (length A) (o_del o)) eqn:M; auto. exfalso. assert (G : In (length A) (o_del o)).
  { clear - M. induction (o_del o) as [| x r IH]; simpl in M; [discriminate |]. apply orb_true_iff in M. destruct M as [M | M]; [left; apply Nat.eqb_eq in M; auto | right; auto]. }
  assert (NR : NoDup regs). { unfold regs. repeat (constructor; [cbn; intros X; repeat (destruct X as [X | X]; [discriminate |]); destruct X |]). constructor. }
  destruct (over_del (list_prod regs (enumerate (c_pos st))) [] (OState (c_neg st) [] [])) with (i := length A) as (x & [ps' [j c']] & y & ps & c0 & e & E1 & I1 & M1 & M2); auto; [intros ? ? [] | intros ? [] |].
  cbn [app] in E1. unfold em in M1, M2. cbn [fst snd] in M1, M2. destruct (over_match ps c0) as [m |] eqn:Q1; [| discriminate]. destruct (over_match ps' c') as [m' |] eqn:Q2; [| discriminate].
  cbn in M1, M2. injection M1 as M1. injection M2 as M2.
  assert (L1 : In (ps, (length A, c0)) (list_prod regs (enumerate (c_pos st)))) by (rewrite E1; apply in_or_app; auto).
  assert (L2 : In (ps', (j, c')) (list_prod regs (enumerate (c_pos st)))) by (rewrite E1; apply in_or_app; right; left; auto).
  apply in_prod_iff in L1, L2. destruct L1 as [L1 L1'], L2 as [L2 L2'].
  assert (ps = ps'). { apply (SK c0 c' ps ps' m m'); auto; [apply in_combine_r in L1'; auto | apply in_combine_r in L2'; auto | congruence]. } subst ps'.
  destruct (prod_order _ _ _ _ _ _ _ _ _ NR E1 I1) as (a & b & Ea & Ia). destruct (in_split _ _ Ia) as (a1 & a2 & Ea2). subst a. rewrite <- app_assoc in Ea. cbn [app] in Ea.
  unfold enumerate in Ea. destruct (enum_split _ _ _ _ _ _ _ Ea) as [S1 S2]. cbn in S2. rewrite E in S1. apply app_same in S1; [| rewrite map_length; auto]. destruct S1 as [_ S1]. injection S1 as S1 S3.
  subst c0. apply (H c' ps m m'); auto; [| congruence]. rewrite S3, map_app. apply in_or_app. right. left. auto.
Qed.
