(** Commands for lines below sections that are kept. *)
From Coq Require Import String Ascii List Bool Arith ZArith Lia Permutation.
From Verif Require Import Base BaseP RunningM RunSpec RunDiffP RunCliP RunTextP RunSibP RunOrderP RunAllP RunShowP RunNestSpec.
Import ListNotations.
Open Scope string_scope.
Open Scope list_scope.
Open Scope nat_scope.

Definition fine (t : string) : Prop := t <> "" /\ rstrip t = t /\ forall c r, t = String c r -> is_sign c = false.

Lemma item_cli_eq : forall regs pks k v i st, item_cli regs pks (It k v i) st =
  cli_item pks (match v with None => ([], []) | Some l => list2cli regs l end) (It k v i) st.
Proof.
  intros regs pks k v i st. cbn [item_cli]. destruct v as [l |]; [| reflexivity]. unfold list2cli, cli_lists.
  assert (G : forall pk l s, (fix go (l : list item) (s : clis) : clis := match l with [] => s | y :: t => go t (item_cli regs pk y s) end) l s =
                             fold_left (fun s x => item_cli regs pk x s) l s).
  { intros pk l0. induction l0 as [| y t IH]; intro s; cbn [fold_left]; auto. }
  rewrite G. reflexivity.
Qed.

(** ** Lines *)
Lemma unsigned_head : forall c r, unsigned (String c r) -> is_sign c = false.
Proof. intros c r U. apply (U "" c r); auto. Qed.

Lemma unsigned_prefix : forall a b, unsigned (a ++ b) -> unsigned a.
Proof. intros a b U x c r E P. apply (U x c (r ++ b)%string); auto. subst a. rewrite append_assoc. reflexivity. Qed.

Lemma unsigned_ws : forall w r, is_ws w = true -> unsigned (String w r) -> unsigned r.
Proof.
  intros w r W U x c q E P. apply (U (String w x) c q); [subst r; reflexivity |]. right. destruct P as [P | (b & v & P & V)].
  - subst x. exists "", w. auto.
  - subst x. exists (String w b), v. auto.
Qed.

Lemma unsigned_lstrip : forall s, unsigned s -> unsigned (lstrip s).
Proof. induction s as [| c s IH]; intro U; cbn [lstrip]; auto. destruct (is_ws c) eqn:W; auto. apply IH. apply (unsigned_ws c); auto. Qed.

Lemma unsigned_strip : forall s, unsigned s -> unsigned (strip s).
Proof.
  intros s U. unfold strip. destruct (rstrip_prefix (lstrip s)) as (r & E). apply (unsigned_prefix _ r). rewrite <- E. apply unsigned_lstrip. exact U.
Qed.

Lemma append_snoc : forall a c b, (a ++ String c b)%string = ((a ++ String c "") ++ b)%string.
Proof. intros. rewrite append_assoc. reflexivity. Qed.

Lemma split_blank : forall x c r k, ("no " ++ k)%string = (x ++ String c r)%string ->
  c <> " "%char -> (exists z, x = ("no " ++ z)%string /\ k = (z ++ String c r)%string) \/ x = "" /\ c = "n"%char \/ x = "n" /\ c = "o"%char.
Proof.
  intros x c r k E N. destruct x as [| a [| b [| e x]]]; cbn in E; injection E.
  - intros _ E1. auto.
  - intros E1 E2 E3. subst. auto.
  - intros E1 E2 E3. subst. congruence.
  - intros E1 E2 E3 E4. subst. left. exists x. auto.
Qed.

Lemma unsigned_no : forall k, unsigned k -> unsigned ("no " ++ k).
Proof.
  intros k U x c r E P. destruct (Ascii.ascii_dec c " ") as [-> | N]; [reflexivity |].
  destruct (split_blank x c r k E N) as [(z & -> & Ek) | [[_ ->] | [_ ->]]]; try reflexivity.
  apply (U z c r Ek). destruct z as [| a z]; auto. right. destruct P as [P | (b & w & P & W)]; [discriminate |].
  destruct b as [| b1 [| b2 [| b3 b]]]; cbn in P; injection P; try discriminate.
  intros E1 _ _ _. exists b, w. auto.
Qed.

Lemma unsigned_drop : forall b w r, is_ws w = true -> unsigned (b ++ String w r) -> unsigned r.
Proof.
  intros b w r W U x c q E P. apply (U (b ++ String w x)%string c q); [rewrite E, append_assoc; reflexivity |]. right.
  destruct P as [P | (y & v & P & V)]; subst x.
  - exists b, w. auto.
  - exists (b ++ String w y)%string, v. rewrite append_assoc. auto.
Qed.

Lemma strip_fine : forall s, unsigned s -> strip s <> "" -> fine (strip s).
Proof.
  intros s U N. split; auto. split; [apply rstrip_idem |]. intros c r E. apply (unsigned_head c r). rewrite <- E. apply unsigned_strip. exact U.
Qed.

Lemma rstrip_nonblank : forall s, s <> "" -> rstrip s = s -> exists b c, s = (b ++ String c "")%string /\ is_ws c = false.
Proof.
  induction s as [| c s IH]; intros N R; [congruence |]. cbn [rstrip] in R. destruct s as [| c2 s].
  - cbn in R. destruct (is_ws c) eqn:W; [discriminate |]. exists "", c. auto.
  - destruct (rstrip (String c2 s)) as [| c3 s3] eqn:E.
    + destruct (is_ws c); discriminate.
    + injection R as R1 R2. subst. destruct IH as (b & w & Eb & W); [discriminate | auto |]. exists (String c b), w. rewrite Eb. auto.
Qed.

Lemma strip_nonempty : forall b c, is_ws c = false -> strip (b ++ String c "") <> "".
Proof.
  intros b c W. unfold strip. intro H.
  assert (G : forall b, exists b', lstrip (b ++ String c "") = (b' ++ String c "")%string).
  { clear b H. induction b as [| x b (b' & IH)]; cbn [String.append lstrip]; [rewrite W; exists ""; auto |]. destruct (is_ws x); [exists b'; auto |]. exists (String x b). auto. }
  destruct (G b) as (b' & E). rewrite E in H. clear E G. rewrite rstrip_app in H; [destruct b'; discriminate | discriminate |]. cbn. rewrite W. reflexivity.
Qed.

Lemma handle_fine : forall q, unsigned q -> q <> "" -> rstrip q = q -> fine (fst (handle_command q)).
Proof.
  intros q U N R. unfold handle_command. destruct (rstrip_nonblank q N R) as (b & c & E & W).
  assert (F : fine (strip q)). { apply strip_fine; auto. rewrite E. apply strip_nonempty. exact W. }
  destruct (starts "no no " q) eqn:S.
  - apply starts_iff in S. destruct S as (r & S). cbn [fst]. rewrite S. cbn [sdrop String.append].
    assert (UR : unsigned r). { apply (unsigned_drop "no no" " "); [reflexivity |]. rewrite S in U. exact U. }
    apply strip_fine; auto. destruct r as [| r0 r1].
    + rewrite S in R. vm_compute in R. discriminate.
    + assert (RR : rstrip (String r0 r1) = String r0 r1).
      { assert (X : forall p s, rstrip (p ++ s) = (p ++ s)%string -> s <> "" -> rstrip s = s).
        { induction p as [| p0 p IH]; intros s H NS; auto. cbn [String.append rstrip] in H. apply IH; auto. destruct (rstrip (p ++ s)) as [| h t]; [| congruence].
          destruct (is_ws p0); [discriminate |]. injection H as H. destruct p; [cbn in H; congruence | discriminate]. }
        apply (X "no no "); [rewrite <- S; exact R | discriminate]. }
      destruct (rstrip_nonblank (String r0 r1)) as (b' & c' & E' & W'); [discriminate | auto |]. rewrite E'. apply strip_nonempty. exact W'.
  - destruct (find (fun sc => starts sc q) short_no_commands) as [sc |] eqn:Fd.
    + apply find_some in Fd. destruct Fd as [I _]. cbn [fst]. cbn [short_no_commands In] in I.
      repeat (destruct I as [I | I]; [subst sc; split; [vm_compute; discriminate | split; [reflexivity | intros x y X; vm_compute in X; injection X as X _; subst x; reflexivity]] |]). destruct I.
    + destruct (starts "no " q); exact F.
Qed.

Lemma fine_indent : forall t, fine t -> indent_line t = [("  " ++ t)%string].
Proof.
  intros [| c r] (N & _ & H); [congruence |]. cbn [indent_line]. specialize (H c r eq_refl). unfold is_sign in H. rewrite H. reflexivity.
Qed.
Lemma indent_fine : forall ls, Forall fine ls -> indent ls = map (fun t => ("  " ++ t)%string) ls.
Proof. intros ls F. induction F as [| t r H _ IH]; [reflexivity |]. unfold indent in *. cbn [flat_map map]. rewrite (fine_indent t H), IH. reflexivity. Qed.
Lemma fine_deeper : forall t, t <> "" -> rstrip t = t -> fine ("  " ++ t).
Proof.
  intros t N R. split; [discriminate |]. split; [apply rstrip_app; auto |]. intros c r E. injection E as E _. subst c. reflexivity.
Qed.
Lemma rstrip_lines_fine : forall ls, Forall fine ls -> rstrip_lines ls = ls.
Proof.
  intros ls F. induction F as [| t r (N & R & _) _ IH]; [reflexivity |]. cbn [rstrip_lines]. rewrite IH. destruct r; auto. rewrite R. destruct t; [congruence | reflexivity].
Qed.
Lemma map_fine : forall ls, Forall fine ls -> Forall fine (map (fun t => ("  " ++ t)%string) ls).
Proof. intros ls F. induction F as [| t r (N & R & _) _ IH]; constructor; auto. apply fine_deeper; auto. Qed.

Lemma render_fine : forall x, Fair x -> Forall fine (render_item None x).
Proof.
  intro x. induction x as [k v i IH] using item_ind'. intro F. inversion F as [? ? ? N R U L]; subst. cbn [render_item]. destruct k as [| c k]; [congruence |].
  constructor; [apply fine_deeper; auto |]. destruct v as [l |]; [| constructor]. specialize (L l eq_refl).
  assert (G : Forall fine (flat_map (render_item None) l)).
  { clear F. specialize (IH l eq_refl). revert L. induction IH as [| y r Hy _ IHr]; intro L; [constructor |]. inversion L; subst. cbn [flat_map]. apply Forall_app. split; auto. }
  rewrite (indent_fine _ G). apply map_fine. exact G.
Qed.

(** ** Every line of the commands *)
Definition AllFine (st : clis) : Prop := (forall c, In c (c_pos st) -> Forall fine c) /\ (forall c, In c (c_neg st) -> Forall fine c).

Lemma overwrite_pos_incl : forall regs st c, In c (c_pos (overwrite regs st)) -> In c (c_pos st).
Proof.
  intros regs st c H. unfold overwrite in H. cbn [c_pos] in H. apply in_map_iff in H. destruct H as ((i & c') & E & H). cbn in E. subst c'.
  apply filter_In in H. destruct H as [H _]. unfold enumerate in H. apply in_combine_r in H. exact H.
Qed.

Lemma finish_fine : forall regs st, AllFine st -> AllFine (finish regs st).
Proof.
  intros regs st [P N]. unfold finish. split; cbn [c_pos c_neg]; intros c H.
  - apply prune_positive_incl in H. apply dedup_In in H. destruct H as [H _]. apply overwrite_pos_incl in H. auto.
  - apply prune_negative_incl in H. apply dedup_In in H. destruct H as [H _]. apply overwrite_neg_incl in H. auto.
Qed.

Lemma append_fine : forall q st, unsigned q -> q <> "" -> rstrip q = q -> AllFine st -> AllFine (append_command q st).
Proof.
  intros q st U N R [P Q]. assert (F := handle_fine q U N R). unfold append_command. destruct (handle_command q) as [t b]. cbn [fst] in F.
  destruct b; split; cbn [c_pos c_neg]; intros c H; auto; apply in_app_or in H; destruct H as [H | [H | []]]; auto; subst c; auto.
Qed.

Lemma join_fine : forall l, (forall c, In c l -> Forall fine c) -> Forall fine (join_cmds l).
Proof.
  intros l H. unfold join_cmds. apply Forall_forall. intros t T. apply in_concat in T. destruct T as (c & C & T). specialize (H c C). rewrite Forall_forall in H. auto.
Qed.

Lemma cli_item_fine : forall pks sub k v i st, Fair (It k v i) -> Forall fine (fst sub) -> Forall fine (snd sub) -> AllFine st ->
  AllFine (cli_item pks sub (It k v i) st).
Proof.
  intros pks sub k v i st F S1 S2 A. inversion F as [? ? ? N R U L]; subst. unfold cli_item. destruct k as [| c k]; auto. set (K := String c k) in *.
  assert (FK : fine K). { split; auto. split; auto. intros x y E. apply (unsigned_head x y). rewrite <- E. exact U. }
  assert (AP : AllFine (append_command K st)) by (apply append_fine; auto).
  assert (AN : AllFine (append_command ("no " ++ K) st)).
  { apply append_fine; auto. - apply unsigned_no. exact U. - discriminate. - apply rstrip_app; auto. }
  assert (SEC : forall ls, Forall fine ls -> Forall fine (K :: rstrip_lines (indent ls))).
  { intros ls H. constructor; auto. rewrite (indent_fine ls H), rstrip_lines_fine; apply map_fine; auto. }
  destruct v as [l |].
  - destruct i; auto.
    + destruct A as [A1 A2]. destruct (text_empty (fst sub)); destruct (text_empty (snd sub)); split; cbn [c_pos c_neg]; intros q H; auto;
        apply in_app_or in H; destruct H as [H | [H | []]]; auto; subst q; auto.
    + destruct A as [A1 A2]. split; cbn [c_pos c_neg]; intros q H; auto. apply in_app_or in H; destruct H as [H | [H | []]]; auto; subst q.
      assert (G : Forall fine (list2config None l)).
      { specialize (L l eq_refl). unfold list2config. clear F. induction L as [| y r Hy _ IHr]; [constructor |]. cbn [flat_map]. apply Forall_app. split; auto. apply render_fine. exact Hy. }
      constructor; auto. rewrite rstrip_lines_fine; auto.
  - destruct i; auto. destruct (existsb (starts K) pks); auto.
Qed.

Lemma item_fine : forall regs x, Fair x -> forall pks st, AllFine st -> AllFine (item_cli regs pks x st).
Proof.
  intros regs x. induction x as [k v i IH] using item_ind'. intros F pks st A. rewrite item_cli_eq.
  assert (G : Forall fine (fst (match v with None => ([], []) | Some l => list2cli regs l end)) /\
              Forall fine (snd (match v with None => ([], []) | Some l => list2cli regs l end))).
  { destruct v as [l |]; [| split; constructor]. inversion F as [? ? ? N R U L]; subst. specialize (L l eq_refl). specialize (IH l eq_refl).
    unfold list2cli. cbn [fst snd].
    assert (X : AllFine (cli_lists regs l)).
    { unfold cli_lists. apply finish_fine. generalize (positive_keys l). intro pk.
      assert (A0 : AllFine (Clis [] [])) by (split; intros c []). revert A0. generalize (Clis [] []).
      clear F. induction IH as [| y r Hy _ IHr]; intros s0 A0; cbn [fold_left]; auto. inversion L; subst. apply IHr; auto. }
    destruct X as [X1 X2]. split; apply join_fine; auto. intros c C. apply in_rev in C. auto. }
  destruct G. apply cli_item_fine; auto.
Qed.

Lemma lists_fine : forall regs l, Forall Fair l -> AllFine (cli_lists regs l).
Proof.
  intros regs l F. unfold cli_lists. apply finish_fine. generalize (positive_keys l). intro pk.
  assert (A0 : AllFine (Clis [] [])) by (split; intros c []). revert A0. generalize (Clis [] []).
  induction F as [| y r Hy _ IHr]; intros s0 A0; cbn [fold_left]; auto. apply IHr. apply item_fine; auto.
Qed.

(** ** Sections that are kept *)
Definition deeper (ls : list string) : list string := map (fun t => ("  " ++ t)%string) ls.

Lemma section_lines : forall ls, Forall fine ls -> rstrip_lines (indent ls) = deeper ls.
Proof. intros ls H. rewrite (indent_fine ls H). apply rstrip_lines_fine. apply map_fine. exact H. Qed.

Lemma nonempty_text : forall ls t, In t ls -> t <> "" -> text_empty ls = false.
Proof. intros [| [| c s] [| y r]] t I N; auto; cbn in I; [destruct I | destruct I as [I | []]; congruence]. Qed.

Lemma section_pos : forall d h d1, In (It h (Some d1) ISame) d -> h <> "" -> Forall Fair d1 -> Kept h ->
  text_empty (fst (list2cli overwritable_commands d1)) = false ->
  In (h :: deeper (fst (list2cli overwritable_commands d1))) (c_pos (cli_lists overwritable_commands d)).
Proof.
  intros d h d1 H N F (_ & _ & K) T. set (sub := list2cli overwritable_commands d1) in *.
  assert (FS : Forall fine (fst sub)). { unfold sub, list2cli. cbn [fst]. apply join_fine. apply (lists_fine overwritable_commands d1 F). }
  assert (X : exists y z, fst sub = y :: z). { destruct (fst sub) as [| y z]; [discriminate | eauto]. } destruct X as (y & z & X).
  unfold cli_lists. apply finish_pos_section.
  - destruct (collect_item overwritable_commands (positive_keys d) d _ (Clis [] []) H) as (st & P & _). apply P. rewrite item_cli_eq.
    fold sub. cbn [cli_item]. destruct h as [| c h]; [congruence |]. rewrite T. rewrite (section_lines _ FS).
    destruct (text_empty (snd sub)); cbn [c_pos]; apply in_or_app; right; left; reflexivity.
  - rewrite X. reflexivity.
  - intros ps Hp. rewrite X. cbn [deeper map over_match]. apply K. exact Hp.
Qed.

Lemma section_neg : forall d h d1, In (It h (Some d1) ISame) d -> h <> "" -> Forall Fair d1 -> Kept h ->
  text_empty (snd (list2cli overwritable_commands d1)) = false ->
  In (h :: deeper (snd (list2cli overwritable_commands d1))) (c_neg (cli_lists overwritable_commands d)).
Proof.
  intros d h d1 H N F (K1 & K2 & _) T. set (sub := list2cli overwritable_commands d1) in *.
  assert (FS : Forall fine (snd sub)).
  { unfold sub, list2cli. cbn [snd]. apply join_fine. intros c C. apply in_rev in C. apply (lists_fine overwritable_commands d1 F). exact C. }
  assert (X : exists y z, snd sub = y :: z). { destruct (snd sub) as [| y z]; [discriminate | eauto]. } destruct X as (y & z & X).
  unfold cli_lists, finish. cbn [c_neg]. apply prune_negative_multi; [| rewrite X; reflexivity]. apply dedup_In. split; auto. apply overwrite_neg.
  - destruct (collect_item overwritable_commands (positive_keys d) d _ (Clis [] []) H) as (st & _ & P). apply P. rewrite item_cli_eq.
    fold sub. cbn [cli_item]. destruct h as [| c h]; [congruence |]. rewrite T. rewrite (section_lines _ FS).
    destruct (text_empty (fst sub)); cbn [c_neg]; apply in_or_app; right; left; reflexivity.
  - intros c' ps m _ _ _. cbn [neg_matches]. rewrite K2. destruct (starts ("no " ++ lstrip m) h) eqn:E; auto. apply starts_iff in E. destruct E as (r & E).
    assert (starts "no " h = true); [| congruence]. apply starts_iff. exists (lstrip m ++ r)%string. rewrite E, append_assoc. reflexivity.
Qed.

Lemma cmd_in_join : forall c l, In c l -> exists a b, join_cmds l = a ++ c ++ b.
Proof. intros c l C. apply in_split in C. destruct C as (a & b & C). exists (concat a), (concat b). unfold join_cmds. rewrite C, concat_app. reflexivity. Qed.

Lemma Within_wrap : forall p (P : list string -> Prop) ls a b, (forall s x y, P s -> P (x ++ s ++ y)) -> Within p P ls -> Within p P (a ++ ls ++ b).
Proof.
  intros [| h p] P ls a b M W; cbn [Within] in *; auto. destruct W as (x & sub & y & E & W). exists (a ++ x), sub, (y ++ b). split; auto.
  rewrite E. rewrite <- !app_assoc. reflexivity.
Qed.

Lemma Within_nonempty : forall p (P : list string -> Prop) ls, (forall h, In h p -> h <> "") -> (forall s, P s -> text_empty s = false) -> Within p P ls -> text_empty ls = false.
Proof.
  intros [| h p] P ls H N W; cbn [Within] in W; auto. destruct W as (x & sub & y & E & W). apply (nonempty_text ls h); [| apply H; left; auto].
  rewrite E. apply in_or_app. right. left. reflexivity.
Qed.

Lemma Below_fair : forall p d d', Below p d d' -> Forall Fair d -> Forall Fair d' /\ forall h, In h p -> h <> "".
Proof.
  intros p d d' B. induction B as [d | h p d d1 d' I B IH]; intro F; [split; auto; intros h [] |].
  rewrite Forall_forall in F. specialize (F _ I). inversion F as [? ? ? N R U L]; subst. destruct (IH (L d1 eq_refl)) as [A1 A2]. split; auto.
  intros x [X | X]; subst; auto.
Qed.

(** What stands in the text of the lines below stands in the text of the whole. *)
Lemma nested_pos : forall p d d' (P : list string -> Prop), Below p d d' -> Forall Fair d -> (forall h, In h p -> Kept h) ->
  (forall s x y, P s -> P (x ++ s ++ y)) -> (forall s, P s -> text_empty s = false) ->
  P (fst (list2cli overwritable_commands d')) -> Within p P (fst (list2cli overwritable_commands d)).
Proof.
  intros p d d' P B F K M N H. induction B as [d | h p d d1 d' I B IH]; [exact H |].
  assert (FH := F). rewrite Forall_forall in FH. specialize (FH _ I). inversion FH as [? ? ? NH R U L]; subst. specialize (L d1 eq_refl).
  assert (W := IH L (fun x X => K x (or_intror X)) H). destruct (Below_fair p d1 d' B L) as [_ NP].
  assert (T := Within_nonempty p P _ NP N W). assert (S := section_pos d h d1 I NH L (K h (or_introl eq_refl)) T).
  apply cmd_in_join in S. destruct S as (a & b & E). exists a, (fst (list2cli overwritable_commands d1)), b. split; [exact E | exact W].
Qed.

Lemma nested_neg : forall p d d' (P : list string -> Prop), Below p d d' -> Forall Fair d -> (forall h, In h p -> Kept h) ->
  (forall s x y, P s -> P (x ++ s ++ y)) -> (forall s, P s -> text_empty s = false) ->
  P (snd (list2cli overwritable_commands d')) -> Within p P (snd (list2cli overwritable_commands d)).
Proof.
  intros p d d' P B F K M N H. induction B as [d | h p d d1 d' I B IH]; [exact H |].
  assert (FH := F). rewrite Forall_forall in FH. specialize (FH _ I). inversion FH as [? ? ? NH R U L]; subst. specialize (L d1 eq_refl).
  assert (W := IH L (fun x X => K x (or_intror X)) H). destruct (Below_fair p d1 d' B L) as [_ NP].
  assert (T := Within_nonempty p P _ NP N W). assert (S := section_neg d h d1 I NH L (K h (or_introl eq_refl)) T).
  apply in_rev in S. apply cmd_in_join in S. destruct S as (a & b & E). exists a, (snd (list2cli overwritable_commands d1)), b. split; [exact E | exact W].
Qed.

Lemma get_cli_text : forall r t1 t2 d, get_diff r t1 t2 = Ok d -> d <> [] -> exists ls, get_cli r t1 t2 = Ok ls /\
  (text_empty (fst (list2cli overwritable_commands d)) = false -> exists a b, ls = a ++ fst (list2cli overwritable_commands d) ++ b) /\
  (text_empty (snd (list2cli overwritable_commands d)) = false -> exists a b, ls = a ++ snd (list2cli overwritable_commands d) ++ b).
Proof.
  intros r t1 t2 d D N. unfold get_cli. rewrite D. cbn [bind]. destruct d as [| x d]; [congruence |]. destruct (list2cli overwritable_commands (x :: d)) as [p n]. cbn [fst snd].
  destruct (text_empty p) eqn:X; [exists n; split; [reflexivity |]; split; [discriminate |]; intros _; exists [], []; rewrite app_nil_r; auto |]. destruct (text_empty n) eqn:Y.
  - exists p. split; [reflexivity |]. split; [| discriminate]. intros _. exists [], []. rewrite app_nil_r. auto.
  - exists (n ++ ["!"] ++ p). split; [reflexivity |]. split; intros _; [exists (n ++ ["!"]), []; rewrite app_nil_r, <- app_assoc; auto | exists [], (["!"] ++ p); auto].
Qed.

Lemma Below_nonempty : forall p d d' x, Below p d d' -> In x d' -> d <> [].
Proof. intros p d d' x B I E. subst d. inversion B; subst; [destruct I | destruct H]. Qed.

Lemma line_text : forall (Q : string -> Prop) s, (exists t, In t s /\ t <> "" /\ Q t) -> text_empty s = false.
Proof. intros Q s (t & I & N & _). exact (nonempty_text s t I N). Qed.

Theorem nested_added : forall r t1 t2 d p d' k, get_diff r t1 t2 = Ok d -> Forall Fair d -> Below p d d' -> (forall h, In h p -> Kept h) ->
  In (It k None IPlus) d' -> clean k -> starts "no " k = false -> existsb (fun ps => re_test ps k) overwritable_commands = false ->
  exists ls, get_cli r t1 t2 = Ok ls /\ Within p (fun s => exists t, In t s /\ t <> "" /\ Begins k t) ls.
Proof.
  intros r t1 t2 d p d' k D F B K I C S O. destruct (get_cli_text r t1 t2 d D (Below_nonempty _ _ _ _ B I)) as (ls & L & P & _). exists ls. split; auto.
  assert (N : k <> ""). { destruct (Below_fair p d d' B F) as [F' _]. rewrite Forall_forall in F'. specialize (F' _ I). inversion F'; auto. }
  assert (X : exists t, In t (fst (list2cli overwritable_commands d')) /\ t <> "" /\ Begins k t).
  { destruct (added_line overwritable_commands d' k I C N S) as (t & T & Bk).
    { intros ps Hp. destruct (re_match ps k) eqn:M; auto. exfalso. assert (existsb (fun ps => re_test ps k) overwritable_commands = true); [| congruence].
      apply existsb_exists. exists ps. split; auto. unfold re_test. rewrite M. auto. }
    exists t. split; [| split; auto; apply (Begins_nonempty k); auto]. unfold list2cli. cbn [fst]. apply in_concat. exists [t]. split; auto. left. auto. }
  set (P0 := fun s => exists t, In t s /\ t <> "" /\ Begins k t) in *.
  assert (M : forall s x y, P0 s -> P0 (x ++ s ++ y)). { intros s x y (t & T & Q). exists t. split; auto. apply in_or_app. right. apply in_or_app. auto. }
  assert (T : forall s, P0 s -> text_empty s = false) by (intros s; apply line_text).
  assert (W := nested_pos p d d' P0 B F K M T X). destruct (Below_fair p d d' B F) as [_ NP].
  destruct (P (Within_nonempty p P0 _ NP T W)) as (a & b & E). rewrite E. apply Within_wrap; auto.
Qed.

Theorem nested_section : forall r t1 t2 d p d' k l, get_diff r t1 t2 = Ok d -> Forall Fair d -> Below p d d' -> (forall h, In h p -> Kept h) ->
  In (It k (Some l) IPlus) d' -> ordinary_item (It k (Some l) ISame) = true ->
  (forall ps, In ps overwritable_commands -> over_match ps (k :: list2config None l) = None) ->
  exists ls, get_cli r t1 t2 = Ok ls /\ Within p (fun s => exists a b, s = a ++ (k :: list2config None l) ++ b) ls /\
    parse (k :: list2config None l) = Ok [It k (Some l) ISame].
Proof.
  intros r t1 t2 d p d' k l D F B K I O M. destruct (get_cli_text r t1 t2 d D (Below_nonempty _ _ _ _ B I)) as (ls & L & P & _). exists ls. split; auto.
  pose proof O as O'. cbn [ordinary_item] in O'. apply andb_true_iff in O'. destruct O' as [O1 O2]. apply andb_true_iff in O1. destruct O1 as [O1 _]. apply andb_true_iff in O2. destruct O2 as [O2 O3].
  assert (KN : k <> "") by (intro; subst; discriminate). pose proof (section_commands l O3) as SC.
  assert (LN : list2config None l <> []). { destruct l as [| [k0 v0 i0] l]; [discriminate |]. cbn [forallb ordinary_item] in O3. apply andb_true_iff in O3. destruct O3 as [O3 _]. apply andb_true_iff in O3. destruct O3 as [O3 _]. apply andb_true_iff in O3. destruct O3 as [O3 _]. destruct k0; [discriminate |]. discriminate. }
  assert (J : In (k :: list2config None l) (c_pos (cli_lists overwritable_commands d'))). { rewrite <- SC. apply added_section; auto; rewrite SC; auto. }
  split; [| apply render_parse; auto].
  set (P0 := fun s => exists a b, s = a ++ (k :: list2config None l) ++ b).
  assert (MM : forall s x y, P0 s -> P0 (x ++ s ++ y)). { intros s x y (a & b & E). exists (x ++ a), (b ++ y). rewrite E, <- !app_assoc. reflexivity. }
  assert (T : forall s, P0 s -> text_empty s = false). { intros s (a & b & E). apply (nonempty_text s k); auto. rewrite E. apply in_or_app. right. left. reflexivity. }
  assert (W : Within p P0 (fst (list2cli overwritable_commands d))). { apply (nested_pos p d d'); auto. unfold P0, list2cli. cbn [fst]. apply cmd_in_join. exact J. }
  destruct (Below_fair p d d' B F) as [_ NP]. destruct (P (Within_nonempty p P0 _ NP T W)) as (a & b & E). rewrite E. apply Within_wrap; auto.
Qed.

Theorem nested_removed : forall r t1 t2 d p d' k v, get_diff r t1 t2 = Ok d -> Forall Fair d -> Below p d d' -> (forall h, In h p -> Kept h) ->
  In (It k v IMinus) d' -> clean k -> starts "no " k = false ->
  (exists k', In (It k' None IPlus) d' /\ Begins k k' /\ v = None) \/
  (exists ls, get_cli r t1 t2 = Ok ls /\ Within p (fun s => exists t, In t s /\ t <> "" /\ Begins t ("no " ++ k)) ls) \/
  (exists x c ps m u, In x d' /\ MadeFrom x c /\ In ps overwritable_commands /\ over_match ps c = Some m /\
     handle_command ("no " ++ k) = (u, true) /\ Begins ("no " ++ lstrip m) u).
Proof.
  intros r t1 t2 d p d' k v D F B K I C S.
  assert (N : k <> ""). { destruct (Below_fair p d d' B F) as [F' _]. rewrite Forall_forall in F'. specialize (F' _ I). inversion F'; auto. }
  destruct (removed_line overwritable_commands d' k v I C N S) as [X | [(t & T & Bt) | X]]; auto. right. left.
  destruct (get_cli_text r t1 t2 d D (Below_nonempty _ _ _ _ B I)) as (ls & L & _ & P). exists ls. split; auto.
  pose proof (cli_neg_nonempty overwritable_commands d' t T) as NE.
  set (P0 := fun s => exists t, In t s /\ t <> "" /\ Begins t ("no " ++ k)).
  assert (M : forall s x y, P0 s -> P0 (x ++ s ++ y)). { intros s x y (u & U & Q). exists u. split; auto. apply in_or_app. right. apply in_or_app. auto. }
  assert (TE : forall s, P0 s -> text_empty s = false) by (intros s; apply line_text).
  assert (W : Within p P0 (snd (list2cli overwritable_commands d))).
  { apply (nested_neg p d d'); auto. exists t. split; auto. unfold list2cli. cbn [snd]. apply in_concat. exists [t]. split; [apply in_rev in T; exact T | left; auto]. }
  destruct (Below_fair p d d' B F) as [_ NP]. destruct (P (Within_nonempty p P0 _ NP TE W)) as (a & b & E). rewrite E. apply Within_wrap; auto.
Qed.
