(** Checks for the conditions on a device, and examples. *)
From Coq Require Import String Ascii List Bool Arith Lia.
From Verif Require Import Base BaseP RunningM RunSpec RunNestSpec RunDevSpec RunDiffP RunCliP RunAllP RunDevP RunScriptP RunTextP RegexP RunFairP RunApplyP RunReachP.
Import ListNotations.
Open Scope string_scope.
Open Scope list_scope.

Definition is_minus (i : info) : bool := match i with IMinus => true | _ => false end.
Definition is_plus (i : info) : bool := match i with IPlus => true | _ => false end.
Definition is_kept (i : info) : bool := match i with ISame => true | _ => false end.
Definition leaf (x : item) : bool := match ival x with None => true | Some _ => false end.
Definition minus (d : list item) := filter (fun x => is_minus (iinfo x)) d.
Definition plus (d : list item) := filter (fun x => is_plus (iinfo x)) d.
Definition shorts (k : string) := filter (fun sc => starts sc ("no " ++ k)) short_no_commands.
Definition neg (c : string) : bool := starts "no " c.
Definition undos (k : string) : list string :=
  if neg k then [sdrop 3 k] else match shorts k with [] => [("no " ++ k)%string] | l => map strip l end.
Definition mades (d : list item) : list string :=
  flat_map (fun x => match x with It k None IPlus => [k] | It k _ IMinus => undos k | _ => [] end) d.
Definition kinds (k : string) : list string := flat_map (fun ps => match re_match ps k with Some m => [strip m] | None => [] end) overwritable_commands.
Definition kept_b (h : string) : bool :=
  negb (starts "no " h) && String.eqb (lstrip h) h && forallb (fun ps => match re_match ps (h ++ String (ascii_of_nat 10) "") with None => true | Some _ => false end) overwritable_commands.

Lemma sdrop_no : forall x, sdrop 3 ("no " ++ x) = x.
Proof. intros x. reflexivity. Qed.
Lemma neg_no : forall x, neg ("no " ++ x) = true.
Proof. intros x. unfold neg. apply starts_iff. exists x. auto. Qed.
Lemma undos_In : forall u k, Undoes u k -> In u (undos k).
Proof.
  intros u k H. unfold undos. inversion H as [k' N S0 | k' sc N I1 B | x]; subst.
  - unfold neg. rewrite N. assert (X : shorts k = []). { unfold shorts. induction short_no_commands as [| s r IH]; auto. cbn [filter]. destruct (starts s ("no " ++ k)) eqn:Q; [| apply IH; intros; apply S0; right; auto].
      apply starts_iff in Q. destruct (S0 s (or_introl eq_refl) Q). }
    rewrite X. left. auto.
  - unfold neg. rewrite N. assert (X : In sc (shorts k)) by (apply filter_In; split; auto; apply starts_iff; auto). assert (Y : In (strip sc) (map strip (shorts k))) by (apply in_map; auto).
    destruct (shorts k); auto. destruct X.
  - rewrite neg_no, sdrop_no. left. auto.
Qed.
Lemma mades_In : forall d c, Made d c -> In c (mades d).
Proof.
  intros d c H. apply in_flat_map. inversion H as [k I1 | k v u I1 U]; subst; eexists; (split; [exact I1 |]); [left; auto |]. destruct v; apply undos_In; auto.
Qed.
Lemma kinds_In : forall k e, OfKind k e -> In e (kinds k).
Proof.
  intros k e (ps & m & r & I1 & E & M & Ee). apply in_flat_map. exists ps. split; auto. assert (X : re_match ps k = Some m) by (apply overwritable_match; eauto). rewrite X. left. auto.
Qed.
Lemma In_kinds : forall k e, In e (kinds k) -> OfKind k e.
Proof.
  intros k e H. apply in_flat_map in H. destruct H as (ps & I1 & H). destruct (re_match ps k) as [m |] eqn:X; [| destruct H]. destruct H as [H | []]. apply overwritable_match in X; auto. destruct X as (r & E & M). exists ps, m, r. auto.
Qed.
Lemma kept_ok : forall h, kept_b h = true -> Kept h.
Proof.
  intros h H. unfold kept_b in H. apply andb_true_iff in H. destruct H as [H C]. apply andb_true_iff in H. destruct H as [A B]. apply negb_true_iff in A. apply String.eqb_eq in B. split; auto. split; auto.
  intros ps I1. rewrite forallb_forall in C. specialize (C ps I1). destruct (re_match ps _); [discriminate | auto].
Qed.

Definition imp (a b : bool) := negb a || b.
Lemma imp_ok : forall a b, imp a b = true -> a = true -> b = true.
Proof. intros [] []; auto. Qed.
Ltac imply X := let Y := fresh in pose proof (imp_ok _ _ X) as Y; clear X; rename Y into X; match type of X with ?P -> _ => let H := fresh in enough (H : P); [specialize (X H); clear H |] end.
Definition mem (k : string) (l : list string) : bool := existsb (String.eqb k) l.
Definition has (k : string) (l : list item) : bool := existsb (fun x => String.eqb (ikey x) k && leaf x) l.
(** The line [c] is not added before the line [k] is removed *)
Fixpoint order_b (c k : string) (d : list item) : bool :=
  match d with [] => true | x :: r => imp (String.eqb (ikey x) c && leaf x && is_plus (iinfo x)) (negb (has k (minus r))) && order_b c k r end.
Definition undo_b (dv : device) (l2 d : list item) (x : item) (u : string) : bool :=
  evicts dv u (ikey x) &&
  forallb (fun y => imp (negb (String.eqb y u) && (negb (neg u) || neg y || negb (existsb (fun p => String.eqb (ikey p) y) (plus d)))) (negb (evicts dv u y))) (keys l2) &&
  imp (shows dv u) ((has u (filter (fun y => is_kept (iinfo y)) l2) && forallb (fun y => negb (String.eqb (ikey y) u && negb (leaf y) && is_kept (iinfo y))) d) ||
                    (neg u && existsb (fun c => leaf c && negb (neg (ikey c)) && evicts dv (ikey c) u) (plus d))) &&
  forallb (fun c => imp (neg c && starts c u) (evicts dv c (ikey x))) (mades d).
Definition minus_b (dv : device) (l2 d : list item) (x : item) : bool :=
  forallb (undo_b dv l2 d x) (undos (ikey x)) &&
  negb (has ("no " ++ ikey x) (minus d)) &&
  imp (leaf x) (forallb (fun p => imp (leaf p && starts (ikey x) (ikey p) && negb (String.eqb (ikey x) (ikey p))) (evicts dv (ikey p) (ikey x))) (plus d)).
Definition turn_b (dv : device) (d : list item) (m : item) : bool :=
  imp (leaf m && neg (ikey m)) (let x := sdrop 3 (ikey m) in forallb (fun c => imp (negb (neg c))
    (imp (starts x c) (evicts dv c (ikey m)) &&
     forallb (fun e => imp (negb (String.eqb c x) && (mem e (kinds c) || starts x c)) (mem e (kinds c) && has c (plus d) && evicts dv c (ikey m) && order_b c (ikey m) d)) (kinds x))) (mades d)).
Definition made_b (dv : device) (d : list item) (c : string) : bool :=
  imp (negb (neg c)) (forallb (fun e => forallb (fun y => imp (starts e (ikey y) && negb (String.eqb c (ikey y))) (evicts dv c (ikey y))) (minus d)) (kinds c)).
Definition plus_b (d : list item) (p : item) : bool :=
  imp (leaf p) (let k := ikey p in
    forallb (fun q => imp (leaf q) (forallb (fun e => imp (mem e (kinds (ikey q))) (String.eqb k (ikey q))) (kinds k))) (plus d) &&
    (if neg k
     then forallb (fun sc => negb (starts sc k)) short_no_commands &&
          forallb (fun c => imp (neg c && starts c k) (String.eqb c k) && imp (negb (neg c)) (forallb (fun e => negb (starts e (sdrop 3 k))) (kinds c))) (mades d)
     else forallb (fun c => imp (negb (neg c) && starts k c && negb (String.eqb k c)) (mem k coexist_commands || mem c coexist_commands)) (mades d))).
Definition section_b (x : item) : bool := imp (negb (leaf x)) (kept_b (ikey x) && match kinds (ikey x) with [] => true | _ => false end).
Definition obeys_b (dv : device) (l2 d : list item) : bool :=
  forallb (minus_b dv l2 d) (minus d) && forallb (turn_b dv d) (minus d) && forallb (made_b dv d) (mades d) && forallb (plus_b d) (plus d) && forallb section_b d.

Lemma all_ok : forall A (f : A -> bool) l x, forallb f l = true -> In x l -> f x = true.
Proof. intros A f l x H. rewrite forallb_forall in H. auto. Qed.
Lemma starts_b : forall a b, Begins a b -> starts a b = true.
Proof. intros a b H. apply starts_iff. auto. Qed.
Lemma neqb : forall a b : string, a <> b -> negb (String.eqb a b) = true.
Proof. intros a b H. apply negb_true_iff. apply String.eqb_neq. auto. Qed.
Lemma neg_not : forall c, ~ Negates c -> negb (neg c) = true.
Proof. intros c H. unfold Negates in H. unfold neg. destruct (starts "no " c); [destruct H; reflexivity | reflexivity]. Qed.
Lemma minus_In : forall k v d, In (It k v IMinus) d -> In (It k v IMinus) (minus d).
Proof. intros. apply filter_In. auto. Qed.
Lemma plus_In : forall k v d, In (It k v IPlus) d -> In (It k v IPlus) (plus d).
Proof. intros. apply filter_In. auto. Qed.
Lemma mem_In : forall k l, mem k l = true -> In k l.
Proof. intros k l H. apply existsb_exists in H. destruct H as (x & I1 & E). apply String.eqb_eq in E. subst. auto. Qed.
Lemma In_mem : forall k l, In k l -> mem k l = true.
Proof. intros k l H. apply existsb_exists. exists k. split; auto. apply String.eqb_refl. Qed.
Lemma has_In : forall k l, has k l = true -> exists i, In (It k None i) l.
Proof.
  intros k l H. apply existsb_exists in H. destruct H as ([k' v i] & I1 & E). apply andb_true_iff in E. destruct E as [E L]. cbn [ikey] in E. apply String.eqb_eq in E. subst k'. destruct v; [discriminate |]. eauto.
Qed.
Lemma In_has : forall k i l, In (It k None i) l -> has k l = true.
Proof. intros k i l H. apply existsb_exists. exists (It k None i). split; auto. cbn [ikey leaf ival]. rewrite String.eqb_refl. reflexivity. Qed.
Lemma has_plus : forall k d, has k (plus d) = true -> In (It k None IPlus) d.
Proof. intros k d H. apply has_In in H. destruct H as (i & H). apply filter_In in H. destruct H as [H E]. destruct i; try discriminate. auto. Qed.
Lemma order_ok : forall c k a b, order_b c k (a ++ It c None IPlus :: b) = true -> ~ In (It k None IMinus) b.
Proof.
  intros c k. induction a as [| x a IH]; intros b H I1; cbn [order_b app] in H; apply andb_true_iff in H; destruct H as [H1 H2].
  - assert (X := imp_ok _ _ H1). cbn [ikey leaf ival iinfo is_plus] in X. rewrite String.eqb_refl in X. specialize (X eq_refl). apply negb_true_iff in X. rewrite (In_has _ _ _ (minus_In _ _ _ I1)) in X. discriminate.
  - apply (IH b H2 I1).
Qed.

Lemma obeys_ok : forall dv l2 d, obeys_b dv l2 d = true -> Obeys dv l2 d.
Proof.
  intros dv l2 d H. unfold obeys_b in H. rewrite !andb_true_iff in H. destruct H as [[[[H1 H2] H3] H4] H5].
  assert (M : forall k v u, In (It k v IMinus) d -> Undoes u k -> undo_b dv l2 d (It k v IMinus) u = true).
  { intros k v u I1 U. assert (X := all_ok _ _ _ _ H1 (minus_In _ _ _ I1)). unfold minus_b in X. rewrite !andb_true_iff in X. apply (all_ok _ _ _ u (proj1 (proj1 X))). cbn [ikey]. apply undos_In. auto. }
  assert (PB : forall k, In (It k None IPlus) d -> plus_b d (It k None IPlus) = true) by (intros k I1; apply (all_ok _ _ _ _ H4 (plus_In _ _ _ I1))).
  constructor.
  - intros k v u I1 U. assert (X := M _ _ _ I1 U). unfold undo_b in X. rewrite !andb_true_iff in X. apply X.
  - intros k v u y I1 U I2 N Y. assert (X := M _ _ _ I1 U). unfold undo_b in X. rewrite !andb_true_iff in X. destruct X as [[[_ X] _] _]. assert (Z := all_ok _ _ _ _ X I2). cbn beta in Z.
    apply negb_true_iff. apply (imp_ok _ _ Z). rewrite (neqb _ _ N). cbn [andb]. destruct Y as [Y | [Y | Y]].
    + rewrite (neg_not _ Y). auto.
    + unfold Negates in Y. unfold neg at 2. rewrite Y, orb_true_r. auto.
    + assert (E : existsb (fun p => String.eqb (ikey p) y) (plus d) = false).
      { destruct (existsb _ (plus d)) eqn:Q; auto. apply existsb_exists in Q. destruct Q as ([k' v' i'] & Q & E). cbn [ikey] in E. apply String.eqb_eq in E. subst k'. apply filter_In in Q. destruct Q as [Q E]. destruct i'; try discriminate. destruct (Y _ Q). }
      rewrite E, orb_true_r. auto.
  - intros k v I1 I2. assert (X := all_ok _ _ _ _ H1 (minus_In _ _ _ I1)). unfold minus_b in X. rewrite !andb_true_iff in X. destruct X as [[_ X] _]. apply negb_true_iff in X. cbn [ikey] in X. rewrite (In_has _ _ _ (minus_In _ _ _ I2)) in X. discriminate.
  - intros k v u I1 U Sh. assert (X := M _ _ _ I1 U). unfold undo_b in X. rewrite !andb_true_iff in X. destruct X as [[_ X] _]. imply X; auto. apply orb_true_iff in X. destruct X as [X | X]; apply andb_true_iff in X; destruct X as [X Y]; [left | right]; split; auto.
    + apply has_In in X. destruct X as (i & X). apply filter_In in X. destruct X as [X E]. destruct i; try discriminate. auto.
    + intros w I2. assert (Z := all_ok _ _ _ _ Y I2). cbn in Z. rewrite String.eqb_refl in Z. discriminate.
    + apply existsb_exists in Y. destruct Y as ([c v' i] & Y & E). rewrite !andb_true_iff in E. destruct E as [[E1 E2] E3]. apply filter_In in Y. destruct Y as [Y E]. destruct i; try discriminate. destruct v'; [discriminate |].
      exists c. split; auto. split; auto. apply negb_true_iff in E2. cbn [ikey] in E2. intro X'. unfold Negates in X'. unfold neg in E2. congruence.
  - intros k v u c I1 U Mc N B. assert (X := M _ _ _ I1 U). unfold undo_b in X. rewrite !andb_true_iff in X. destruct X as [_ X]. assert (Z := all_ok _ _ _ _ X (mades_In _ _ Mc)). apply (imp_ok _ _ Z). unfold Negates in N. unfold neg. rewrite N, (starts_b _ _ B). auto.
  - intros x c I1 Mc N B. assert (X := all_ok _ _ _ _ H2 (minus_In _ _ _ I1)). unfold turn_b in X. imply X; [| cbn [leaf ival ikey andb]; apply neg_no]. cbv zeta in X. assert (Z := all_ok _ _ _ _ X (mades_In _ _ Mc)). cbn beta in Z.
    imply Z; [| apply neg_not; auto]. apply andb_true_iff in Z. destruct Z as [Z _]. apply (imp_ok _ _ Z). cbn [ikey]. rewrite sdrop_no. apply starts_b. auto.
  - intros k k' I1 I2 B N. assert (X := all_ok _ _ _ _ H1 (minus_In _ _ _ I1)). unfold minus_b in X. rewrite !andb_true_iff in X. destruct X as [_ X]. imply X; auto. assert (Z := all_ok _ _ _ _ X (plus_In _ _ _ I2)).
    apply (imp_ok _ _ Z). cbn [leaf ival ikey andb]. rewrite (starts_b _ _ B), (neqb _ _ N). auto.
  - intros c e y v Mc N K I1 B Ne. assert (X := all_ok _ _ _ _ H3 (mades_In _ _ Mc)). unfold made_b in X. imply X; [| apply neg_not; auto]. assert (Z := all_ok _ _ _ _ X (kinds_In _ _ K)). assert (Q := all_ok _ _ _ _ Z (minus_In _ _ _ I1)).
    apply (imp_ok _ _ Q). cbn [ikey]. rewrite (starts_b _ _ B), (neqb _ _ Ne). auto.
  - intros k k' e I1 I2 K K'. assert (X := PB _ I1). unfold plus_b in X. imply X; auto. cbv zeta in X. apply andb_true_iff in X. destruct X as [X _]. assert (Z := all_ok _ _ _ _ X (plus_In _ _ _ I2)). imply Z; auto.
    assert (Q := all_ok _ _ _ _ Z (kinds_In _ _ K)). imply Q; [| apply In_mem; apply kinds_In; auto]. apply String.eqb_eq in Q. auto.
  - intros x e c I1 K Mc N Ne Or. assert (X := all_ok _ _ _ _ H2 (minus_In _ _ _ I1)). unfold turn_b in X. imply X; [| cbn [leaf ival ikey andb]; apply neg_no]. cbv zeta in X. assert (Z := all_ok _ _ _ _ X (mades_In _ _ Mc)). cbn beta in Z.
    imply Z; [| apply neg_not; auto]. apply andb_true_iff in Z. destruct Z as [_ Z]. cbn [ikey] in Z. rewrite sdrop_no in Z. assert (Q := all_ok _ _ _ _ Z (kinds_In _ _ K)). cbn beta in Q. imply Q.
    + rewrite !andb_true_iff in Q. destruct Q as [[[Q1 Q2] Q3] Q4]. split; [apply In_kinds; apply mem_In; auto |]. split; [apply has_plus; auto |]. split; auto. intros a b E. subst d. apply (order_ok _ _ _ _ Q4).
    + rewrite (neqb _ _ Ne). cbn [andb]. apply orb_true_iff. destruct Or as [Or | Or]; [left; apply In_mem; apply kinds_In; auto | right; apply starts_b; auto].
  - intros k l i I1. assert (X := all_ok _ _ _ _ H5 I1). unfold section_b in X. imply X; auto. apply andb_true_iff in X. destruct X as [X Y]. split; [apply kept_ok; auto |]. intros e K. apply kinds_In in K. cbn [ikey] in Y. destruct (kinds k); [destruct K | discriminate].
  - intros k c I1 N Mc Nc B Ne. assert (X := PB _ I1). unfold plus_b in X. imply X; auto. cbv zeta in X. apply andb_true_iff in X. destruct X as [_ X]. cbn [ikey] in X. assert (E := neg_not _ N). apply negb_true_iff in E. rewrite E in X.
    assert (Z := all_ok _ _ _ _ X (mades_In _ _ Mc)). imply Z; [| rewrite (neg_not _ Nc), (starts_b _ _ B), (neqb _ _ Ne); auto]. apply orb_true_iff in Z. destruct Z as [Z | Z]; apply mem_In in Z; auto.
  - intros k sc I1 N I2 B. assert (X := PB _ I1). unfold plus_b in X. imply X; auto. cbv zeta in X. apply andb_true_iff in X. destruct X as [_ X]. cbn [ikey] in X. assert (E : neg k = true) by exact N. rewrite E in X. apply andb_true_iff in X. destruct X as [X _].
    assert (Z := all_ok _ _ _ _ X I2). cbn beta in Z. rewrite (starts_b _ _ B) in Z. discriminate.
  - intros k c I1 N Mc Nc B. assert (X := PB _ I1). unfold plus_b in X. imply X; auto. cbv zeta in X. apply andb_true_iff in X. destruct X as [_ X]. cbn [ikey] in X. assert (E : neg k = true) by exact N. rewrite E in X. apply andb_true_iff in X. destruct X as [_ X].
    assert (Z := all_ok _ _ _ _ X (mades_In _ _ Mc)). cbn beta in Z. apply andb_true_iff in Z. destruct Z as [Z _]. imply Z; [apply String.eqb_eq; auto |]. assert (E' : neg c = true) by exact Nc. rewrite E', (starts_b _ _ B). auto.
  - intros x c e I1 Mc Nc K B. assert (X := PB _ I1). unfold plus_b in X. imply X; auto. cbv zeta in X. apply andb_true_iff in X. destruct X as [_ X]. cbn [ikey] in X. rewrite neg_no in X. apply andb_true_iff in X. destruct X as [_ X].
    assert (Z := all_ok _ _ _ _ X (mades_In _ _ Mc)). cbn beta in Z. apply andb_true_iff in Z. destruct Z as [_ Z]. imply Z; [| apply neg_not; auto]. assert (Q := all_ok _ _ _ _ Z (kinds_In _ _ K)). cbn beta in Q. rewrite sdrop_no, (starts_b _ _ B) in Q. discriminate.
Qed.

(** At every place *)
Fixpoint places_b (n : nat) (dv : device) (m w : list item) : bool :=
  match n with
  | O => false
  | S n => obeys_b dv m w && forallb (fun x => match x with
      | It k (Some w') ISame => forallb (fun y => imp (String.eqb (ikey y) k) (places_b n dv (kids (ival y)) w')) m
      | _ => true end) w
  end.
Lemma places_head : forall n dv m w, places_b n dv m w = true -> obeys_b dv m w = true.
Proof. intros [| n] dv m w H; [discriminate |]. cbn in H. apply andb_true_iff in H. apply H. Qed.
Lemma places_In : forall dv l2 d m w, Place l2 d m w -> forall n, places_b n dv l2 d = true -> exists n', places_b n' dv m w = true.
Proof.
  intros dv l2 d m w H. induction H as [l2 d | l2 d m w k v w' i H IH I1 I2]; intros n B; [eauto |]. destruct (IH n B) as (n' & B'). destruct n' as [| n']; [discriminate |]. cbn [places_b] in B'.
  apply andb_true_iff in B'. destruct B' as [_ B']. rewrite forallb_forall in B'. specialize (B' _ I2). cbn in B'. rewrite forallb_forall in B'. specialize (B' _ I1). exists n'. apply (imp_ok _ _ B'). cbn. apply String.eqb_refl.
Qed.
Lemma places_ok : forall n dv l2 d, places_b n dv l2 d = true -> forall m w, Place l2 d m w -> Obeys dv m w.
Proof. intros n dv l2 d B m w P. destruct (places_In dv _ _ _ _ P n B) as (n' & B'). apply obeys_ok. apply (places_head n'). auto. Qed.

Fixpoint saying_b (x : item) : bool :=
  let '(It k v _) := x in unsigned_b true k && imp (neg k) (leaf x && ordinary_key (sdrop 3 k) && negb (neg (sdrop 3 k))) && match v with None => true | Some l => forallb saying_b l end.
Lemma saying_item_ok : forall x, saying_b x = true -> Saying x.
Proof.
  induction x as [k v i IH] using item_ind'. cbn [saying_b]. intro H. apply andb_true_iff in H. destruct H as [H L]. apply andb_true_iff in H. destruct H as [U N]. constructor; [apply unsigned_check; auto | |].
  - intros x E. subst k. rewrite sdrop_no in N. imply N; [| apply neg_no]. rewrite !andb_true_iff in N. destruct N as [[N1 N2] N3]. apply negb_true_iff in N3. destruct v; [discriminate | auto].
  - intros l E. subst v. specialize (IH l eq_refl). rewrite forallb_forall in L. rewrite Forall_forall in *. auto.
Qed.
Lemma saying_ok : forall l, forallb saying_b l = true -> Forall Saying l.
Proof. intros l H. rewrite forallb_forall in H. apply Forall_forall. intros x X. apply saying_item_ok. auto. Qed.
Definition settled_here (dv : device) (l : list item) : bool := forallb (fun x => shows dv x && forallb (fun y => imp (negb (String.eqb x y)) (negb (evicts dv x y))) (keys l)) (keys l).
Fixpoint settled_item (dv : device) (x : item) : bool := let '(It _ v _) := x in match v with None => true | Some l => settled_here dv l && forallb (settled_item dv) l end.
Lemma settled_ok : forall dv n l, depth l <= n -> settled_here dv l = true -> forallb (settled_item dv) l = true -> Settled dv l.
Proof.
  intros dv. induction n as [n IH] using lt_wf_ind. intros l Hn A B. constructor.
  - intros x X. unfold settled_here in A. rewrite forallb_forall in A. specialize (A x X). apply andb_true_iff in A. apply A.
  - intros x y X Y N. unfold settled_here in A. rewrite forallb_forall in A. specialize (A x X). apply andb_true_iff in A. destruct A as [_ A]. rewrite forallb_forall in A. specialize (A y Y). apply negb_true_iff. apply (imp_ok _ _ A). apply neqb. auto.
  - intros k v i I1. rewrite forallb_forall in B. specialize (B _ I1). cbn [settled_item] in B. apply andb_true_iff in B. destruct B as [B C].
    assert (Dw : depth v < n). { pose proof (depth_In _ _ I1) as Y. rewrite (depth_val _ v) in Y by auto. lia. } apply (IH (depth v)); auto.
Qed.
Fixpoint distinct_keys_b (l : list string) : bool := match l with [] => true | x :: r => negb (existsb (String.eqb x) r) && distinct_keys_b r end.
Lemma distinct_keys_ok : forall l, distinct_keys_b l = true -> NoDup l.
Proof.
  induction l as [| x l IH]; intro H; [constructor |]. cbn in H. apply andb_true_iff in H. destruct H as [A B]. constructor; auto. intro X. apply negb_true_iff in A. assert (Y : existsb (String.eqb x) l = true) by (apply existsb_exists; exists x; split; auto; apply String.eqb_refl). congruence.
Qed.
Fixpoint distinct_b (x : item) : bool := let '(It _ v _) := x in match v with None => true | Some l => distinct_keys_b (map ikey l) && forallb distinct_b l end.
Lemma distinct_item_ok : forall x, distinct_b x = true -> distinct_item x.
Proof.
  induction x as [k v i IH] using item_ind'. cbn [distinct_b distinct_item]. destruct v as [l |]; auto. intro H. apply andb_true_iff in H. destruct H as [A B]. split; [apply distinct_keys_ok; auto |].
  apply distinct_all. specialize (IH l eq_refl). rewrite forallb_forall in B. rewrite Forall_forall in *. auto.
Qed.
Lemma distinct_ok : forall l, distinct_keys_b (keys l) = true -> forallb distinct_b l = true -> distinct l.
Proof. intros l A B. split; [apply distinct_keys_ok; auto |]. rewrite forallb_forall in B. apply Forall_forall. intros x X. apply distinct_item_ok. auto. Qed.

(** ** A device *)
(** Lines of which there is only one at a place, by their first words *)
Definition single_words : list string := ["hostname "; "description "; "mtu "; "vrf forwarding "; "ip route 2.2.2.2 "].
Definition is_secondary (y : string) : bool := String.eqb (substring (String.length y - 9) 9 y) "secondary".
Definition within (a b : string) : bool := String.eqb a b || starts (a ++ " ") b.
(** The negated lines that a config shows *)
Definition shown_no : list string := ["no shutdown"; "no ip address"; "no ip http server"; "no ip domain lookup"].
(** "no x" removes the line x, and the lines x with further words. A line replaces the
    one with the same first words and its negated form; an address replaces the other
    one, unless it is a secondary one. An address without numbers is not a line. *)
Definition ios : device := Device
  (fun c y =>
     if neg c then within (sdrop 3 c) y
     else if neg y then within (sdrop 3 y) c || within c (sdrop 3 y)
     else existsb (fun p => starts p c && starts p y) single_words ||
          (starts "ip address " c && starts "ip address " y && negb (is_secondary c) && negb (is_secondary y)))
  (fun c => if neg c then mem c shown_no else negb (String.eqb c "ip address")).

Definition dev1 : list string :=
  [ "hostname r1"; "!"; "vrf definition red"; " rd 1:1"; " address-family ipv4"; "  route-target import 1:1"; "  route-target export 1:1"; " exit-address-family"; "!";
    "interface Gi1"; " description up"; " ip address 1.1.1.1 255.0.0.0"; " mtu 1500"; " no shutdown"; "!";
    "interface Gi2"; " shutdown"; "!"; "interface Gi4"; " no ip address"; " shutdown"; "!"; "no ip http server"; "ntp server 1.1.1.1"; "ntp server 2.2.2.2"; "ip route 2.2.2.2 255.0.0.0 Null0" ].
Definition dev2 : list string :=
  [ "hostname r2"; "!"; "vrf definition red"; " rd 1:1"; " address-family ipv4"; "  route-target import 1:1"; "  route-target export 1:2"; " exit-address-family"; "!";
    "interface Gi1"; " description down"; " ip address 1.1.1.2 255.0.0.0"; " shutdown"; "!";
    "interface Gi3"; " mtu 9000"; "!"; "interface Gi4"; " ip address 4.4.4.4 255.0.0.0"; " no shutdown"; "!"; "ip http server"; "ntp server 2.2.2.2"; "ntp server 1.1.1.1"; "snmp-server contact a" ].
Definition lines_of_text (t : list string) : list item := match parse (map replace_line t) with Ok l => l | Err _ => [] end.
Definition diff_of (r : bool) (a b : list string) : list item := match get_diff r a b with Ok d => d | Err _ => [] end.
Definition cli_of (r : bool) (a b : list string) : list string := match get_cli r a b with Ok d => d | Err _ => [] end.

Theorem cli_forth' : forall dv t1 t2 l1 l2 d ls, parse (map replace_line t1) = Ok l1 -> parse (map replace_line t2) = Ok l2 ->
  ordinary l1 = true -> distinct l1 -> Forall Saying l1 -> ordinary l2 = true -> distinct l2 -> Forall Saying l2 -> Settled dv l2 ->
  get_diff false t1 t2 = Ok d -> (forall m w, Place l2 d m w -> Obeys dv m w) -> get_cli false t1 t2 = Ok ls ->
  exists cs, Reads ls cs /\ forall cfg, Same cfg l1 -> Same (run dv cs cfg) l2.
Proof. intros. eapply cli_forth; eauto; constructor; auto. Qed.
Theorem cli_back' : forall dv t1 t2 l1 l2 s1 s2 d ls, parse (map replace_line t1) = Ok l1 -> parse (map replace_line t2) = Ok l2 ->
  ordinary l1 = true -> distinct l1 -> Forall Saying l1 -> ordinary l2 = true -> distinct l2 -> Forall Saying l2 -> Settled dv l1 ->
  running_lists t1 t2 = Ok (s1, s2) -> get_diff true t1 t2 = Ok d -> (forall m w, Place s1 d m w -> Obeys dv m w) -> get_cli true t1 t2 = Ok ls ->
  exists cs, Reads ls cs /\ forall cfg, Same cfg l2 -> Same (run dv cs cfg) l1.
Proof. intros. eapply cli_back; eauto; constructor; auto. Qed.
Lemma reads_once : forall ls c1 c2, Reads ls c1 -> Reads ls c2 -> c1 = c2.
Proof.
  intros ls c1 c2 [O1 E1] [O2 E2]. rewrite E1 in E2. assert (A := parse_text_back 2 c1 ltac:(lia) O1). assert (B := parse_text_back 2 c2 ltac:(lia) O2). rewrite E2, B in A. congruence.
Qed.

Definition tree_b (l : list item) : bool := ordinary l && forallb saying_b l && distinct_keys_b (keys l) && forallb distinct_b l.
Definition ready_b (dv : device) (t1 t2 : list string) : bool :=
  match parse (map replace_line t1), parse (map replace_line t2), running_lists t1 t2 with
  | Ok l1, Ok l2, Ok (s1, _) => tree_b l1 && tree_b l2 && settled_here dv l1 && forallb (settled_item dv) l1 && settled_here dv l2 && forallb (settled_item dv) l2 &&
      match get_diff false t1 t2, get_diff true t1 t2 with
      | Ok d, Ok d' => places_b (S (depth d)) dv l2 d && places_b (S (depth d')) dv s1 d'
      | _, _ => false
      end
  | _, _, _ => false
  end.
Lemma tree_check : forall l, tree_b l = true -> tree l.
Proof. intros l H. unfold tree_b in H. rewrite !andb_true_iff in H. destruct H as [[[A B] C] D]. constructor; auto using distinct_ok, saying_ok. Qed.
Lemma ready_ok : forall dv t1 t2, ready_b dv t1 t2 = true -> exists cs cs', Reads (cli_of false t1 t2) cs /\ Reads (cli_of true t1 t2) cs' /\
  (forall cfg, Same cfg (lines_of_text t1) -> Same (run dv cs cfg) (lines_of_text t2)) /\
  forall cfg, Same cfg (lines_of_text t2) -> Same (run dv cs' cfg) (lines_of_text t1).
Proof.
  intros dv t1 t2 H. unfold ready_b in H. unfold lines_of_text, cli_of. destruct (parse (map replace_line t1)) as [l1 | e] eqn:P1; [| discriminate]. destruct (parse (map replace_line t2)) as [l2 | e] eqn:P2; [| discriminate].
  destruct (running_lists t1 t2) as [[s1 s2] | e] eqn:R; [| discriminate]. rewrite !andb_true_iff in H. destruct H as [[[[[[T1 T2] Q1] Q2] Q3] Q4] H]. apply tree_check in T1, T2.
  assert (S1 := settled_ok dv (depth l1) l1 (le_n _) Q1 Q2). assert (S2 := settled_ok dv (depth l2) l2 (le_n _) Q3 Q4).
  destruct (get_diff false t1 t2) as [d | e] eqn:D; [| discriminate]. destruct (get_diff true t1 t2) as [d' | e] eqn:D'; [| discriminate]. apply andb_true_iff in H. destruct H as [H1 H2].
  assert (G : exists c, get_cli false t1 t2 = Ok c). { unfold get_cli. rewrite D. cbn [bind]. destruct d; [eauto |]. destruct (list2cli overwritable_commands (i :: d)) as [p n]. destruct (text_empty p), (text_empty n); eauto. }
  assert (G' : exists c, get_cli true t1 t2 = Ok c). { unfold get_cli. rewrite D'. cbn [bind]. destruct d'; [eauto |]. destruct (list2cli overwritable_commands (i :: d')) as [p n]. destruct (text_empty p), (text_empty n); eauto. }
  destruct G as (c & G). destruct G' as (c' & G'). rewrite G, G'.
  destruct (cli_forth dv t1 t2 l1 l2 d c P1 P2 T1 T2 S2 D (places_ok _ _ _ _ H1) G) as (cs & R1 & F1).
  destruct (cli_back dv t1 t2 l1 l2 s1 s2 d' c' P1 P2 T1 T2 S1 R D' (places_ok _ _ _ _ H2) G') as (cs' & R2 & F2). exists cs, cs'. auto.
Qed.
Lemma ex_ready : ready_b ios dev1 dev2 = true.
Proof. vm_compute. reflexivity. Qed.
Lemma ex_forth_back : exists cs cs', forall cfg, Same cfg (lines_of_text dev1) ->
  get_cli false dev1 dev2 = Ok
    [ "no ip route 2.2.2.2 255.0.0.0 Null0"; "interface Gi4"; "  no shutdown"; "no interface Gi2"; "interface Gi1"; "  no mtu 1500"; "  no ip address";
      "vrf definition red"; "  address-family ipv4"; "    no route-target export 1:1"; "no hostname r1"; "!";
      "hostname r2"; "vrf definition red"; "  address-family ipv4"; "    route-target export 1:2"; "interface Gi1";
      "  shutdown"; "  description down"; "  ip address 1.1.1.2 255.0.0.0"; "interface Gi3"; "  mtu 9000";
      "interface Gi4"; "  ip address 4.4.4.4 255.0.0.0"; "ip http server"; "snmp-server contact a" ] /\
  Reads (cli_of false dev1 dev2) cs /\ Reads (cli_of true dev1 dev2) cs' /\
  Same (run ios cs cfg) (lines_of_text dev2) /\ Same (run ios cs' (run ios cs cfg)) (lines_of_text dev1).
Proof.
  destruct (ready_ok _ _ _ ex_ready) as (cs & cs' & R1 & R2 & F1 & F2). exists cs, cs'. intros cfg C. split; [vm_compute; reflexivity |]. split; [exact R1 |]. split; [exact R2 |]. split; [apply F1; exact C | apply F2; apply F1; exact C].
Qed.
Lemma dev1_tree : distinct (lines_of_text dev1).
Proof. apply distinct_ok; vm_compute; reflexivity. Qed.
Lemma ex_rev_same : Same (rev (lines_of_text dev1)) (lines_of_text dev1).
Proof.
  assert (H := Same_refl _ _ (le_n _) dev1_tree). revert H. generalize (lines_of_text dev1). intros l H. inversion H as [a b N1 N2 K V Ea Eb]; subst. constructor; auto.
  - unfold keys. rewrite map_rev. apply NoDup_rev. auto.
  - intros k. unfold keys. rewrite map_rev. rewrite <- in_rev. tauto.
  - intros k v1 i1 v2 i2 I1 I2. apply <- in_rev in I1. eauto.
Qed.
Lemma ex_names : exists t1 t2 cs, get_cli false t1 t2 = Ok ["no interface Gi1"] /\ Reads ["no interface Gi1"] cs /\
  In "interface Gi10" (keys (run ios cs (lines_of_text t1))) /\ keys (lines_of_text t2) = ["hostname a"].
Proof.
  exists ["interface Gi1"; " mtu 1"; "interface Gi10"; " mtu 2"; "hostname a"], ["hostname a"], [It "no interface Gi1" None ISame].
  split; [vm_compute; reflexivity |]. split; [split; vm_compute; reflexivity |]. split; [vm_compute; auto | vm_compute; reflexivity].
Qed.
Lemma ex_addresses : exists t1 t2 cs, Reads (cli_of false t1 t2) cs /\
  run ios cs (lines_of_text t1) = [It "interface Gi1" (Some [It "mtu 1" None ISame; It "ip address 2.2.2.2 255.0.0.0 secondary" None ISame]) ISame] /\
  lines_of_text t2 = [It "interface Gi1" (Some [It "mtu 1" None ISame; It "ip address 1.1.1.1 255.0.0.0" None ISame; It "ip address 2.2.2.2 255.0.0.0 secondary" None ISame]) ISame].
Proof.
  exists ["interface Gi1"; " mtu 1"], ["interface Gi1"; " mtu 1"; " ip address 1.1.1.1 255.0.0.0"; " ip address 2.2.2.2 255.0.0.0 secondary"],
    [It "interface Gi1" (Some [It "ip address 2.2.2.2 255.0.0.0 secondary" None ISame]) ISame].
  split; [split; vm_compute; reflexivity |]. split; vm_compute; reflexivity.
Qed.
Lemma ex_secondary : exists t1 t2 cs, Reads (cli_of false t1 t2) cs /\
  run ios cs (lines_of_text t1) = [It "interface Gi1" (Some [It "mtu 1" None ISame; It "no ip address" None ISame]) ISame] /\
  lines_of_text t2 = [It "interface Gi1" (Some [It "mtu 1" None ISame; It "ip address 1.1.1.1 255.0.0.0" None ISame]) ISame].
Proof.
  exists ["interface Gi1"; " mtu 1"; " ip address 1.1.1.1 255.0.0.0"; " ip address 2.2.2.2 255.0.0.0 secondary"], ["interface Gi1"; " mtu 1"; " ip address 1.1.1.1 255.0.0.0"],
    [It "interface Gi1" (Some [It "no ip address" None ISame]) ISame].
  split; [split; vm_compute; reflexivity |]. split; vm_compute; reflexivity.
Qed.
Lemma ex_negated : exists t1 t2 cs, get_cli false t1 t2 = Ok ["interface Gi1"; "  ip address"] /\ Reads ["interface Gi1"; "  ip address"] cs /\
  run ios cs (lines_of_text t1) = [It "interface Gi1" (Some [It "mtu 1" None ISame]) ISame] /\
  lines_of_text t2 = [It "interface Gi1" (Some [It "ip address 1.1.1.1 255.0.0.0" None ISame; It "mtu 1" None ISame]) ISame].
Proof.
  exists ["interface Gi1"; " mtu 1"; " no ip address"], ["interface Gi1"; " ip address 1.1.1.1 255.0.0.0"; " mtu 1"], [It "interface Gi1" (Some [It "ip address" None ISame]) ISame].
  split; [vm_compute; reflexivity |]. split; [split; vm_compute; reflexivity |]. split; vm_compute; reflexivity.
Qed.
