(** What a list of commands does to a single line of a device. *)
From Coq Require Import String Ascii List Bool Arith Lia.
From Verif Require Import Base BaseP RunningM RunSpec RunNestSpec RunDevSpec RunDiffP RunCliP.
Import ListNotations.
Open Scope string_scope.
Open Scope list_scope.

Definition below (dv : device) (v : option (list item)) (old : list item) : list item :=
  match v with None => old | Some cs => run dv cs old end.
Lemma enter_eq : forall dv k v i cfg, enter dv (It k v i) cfg =
  let cfg := filter (fun y => (String.eqb (ikey y) k && shows dv k) || negb (evicts dv k (ikey y))) cfg in
  if negb (shows dv k) then cfg
  else if existsb (fun y => String.eqb (ikey y) k) cfg
  then map (fun y => if String.eqb (ikey y) k then It k (section (below dv v (kids (ival y)))) ISame else y) cfg
  else cfg ++ [It k (section (below dv v [])) ISame].
Proof. reflexivity. Qed.

(** The lines below a line, if it is there *)
Fixpoint look (k : string) (l : list item) : option (list item) :=
  match l with [] => None | x :: r => if String.eqb (ikey x) k then Some (kids (ival x)) else look k r end.
Definition full (l : list item) : Prop := NoDup (keys l) /\ forall k i, ~ In (It k (Some []) i) l.

Lemma look_None : forall k l, look k l = None <-> ~ In k (keys l).
Proof.
  induction l as [| x l IH]; cbn; [tauto |]. destruct (String.eqb (ikey x) k) eqn:E.
  - apply String.eqb_eq in E. split; [discriminate | intros H; exfalso; apply H; auto].
  - apply String.eqb_neq in E. rewrite IH. tauto.
Qed.
Lemma look_In : forall k v i l, NoDup (keys l) -> In (It k v i) l -> look k l = Some (kids v).
Proof.
  induction l as [| x l IH]; cbn; intros N H; [destruct H |]. inversion N as [| a b Hn N']; subst. destruct H as [H | H].
  - subst. cbn. rewrite String.eqb_refl. auto.
  - destruct (String.eqb (ikey x) k) eqn:E; [| auto]. apply String.eqb_eq in E. exfalso. apply Hn. rewrite E.
    change k with (ikey (It k v i)). apply in_map. auto.
Qed.
Lemma look_Some : forall k l s, look k l = Some s -> exists v i, In (It k v i) l /\ s = kids v.
Proof.
  induction l as [| x l IH]; cbn; intros s H; [discriminate |]. destruct (String.eqb (ikey x) k) eqn:E.
  - apply String.eqb_eq in E. injection H as H. subst. destruct x as [k v i]. exists v, i. cbn. auto.
  - destruct (IH s H) as (v & i & I1 & E1). eauto.
Qed.
Lemma look_filter : forall p k l, look k (filter p l) = if existsb (fun x => String.eqb (ikey x) k && p x) l then look k (filter p l) else None.
Proof.
  intros. destruct (existsb _ l) eqn:E; auto. apply look_None. intros H. apply in_map_iff in H. destruct H as (x & Ex & Hx).
  apply filter_In in Hx. assert (T : existsb (fun x => String.eqb (ikey x) k && p x) l = true).
  { apply existsb_exists. exists x. split; [tauto |]. subst. rewrite String.eqb_refl. tauto. } congruence.
Qed.
Lemma look_filter_key : forall (p : string -> bool) k l, look k (filter (fun x => p (ikey x)) l) = if p k then look k l else None.
Proof.
  induction l as [| x l IH]; cbn; [destruct (p k); auto |]. destruct (p (ikey x)) eqn:P; cbn.
  - destruct (String.eqb (ikey x) k) eqn:E; auto. apply String.eqb_eq in E. subst. rewrite P. auto.
  - destruct (String.eqb (ikey x) k) eqn:E; auto. apply String.eqb_eq in E. subst. rewrite P in IH |- *. auto.
Qed.
Lemma look_map : forall (f : list item -> option (list item)) k y l,
  look y (map (fun x => if String.eqb (ikey x) k then It k (f (kids (ival x))) ISame else x) l) =
  if String.eqb k y then option_map (fun s => kids (f s)) (look y l) else look y l.
Proof.
  induction l as [| x l IH]; cbn; [destruct (String.eqb k y); auto |]. destruct (String.eqb (ikey x) k) eqn:E.
  - apply String.eqb_eq in E. subst. cbn. destruct (String.eqb (ikey x) y); auto.
  - rewrite IH. destruct (String.eqb (ikey x) y) eqn:E2; auto. destruct (String.eqb k y) eqn:E3; auto.
    apply String.eqb_eq in E2, E3. apply String.eqb_neq in E. congruence.
Qed.
Lemma look_app : forall k a b, look k (a ++ b) = match look k a with None => look k b | s => s end.
Proof. induction a; cbn; intros; auto. destruct (String.eqb (ikey a) k); auto. Qed.
Lemma kids_section : forall l, kids (section l) = l.
Proof. destruct l; auto. Qed.
Lemma has_key : forall k l, existsb (fun y => String.eqb (ikey y) k) l = match look k l with None => false | _ => true end.
Proof. induction l as [| x l IH]; cbn; auto. destruct (String.eqb (ikey x) k); auto. Qed.

Lemma NoDup_snoc : forall (l : list string) k, NoDup l -> ~ In k l -> NoDup (l ++ [k]).
Proof.
  induction l as [| a l IH]; cbn; intros k N H; [constructor; auto; constructor |]. inversion N; subst. constructor.
  - intros Q. apply in_app_or in Q. destruct Q as [Q | [Q | []]]; [auto | subst; tauto].
  - apply IH; auto.
Qed.
Definition old (o : option (list item)) : list item := match o with None => [] | Some s => s end.
(** What one command does to the line [y] *)
Lemma look_enter : forall dv k v i cfg y, look y (enter dv (It k v i) cfg) =
  if String.eqb k y && shows dv k then Some (below dv v (old (look y cfg))) else if evicts dv k y then None else look y cfg.
Proof.
  intros. rewrite enter_eq. cbv zeta. set (c := filter _ cfg).
  assert (L : forall y, look y c = if (String.eqb y k && shows dv k) || negb (evicts dv k y) then look y cfg else None).
  { intros z. exact (look_filter_key (fun s => (String.eqb s k && shows dv k) || negb (evicts dv k s)) z cfg). }
  destruct (shows dv k) eqn:SH; cbn [negb].
  - rewrite has_key. rewrite L, String.eqb_refl. cbn [orb andb]. rewrite andb_true_r. destruct (look k cfg) as [s |] eqn:K.
    + rewrite (look_map (fun o => section (below dv v o))), L. rewrite (String.eqb_sym y k), andb_true_r. destruct (String.eqb k y) eqn:E; cbn [orb].
      * apply String.eqb_eq in E. subst. rewrite K. cbn. rewrite kids_section. auto.
      * destruct (evicts dv k y); auto.
    + rewrite look_app, L. cbn [look ikey ival]. rewrite kids_section, (String.eqb_sym y k), andb_true_r. destruct (String.eqb k y) eqn:E; cbn [orb].
      * apply String.eqb_eq in E. subst. rewrite K. auto.
      * destruct (evicts dv k y); cbn [negb]; auto. destruct (look y cfg); auto.
  - rewrite L, !andb_false_r. cbn [orb]. destruct (evicts dv k y); auto.
Qed.

Lemma keys_filter : forall p l, NoDup (keys l) -> NoDup (keys (filter p l)).
Proof. intros. apply NoDup_map_filter. auto. Qed.
Lemma full_filter : forall p l, full l -> full (filter p l).
Proof. intros p l [N F]. split; [apply keys_filter; auto |]. intros k i H. apply filter_In in H. apply (F k i). tauto. Qed.
Lemma section_full : forall l, section l <> Some [].
Proof. destruct l; discriminate. Qed.
Lemma full_enter : forall dv c cfg, full cfg -> full (enter dv c cfg).
Proof.
  intros dv [k v i] cfg F. rewrite enter_eq. cbv zeta.
  set (c := filter _ cfg). assert (Fc : full c) by (apply full_filter; auto). destruct (shows dv k); cbn [negb]; auto. destruct Fc as [N E].
  rewrite has_key. destruct (look k c) eqn:L.
  - split.
    + assert (KM : forall m, keys (map (fun y => if String.eqb (ikey y) k then It k (section (below dv v (kids (ival y)))) ISame else y) m) = keys m).
      { induction m as [| x m IH]; auto. unfold keys in *. cbn [map]. rewrite IH. f_equal. destruct (String.eqb (ikey x) k) eqn:K; auto. apply String.eqb_eq in K. auto. }
      rewrite KM. auto.
    + intros k' i' H. apply in_map_iff in H. destruct H as (x & X & Hx). destruct (String.eqb (ikey x) k).
      * injection X as _ X _. apply (section_full _ X).
      * subst. apply (E _ _ Hx).
  - apply look_None in L. split.
    + unfold keys. rewrite map_app. apply NoDup_snoc; auto.
    + intros k' i' H. apply in_app_or in H. destruct H as [H | [H | []]]; [apply (E _ _ H) |]. injection H as _ H _. apply (section_full _ H).
Qed.
Lemma full_run : forall dv cs cfg, full cfg -> full (run dv cs cfg).
Proof. induction cs; intros; auto. cbn [run fold_left]. apply IHcs. apply full_enter. auto. Qed.
Lemma run_app : forall dv a b cfg, run dv (a ++ b) cfg = run dv b (run dv a cfg).
Proof. intros. apply fold_left_app. Qed.

(** The command [c] makes the line [y] go. *)
Definition own (dv : device) (y : string) (c : item) : Prop := ikey c = y /\ shows dv y = true.
Definition kills (dv : device) (c : item) (y : string) : bool := negb (String.eqb (ikey c) y && shows dv y) && evicts dv (ikey c) y.

Lemma run_other : forall dv L cfg y, (forall c, In c L -> ~ own dv y c) ->
  look y (run dv L cfg) = if existsb (fun c => kills dv c y) L then None else look y cfg.
Proof.
  induction L as [| [k v i] L IH]; intros cfg y H; [reflexivity |]. cbn [run fold_left existsb].
  change (fold_left (fun s c => enter dv c s) L (enter dv (It k v i) cfg)) with (run dv L (enter dv (It k v i) cfg)).
  rewrite IH; [| intros; apply H; right; auto]. rewrite look_enter. unfold kills at 2. cbn [ikey].
  specialize (H (It k v i) (or_introl eq_refl)). unfold own in H. cbn [ikey] in H.
  assert (E1 : String.eqb k y && shows dv k = false). { destruct (String.eqb k y) eqn:E; auto. apply String.eqb_eq in E. subst k. destruct (shows dv y); tauto. }
  assert (E2 : String.eqb k y && shows dv y = false). { destruct (String.eqb k y) eqn:E; auto. apply String.eqb_eq in E. subst k. destruct (shows dv y); tauto. }
  rewrite E1, E2. cbn [negb andb]. destruct (evicts dv k y); cbn [orb]; auto. destruct (existsb _ L); auto.
Qed.
Lemma run_own : forall dv a k v i b cfg, shows dv k = true -> (forall c, In c a -> ~ own dv k c) -> (forall c, In c b -> ~ own dv k c) ->
  (forall c, In c b -> kills dv c k = false) ->
  look k (run dv (a ++ It k v i :: b) cfg) = Some (below dv v (old (look k (run dv a cfg)))).
Proof.
  intros dv a k v i b cfg N A B K. rewrite run_app. cbn [run fold_left].
  change (fold_left (fun s c => enter dv c s) b (enter dv (It k v i) (run dv a cfg))) with (run dv b (enter dv (It k v i) (run dv a cfg))).
  rewrite run_other by auto. assert (E : existsb (fun c => kills dv c k) b = false).
  { destruct (existsb _ b) eqn:E; auto. apply existsb_exists in E. destruct E as (c & C1 & C2). rewrite K in C2; auto. }
  rewrite E, look_enter, N, String.eqb_refl. reflexivity.
Qed.

(** Same, from the lines *)
Lemma Same_look : forall l1 l2, full l1 -> full l2 -> (forall k, match look k l1, look k l2 with
    | None, None => True | Some a, Some b => Same a b | _, _ => False end) -> Same l1 l2.
Proof.
  intros l1 l2 [N1 F1] [N2 F2] H. constructor; auto.
  - intros k. specialize (H k). destruct (look k l1) eqn:E1, (look k l2) eqn:E2; try tauto.
    + apply look_Some in E1. apply look_Some in E2. destruct E1 as (v1 & i1 & I1 & _), E2 as (v2 & i2 & I2 & _).
      split; intros _; [change k with (ikey (It k v2 i2)) | change k with (ikey (It k v1 i1))]; apply in_map; auto.
    + apply look_None in E1. apply look_None in E2. tauto.
  - intros k v1 i1 v2 i2 I1 I2. specialize (H k). rewrite (look_In _ _ _ _ N1 I1), (look_In _ _ _ _ N2 I2) in H.
    destruct v1 as [w1 |], v2 as [w2 |]; [right; eauto | | | left; auto]; exfalso.
    + cbn in H. inversion H as [a b _ _ KS _ Ea Eb]; subst. destruct w1 as [| x w1]; [apply (F1 _ _ I1) |].
      destruct (proj1 (KS (ikey x)) (or_introl eq_refl)).
    + cbn in H. inversion H as [a b _ _ KS _ Ea Eb]; subst. destruct w2 as [| x w2]; [apply (F2 _ _ I2) |].
      destruct (proj2 (KS (ikey x)) (or_introl eq_refl)).
Qed.
Lemma look_Same : forall l1 l2, Same l1 l2 -> forall k, match look k l1, look k l2 with
    | None, None => True | Some a, Some b => Same a b | _, _ => False end.
Proof.
  intros l1 l2 H k. inversion H as [a b N1 N2 K V]; subst. destruct (look k l1) eqn:E1, (look k l2) eqn:E2; auto.
  - apply look_Some in E1. apply look_Some in E2. destruct E1 as (v1 & i1 & I1 & S1), E2 as (v2 & i2 & I2 & S2). subst.
    destruct (V _ _ _ _ _ I1 I2) as [[A B] | (w1 & w2 & A & B & C)]; subst; cbn; auto.
    apply same; cbn; [constructor | constructor | tauto | tauto].
  - apply look_None in E2. apply look_Some in E1. destruct E1 as (v1 & i1 & I1 & _). apply E2, K. change k with (ikey (It k v1 i1)). apply in_map. auto.
  - apply look_None in E1. apply look_Some in E2. destruct E2 as (v1 & i1 & I1 & _). apply E1, K. change k with (ikey (It k v1 i1)). apply in_map. auto.
Qed.
Lemma Same_full : forall l1 l2, Same l1 l2 -> full l2 -> full l1.
Proof.
  intros l1 l2 H [N2 F2]. inversion H as [a b N1 _ K V]; subst. split; auto. intros k i I1.
  assert (I2 : In k (keys l2)). { apply K. change k with (ikey (It k (Some []) i)). apply in_map. auto. }
  apply in_map_iff in I2. destruct I2 as ([k' v' i'] & E & I2). cbn in E. subst.
  destruct (V _ _ _ _ _ I1 I2) as [[A B] | (w1 & w2 & A & B & C)]; [discriminate |]. injection A as A. subst.
  inversion C as [a b _ _ KS _ Ea Eb]; subst. destruct w2 as [| x w2]; [apply (F2 _ _ I2) |].
  destruct (proj2 (KS (ikey x)) (or_introl eq_refl)).
Qed.
