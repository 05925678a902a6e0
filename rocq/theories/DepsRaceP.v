(** Proofs: threads that record dependencies at the same time, DepsM.v. *)
From Coq Require Import String Ascii List Bool Arith Permutation Lia.
From Verif Require Import Base BaseP XmlM RunningM DepictM DepsM DepsSpec DepsP.
Import ListNotations.
Open Scope string_scope.
Open Scope list_scope.

Definition busy (w : thread) : list stm :=
  match w with TCheck s | TNew s | TScan s | TRemove s _ | TAppend s | TFill s _ _ => [s] | TIdle | TDied => [] end.
Definition filling (w : thread) : list nat := match w with TFill _ _ n => [n] | _ => [] end.
Definition done (t : tree) : list stm := flat_map (fun e => match snd e with Some s => [s] | None => [] end) t.
Definition blank (t : tree) : list nat := flat_map (fun e : nat * option stm => match snd e with Some _ => [] | None => [fst e] end) t.
Definition quiet (r : nat) (w : thread) : Prop :=
  match w with TNew _ | TDied => False | TRemove _ l => l = [] | TFill _ r' _ => r' = r | _ => True end.

Record Inv (all : list stm) (r : nat) (g : shared) (ws : list thread) : Prop := {
  i_current : current g = Some r;
  i_tree : r < List.length (trees g);
  i_quiet : Forall (quiet r) ws;
  i_all : Permutation (done (get_tree g r) ++ flat_map busy ws ++ todo g) all;
  i_blank : Permutation (blank (get_tree g r)) (flat_map filling ws);
  i_ids : NoDup (map fst (get_tree g r));
  i_fresh : forall n, In n (map fst (get_tree g r)) -> n < fresh g }.

Lemma set_nth_get : forall A (l : list A) n x d, n < List.length l -> nth n (set_nth l n x) d = x /\ List.length (set_nth l n x) = List.length l.
Proof.
  induction l as [| y l IH]; intros n x d H; [cbn in H; lia |]. destruct n as [| n]; cbn [set_nth nth List.length]; [auto |].
  destruct (IH n x d) as (A1 & A2); [cbn in H; lia |]. auto.
Qed.
Lemma perm_move : forall A (d x y t : list A) s, Permutation (d ++ (x ++ s :: y) ++ t) (d ++ (x ++ y) ++ s :: t).
Proof.
  intros A d x y t s. apply Permutation_app_head. rewrite <- !app_assoc. apply Permutation_app_head. cbn [app]. rewrite Permutation_middle. reflexivity.
Qed.
Lemma quiet_mid : forall r a w w' b, Forall (quiet r) (a ++ w :: b) -> quiet r w' -> Forall (quiet r) (a ++ w' :: b).
Proof. intros r a w w' b H Q. apply Forall_app in H. destruct H as (A & B). inversion B; subst. apply Forall_app. split; [exact A |]. constructor; assumption. Qed.
Lemma quiet_at : forall r a w b, Forall (quiet r) (a ++ w :: b) -> quiet r w.
Proof. intros r a w b H. apply Forall_app in H. destruct H as (_ & B). inversion B; assumption. Qed.

Lemma fill_ids : forall n s t, map fst (fill n s t) = map fst t.
Proof.
  intros n s t. unfold fill. rewrite map_map. apply map_ext. intros (a, o). cbn [fst]. destruct (Nat.eqb_spec a n) as [-> |]; reflexivity.
Qed.
Lemma fill_other : forall n s t, ~ In n (map fst t) -> fill n s t = t.
Proof.
  intros n s t H. unfold fill. induction t as [| (a, o) t IH]; [reflexivity |]. cbn [map fst] in *. destruct (Nat.eqb_spec a n) as [-> |]; [exfalso; apply H; left; reflexivity |].
  rewrite IH; [reflexivity |]. intro I. apply H. right. exact I.
Qed.
Lemma fill_done : forall n s t, NoDup (map fst t) -> In n (blank t) ->
  Permutation (done (fill n s t)) (s :: done t) /\ Permutation (n :: blank (fill n s t)) (blank t).
Proof.
  intros n s t. induction t as [| (a, o) t IH]; intros N I; [destruct I |]. cbn [map fst] in N. inversion N as [| ? ? N1 N2]; subst.
  unfold fill. cbn [map]. fold (fill n s t). cbn [fst]. destruct (Nat.eqb_spec a n) as [-> | D].
  - rewrite (fill_other n s t N1). unfold done, blank in *. cbn [flat_map snd fst] in *. destruct o as [s' |].
    + exfalso. cbn [app] in I. apply N1. apply in_flat_map in I. destruct I as ((c, o) & J & H). cbn in H. destruct o; [destruct H |]. destruct H as [<- | []]. apply (in_map fst) in J. exact J.
    + cbn [app]. split; reflexivity.
  - unfold done, blank in *. cbn [flat_map snd fst] in *. destruct o as [s' |]; cbn [app] in *.
    + destruct (IH N2 I) as (P1 & P2). split; [rewrite P1; apply perm_swap | exact P2].
    + destruct I as [E | I]; [congruence |]. destruct (IH N2 I) as (P1 & P2). split; [exact P1 |]. rewrite perm_swap. constructor. exact P2.
Qed.
Lemma nodup_names : forall (all : list stm) d x y t s, NoDup (map s_arg all) -> Permutation (d ++ (x ++ s :: y) ++ t) all -> forall s', In s' d -> s_arg s' <> s_arg s.
Proof.
  intros all d x y t s N P s' I E. apply (Permutation_map s_arg) in P. apply (Permutation_NoDup (Permutation_sym P)) in N. rewrite map_app in N.
  apply in_split in I. destruct I as (d1 & d2 & ->). rewrite map_app, <- app_assoc in N. cbn [map app] in N. apply NoDup_remove_2 in N. apply N. rewrite !in_app_iff. right. right.
  rewrite E. apply in_map. rewrite !in_app_iff. left. right. left. reflexivity.
Qed.

Lemma run_len : forall k c c', Run k c c' -> List.length (snd c') = List.length (snd c).
Proof.
  intros k c c' R. induction R as [c | k c c1 c2 S R IH]; [reflexivity |]. rewrite IH. destruct S. cbn [snd]. rewrite !app_length. reflexivity.
Qed.
Lemma inv_step : forall all r c c', NoDup (map s_arg all) -> Inv all r (fst c) (snd c) -> step c c' -> Inv all r (fst c') (snd c').
Proof.
  intros all r c c' NA I S. destruct S as [g g' a w w' b E]. cbn [fst snd] in *. destruct I as [HC HT HQ HA HB HI HF].
  assert (Q := quiet_at _ _ _ _ HQ). rewrite flat_map_app in HA, HB. cbn [flat_map] in HA, HB.
  destruct w as [| s | s | s | s l | s | s r0 n |]; cbn [tstep busy filling quiet app] in *; try contradiction.
  - destruct (todo g) as [| s t] eqn:T; [discriminate |]. injection E as <- <-.
    constructor; cbn [current trees fresh todo]; auto.
    + eapply quiet_mid; [exact HQ | exact Logic.I].
    + rewrite flat_map_app. cbn [flat_map busy app]. rewrite perm_move. exact HA.
    + rewrite flat_map_app. cbn [flat_map filling app]. exact HB.
  - injection E as <- <-. rewrite HC. constructor; auto; try (rewrite flat_map_app; cbn [flat_map busy filling app]; assumption). eapply quiet_mid; [exact HQ | exact Logic.I].
  - rewrite HC in E. injection E as <- <-.
    assert (F : filter (same_id s) (get_tree g r) = []).
    { destruct (filter (same_id s) (get_tree g r)) as [| e l] eqn:Fl; [reflexivity |]. exfalso. assert (X : In e (filter (same_id s) (get_tree g r))) by (rewrite Fl; left; reflexivity).
      apply filter_In in X. destruct X as (Ie & X). unfold same_id in X. destruct (snd e) as [s' |] eqn:Se; [| discriminate]. apply String.eqb_eq in X.
      refine (nodup_names all _ _ _ _ _ NA HA s' _ X). unfold done. apply in_flat_map. exists e. split; [exact Ie |]. rewrite Se. left. reflexivity. }
    rewrite F. constructor; auto; try (rewrite flat_map_app; cbn [flat_map busy filling app]; assumption). eapply quiet_mid; [exact HQ | reflexivity].
  - subst l. injection E as <- <-. constructor; auto; try (rewrite flat_map_app; cbn [flat_map busy filling app]; assumption). eapply quiet_mid; [exact HQ | exact Logic.I].
  - rewrite HC in E. injection E as <- <-. destruct (set_nth_get _ (trees g) r (get_tree g r ++ [(fresh g, None)]) [] HT) as (G1 & G2).
    assert (GT : get_tree (Shared (set_nth (trees g) r (get_tree g r ++ [(fresh g, None)])) (Some r) (S (fresh g)) (todo g)) r = get_tree g r ++ [(fresh g, None)]) by exact G1.
    constructor; cbn [current trees fresh todo set_tree].
    + exact HC.
    + rewrite G2. exact HT.
    + eapply quiet_mid; [exact HQ | reflexivity].
    + rewrite HC, GT. unfold done in *. rewrite !flat_map_app. cbn [flat_map busy snd app]. rewrite app_nil_r. exact HA.
    + rewrite HC, GT. unfold blank in *. rewrite !flat_map_app. cbn [flat_map filling snd fst app]. rewrite HB. rewrite <- app_assoc. apply Permutation_app_head. symmetry. apply Permutation_cons_append.
    + rewrite HC, GT, map_app. cbn [map fst]. apply (Permutation_NoDup (Permutation_cons_append _ _)). constructor; [| exact HI]. intro X. apply HF in X. lia.
    + rewrite HC, GT. intros n. rewrite map_app, in_app_iff. cbn [map fst In]. intros [X | [<- | []]]; [apply HF in X; lia | lia].
  - subst r0. injection E as <- <-. destruct (set_nth_get _ (trees g) r (fill n s (get_tree g r)) [] HT) as (G1 & G2).
    assert (GT : get_tree (set_tree g r (fill n s (get_tree g r))) r = fill n s (get_tree g r)) by exact G1.
    assert (IB : In n (blank (get_tree g r))) by (apply (Permutation_in _ (Permutation_sym HB)); rewrite in_app_iff; right; left; reflexivity).
    destruct (fill_done n s (get_tree g r) HI IB) as (P1 & P2).
    constructor; rewrite ?GT; cbn [current trees fresh todo set_tree]; auto.
    + rewrite G2. exact HT.
    + eapply quiet_mid; [exact HQ | exact Logic.I].
    + rewrite flat_map_app. cbn [flat_map busy app]. rewrite P1, <- HA. cbn [app]. rewrite <- !app_assoc. cbn [app]. rewrite Permutation_middle, Permutation_middle. reflexivity.
    + rewrite flat_map_app. cbn [flat_map filling app]. apply (Permutation_cons_inv (a := n)). rewrite P2, HB. rewrite Permutation_middle. reflexivity.
    + rewrite fill_ids. exact HI.
    + rewrite fill_ids. exact HF.
Qed.
Lemma inv_steps : forall all r c c', NoDup (map s_arg all) -> Inv all r (fst c) (snd c) -> steps c c' -> Inv all r (fst c') (snd c').
Proof. intros all r c c' N I S. induction S as [| c c1 c2 S1 S2 IH]; [exact I |]. apply IH. eapply inv_step; eauto. Qed.

Lemma inv_begin : forall all n, Inv all 0 (begin all) (repeat TIdle n).
Proof.
  intros all n. assert (B : flat_map busy (repeat TIdle n) = [] /\ flat_map filling (repeat TIdle n) = []) by (induction n as [| n (A1 & A2)]; [split; reflexivity | cbn; auto]).
  destruct B as (B1 & B2). constructor; cbn; auto.
  - apply Forall_forall. intros w I. apply repeat_spec in I. subst w. exact Logic.I.
  - rewrite B1. reflexivity.
  - rewrite B2. reflexivity.
  - constructor.
  - intros k [].
Qed.
Lemma recorded_distinct : forall ss, NoDup (map s_arg ss) -> Recorded ss (map (fun s => fst (module_node s)) ss).
Proof.
  intros ss. induction ss as [| s ss IH] using rev_ind; intro N; [constructor |]. rewrite map_app in *. cbn [map] in *.
  assert (N' := Permutation_NoDup (Permutation_sym (Permutation_cons_append _ _)) N). inversion N' as [| ? ? N1 N2]; subst.
  replace (map (fun s => fst (module_node s)) ss ++ [fst (module_node s)]) with (fst (update_dependencies (map (fun s => fst (module_node s)) ss) s)); [constructor; apply IH; exact N2 |].
  unfold update_dependencies. destruct (module_node s) as (x, ok). cbn [fst]. f_equal. clear - N1. induction ss as [| t ss IH]; [reflexivity |]. cbn [map filter].
  assert (has_id (s_arg s) (fst (module_node t)) = false) as ->.
  { apply not_true_iff_false. rewrite has_id_ok. intro E. apply N1. left. exact E. }
  cbn [negb]. rewrite IH; [reflexivity |]. intro I. apply N1. right. exact I.
Qed.
Theorem race_free : forall all n g ws, NoDup (map s_arg all) -> steps (begin all, repeat TIdle n) (g, ws) ->
  ~ In TDied ws /\ (Finished g ws -> exists deps, Recorded all deps /\ Permutation (deps_of g) deps).
Proof.
  intros all n g ws N S. assert (I := inv_steps all 0 (begin all, repeat TIdle n) (g, ws) N (inv_begin all n) S). cbn [fst snd] in I. destruct I as [HC HT HQ HA HB HI HF]. split.
  - intro X. rewrite Forall_forall in HQ. exact (HQ TDied X).
  - intros (T & Id). assert (B : flat_map busy ws = [] /\ flat_map filling ws = []).
    { clear - Id. induction ws as [| w ws IH]; [split; reflexivity |]. destruct IH as (A1 & A2); [intros w' I; apply Id; right; exact I |]. rewrite (Id w (or_introl eq_refl)). cbn. auto. }
    destruct B as (B1 & B2). rewrite B1, T, !app_nil_r in HA. rewrite B2 in HB. apply Permutation_sym, Permutation_nil in HB.
    exists (map (fun s => fst (module_node s)) all). split; [apply recorded_distinct; exact N |]. unfold deps_of. rewrite HC.
    transitivity (map (fun s => fst (module_node s)) (done (get_tree g 0))); [| apply Permutation_map; exact HA].
    clear - HB. induction (get_tree g 0) as [| (a, o) t IH]; [reflexivity |]. unfold blank, done in *. cbn [flat_map snd fst map] in *. destruct o as [s |]; [| discriminate]. cbn [app map] in *. unfold node_of at 1. cbn [snd].
    constructor. apply IH. exact HB.
Qed.
(** Every run ends. *)
Definition left (w : thread) : nat :=
  match w with TIdle | TDied => 0 | TCheck _ | TNew _ => 5 | TScan _ => 4 | TRemove _ _ => 3 | TAppend _ => 2 | TFill _ _ _ => 1 end.
Definition togo (c : shared * list thread) : nat := 6 * List.length (todo (fst c)) + list_sum (map left (snd c)).
Lemma step_togo : forall all r c c', Inv all r (fst c) (snd c) -> step c c' -> togo c = S (togo c').
Proof.
  intros all r c c' I S. destruct S as [g g' a w w' b E]. destruct I as [HC HT HQ _ _ _ _]. assert (Q := quiet_at _ _ _ _ HQ). unfold togo. cbn [fst snd] in *.
  rewrite !map_app, !list_sum_app. cbn [map]. change (list_sum (left w :: map left b)) with (left w + list_sum (map left b)). change (list_sum (left w' :: map left b)) with (left w' + list_sum (map left b)).
  destruct w as [| s | s | s | s l | s | s r0 n |]; cbn [tstep quiet] in *; try contradiction.
  - destruct (todo g) as [| s t]; [discriminate |]. injection E as <- <-. cbn [todo List.length left]. lia.
  - rewrite HC in E. injection E as <- <-. cbn [left]. lia.
  - rewrite HC in E. injection E as <- <-. cbn [left]. lia.
  - subst l. injection E as <- <-. cbn [left]. lia.
  - rewrite HC in E. injection E as <- <-. cbn [todo set_tree left]. lia.
  - injection E as <- <-. cbn [todo set_tree left]. lia.
Qed.
Lemma run_togo : forall all k c c', NoDup (map s_arg all) -> Inv all 0 (fst c) (snd c) -> Run k c c' -> togo c = k + togo c' /\ Inv all 0 (fst c') (snd c').
Proof.
  intros all k c c' N I R. induction R as [c | k c c1 c2 S R IH]; [auto |]. destruct (IH (inv_step all 0 _ _ N I S)) as (E & I'). rewrite (step_togo all 0 c c1 I S), E. auto.
Qed.
Theorem race_ends : forall all n k g ws, NoDup (map s_arg all) -> Run k (begin all, repeat TIdle n) (g, ws) ->
  k <= 6 * List.length all /\ (0 < n -> (forall c, ~ step (g, ws) c) -> Finished g ws).
Proof.
  intros all n k g ws N R. assert (Rl := run_len _ _ _ R). destruct (run_togo all k (begin all, repeat TIdle n) (g, ws) N (inv_begin all n) R) as (E & I). split.
  - unfold togo in E. cbn [fst snd begin todo] in E. assert (Z : list_sum (map left (repeat TIdle n)) = 0) by (clear; induction n as [| n IH]; [reflexivity | exact IH]). rewrite Z in E. lia.
  - intros Pn St. cbn [fst snd] in *. destruct I as [HC HT HQ _ _ _ _]. rewrite repeat_length in Rl.
    assert (A : forall w, In w ws -> tstep g w = None).
    { intros w Iw. destruct (tstep g w) as [(g', w') |] eqn:Ts; [| reflexivity]. exfalso. apply in_split in Iw. destruct Iw as (a & b & ->). apply (St (g', a ++ w' :: b)). constructor. exact Ts. }
    assert (B : forall w, In w ws -> w = TIdle /\ todo g = []).
    { intros w Iw. assert (Ts := A w Iw). rewrite Forall_forall in HQ. assert (Q := HQ w Iw). destruct w as [| s | s | s | s l | s | s r0 m |]; cbn [tstep quiet] in *; try contradiction; try (rewrite HC in Ts); try discriminate.
      - destruct (todo g); [auto | discriminate].
      - subst l. discriminate. }
    destruct ws as [| w ws]; [cbn in Rl; lia |]. split; [apply (B w (or_introl eq_refl)) |]. intros w' Iw. apply B. exact Iw.
Qed.
(** The answers do not depend on the order of the nodes. *)
Theorem order_free : forall deps deps', Permutation deps deps' -> forall m,
  Permutation (fst (get_dependencies deps m)) (fst (get_dependencies deps' m)) /\ Permutation (snd (get_dependencies deps m)) (snd (get_dependencies deps' m)) /\
  Permutation (namespaces deps) (namespaces deps').
Proof.
  intros deps deps' P m.
  assert (F : forall (f : xml -> bool), Permutation (filter f deps) (filter f deps')).
  { intro f. induction P as [| x l l' P IH | x y l | l l' l'' P1 IH1 P2 IH2]; cbn [filter]; [reflexivity | destruct (f x); [constructor |]; exact IH | | etransitivity; eauto].
    destruct (f x), (f y); try reflexivity. apply perm_swap. }
  cbn [get_dependencies fst snd]. repeat split; apply Permutation_flat_map; apply F.
Qed.

(** ** What goes wrong *)
(** [go i] lets thread [i] make a step. *)
Definition go (i : nat) (c : shared * list thread) : option (shared * list thread) :=
  match nth_error (snd c) i with
  | Some w => match tstep (fst c) w with Some (g', w') => Some (g', firstn i (snd c) ++ w' :: skipn (S i) (snd c)) | None => None end
  | None => None
  end.
Lemma go_step : forall i c c', go i c = Some c' -> step c c'.
Proof.
  intros i (g, ws) c' H. unfold go in H. cbn [fst snd] in H. destruct (nth_error ws i) as [w |] eqn:E; [| discriminate]. destruct (tstep g w) as [(g', w') |] eqn:T; [| discriminate]. injection H as <-.
  assert (W : ws = firstn i ws ++ w :: skipn (S i) ws).
  { clear - E. revert i E. induction ws as [| x ws IH]; intros [| i] E; try discriminate; cbn in *; [injection E as ->; reflexivity |]. f_equal. apply IH. exact E. }
  rewrite W at 1. constructor. exact T.
Qed.
Fixpoint goes (l : list nat) (c : shared * list thread) : option (shared * list thread) :=
  match l with [] => Some c | i :: r => match go i c with Some c' => goes r c' | None => None end end.
Lemma goes_steps : forall l c c', goes l c = Some c' -> steps c c'.
Proof.
  induction l as [| i l IH]; intros c c' H; cbn in H; [injection H as <-; constructor |]. destruct (go i c) as [c1 |] eqn:E; [| discriminate].
  econstructor; [apply (go_step i); exact E |]. apply IH. exact H.
Qed.
Theorem entry_lost : forall a b, exists g ws, steps (begin_none [a; b], [TIdle; TIdle]) (g, ws) /\ Finished g ws /\ deps_of g = [fst (module_node b)].
Proof.
  intros a b. eexists. eexists. split; [apply (goes_steps [0; 1; 0; 1; 0; 0; 0; 0; 0; 1; 1; 1; 1; 1]); cbv -[same_id s_arg]; reflexivity |].
  split; [split; [reflexivity |]; intros w [<- | [<- | []]]; reflexivity |]. reflexivity.
Qed.
Theorem thread_dies : forall a b c, s_arg a = s_arg b -> s_arg b = s_arg c ->
  exists g ws, steps (begin_none [a; b; c], [TIdle; TIdle]) (g, ws) /\ In TDied ws.
Proof.
  intros a b c E1 E2. eexists. eexists. split.
  - eapply (goes_steps [0; 0; 0; 0; 0; 0; 0;  0; 0; 1; 1; 0; 1; 0; 1]). cbv -[String.eqb s_arg]. rewrite E1, E2, !String.eqb_refl. cbv -[String.eqb s_arg]. reflexivity.
  - cbn. auto.
Qed.
(** Two threads with the same name that look before either has appended *)
Theorem entry_twice : forall a b, s_arg a = s_arg b -> exists g ws, steps (begin [a; b], [TIdle; TIdle]) (g, ws) /\ Finished g ws /\
  gets "id" (deps_of g) = [s_arg a; s_arg a].
Proof.
  intros a b E. eexists. eexists. split; [apply (goes_steps [0; 1; 0; 1; 0; 1; 0; 1; 0; 1; 0; 1]); cbv -[same_id s_arg]; reflexivity |].
  split; [split; [reflexivity |]; intros w [<- | [<- | []]]; reflexivity |].
  unfold deps_of, get_tree. cbn [current trees nth map node_of snd]. unfold gets. cbn [flat_map]. rewrite !node_id, E. reflexivity.
Qed.
