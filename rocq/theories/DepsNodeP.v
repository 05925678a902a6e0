(** Proofs: what the record of a module says of it, for C74. *)
From Coq Require Import String Ascii List Bool Arith Lia.
From Verif Require Import Base BaseP XmlM DepictM DepsM DepsSpec DepsP DepsNodeSpec.
Import ListNotations.
Open Scope string_scope.
Open Scope list_scope.

Lemma Args_iff : forall k subs l, Args k subs l <-> l = map s_arg (filter (kw_is k) subs).
Proof.
  intros k subs. induction subs as [| x r IH]; intros l; cbn [filter].
  - split; [intros H; inversion H; reflexivity | intros ->; constructor].
  - destruct (kw_is k x) eqn:E; cbn [map].
    + apply kw_is_ok in E. split.
      * intros H. inversion H; subst; [f_equal; apply IH; assumption | contradiction].
      * intros ->. apply ar_take; [exact E | apply IH; reflexivity].
    + assert (N : s_kw x <> Kw k) by (intros G; apply kw_is_ok in G; congruence). split.
      * intros H. inversion H; subst; [contradiction | apply IH; assumption].
      * intros ->. apply ar_skip; [exact N | apply IH; reflexivity].
Qed.

Lemma First_one : forall k s v w, First k s v -> First k s w -> v = w.
Proof.
  intros k s v w A B. apply search_one_some in A. apply search_one_some in B.
  destruct A as (x & A & <-). destruct B as (y & B & <-). congruence.
Qed.

Definition import_of (x : string * string) : xml := let '(m, p) := x in Elem "import" None [("module", m); ("prefix", p)] [].
Lemma import_nodes_args : forall subs, (forall x, In x subs -> s_kw x = Kw "import" -> exists p, First "prefix" x p) ->
  exists l, ImportArgs subs l /\ import_nodes (filter (kw_is "import") subs) = (map import_of l, true) /\
    forall l', ImportArgs subs l' -> l' = l.
Proof.
  induction subs as [| x r IH]; intros C; cbn [filter].
  - exists []. split; [constructor |]. split; [reflexivity |]. intros l' H. inversion H. reflexivity.
  - destruct IH as (l & A & B & U); [intros y I; apply C; right; exact I |]. destruct (kw_is "import" x) eqn:E.
    + apply kw_is_ok in E. destruct (C x (or_introl eq_refl) E) as (p & P). exists ((s_arg x, p) :: l).
      split; [constructor; assumption |]. split.
      * cbn [import_nodes]. assert (Q := P). apply search_one_some in Q. destruct Q as (y & Q & <-). rewrite Q, B. reflexivity.
      * intros l' H. inversion H as [| ? p' ? l0 K F I | ? ? ? K I]; subst; [| contradiction].
        rewrite (First_one _ _ _ _ F P). f_equal. apply U. assumption.
    + assert (N : s_kw x <> Kw "import") by (intros G; apply kw_is_ok in G; congruence). exists l.
      split; [apply im_skip; assumption |]. split; [exact B |]. intros l' H. inversion H; subst; [contradiction | auto].
Qed.

Lemma group_In : forall g k a s c, In c (group g k a s) <->
  exists l, Args k (s_subs s) l /\ l <> [] /\ c = Elem g None [] (map (fun v => Elem k None [(a, v)] []) l).
Proof.
  intros g k a s c. unfold group, search.
  assert (M : forall q, map (fun x => Elem k None [(a, s_arg x)] []) q = map (fun v => Elem k None [(a, v)] []) (map s_arg q))
    by (intros q; rewrite map_map; reflexivity).
  split.
  - destruct (filter (kw_is k) (s_subs s)) as [| x q] eqn:E; intros H; [destruct H |]. destruct H as [<- | []].
    exists (map s_arg (x :: q)). split; [apply Args_iff; rewrite E; reflexivity |]. split; [discriminate |]. rewrite M. reflexivity.
  - intros (l & A & N & ->). apply Args_iff in A. subst l. destruct (filter (kw_is k) (s_subs s)) as [| x q] eqn:E; [contradiction |].
    left. rewrite M. reflexivity.
Qed.
Lemma group_short : forall g k a s, group g k a s = [] \/ exists ks, group g k a s = [Elem g None [] ks].
Proof. intros g k a s. unfold group. destruct (search k s); [left; reflexivity | right; eexists; reflexivity]. Qed.

Lemma node_record : forall s k, Complete s -> s_kw s = Kw k -> Record_of s (fst (module_node s)).
Proof.
  intros s k C K.
  assert (E : exists attrs, fst (module_node s) = Elem "module" None attrs (xkids (fst (module_node s))) /\
    attrs = [("id", s_arg s); ("type", k)] ++ (if kw_is "module" s then match search_one "prefix" s with Some p => [("prefix", s_arg p)] | None => [] end else [])).
  { eexists. split; [| reflexivity]. unfold module_node. destruct (import_group s) as [ks ok]. cbn [fst xkids].
    f_equal. unfold kw_text. rewrite K. reflexivity. }
  destruct E as (attrs & E & A). rewrite E. clear E. rewrite node_kids.
  rewrite (proj2 (import_group_ok s) C).
  destruct (import_nodes_args (s_subs s) C) as (l & L & N & U).
  assert (IG : fst (import_group s) = match l with [] => [] | _ => [Elem "imports" None [] (map import_of l)] end).
  { unfold import_group, search. destruct (filter (kw_is "import") (s_subs s)) as [| x q] eqn:E.
    - cbn in N. injection N as N. destruct l; [reflexivity | discriminate].
    - rewrite N. cbn [fst]. destruct l as [| y l]; [| reflexivity]. exfalso. cbn [import_nodes] in N.
      destruct (search_one "prefix" x); [destruct (import_nodes q) |]; discriminate. }
  rewrite IG. apply (record_of s attrs _ k K).
  - intros n v. rewrite A. cbn [app]. split.
    + intros [H | [H | H]]; [injection H as <- <-; auto | injection H as <- <-; auto |].
      destruct (kw_is "module" s) eqn:M; [| destruct H]. apply kw_is_ok in M.
      destruct (search_one "prefix" s) as [p |] eqn:P; [| destruct H]. destruct H as [H | []]. injection H as <- <-.
      right. right. split; [reflexivity |]. split; [congruence |]. apply search_one_some. exists p. auto.
    + intros [(-> & ->) | [(-> & ->) | (-> & -> & F)]]; [left; reflexivity | right; left; reflexivity |]. right. right.
      rewrite (proj2 (kw_is_ok "module" s) K). apply search_one_some in F. destruct F as (p & -> & <-). left. reflexivity.
  - rewrite A. destruct (kw_is "module" s); [destruct (search_one "prefix" s) |]; cbn; repeat constructor; cbn; intuition discriminate.
  - unfold ns_part, belongs_part, rest_part, roots_part.
    destruct (group_short "includes" "include" "module" s) as [-> | (k1 & ->)];
    destruct (group_short "revisions" "revision" "date" s) as [-> | (k2 & ->)];
    destruct (group_short "augments" "augment" "xpath" s) as [-> | (k3 & ->)];
    destruct (group_short "deviations" "deviation" "xpath" s) as [-> | (k4 & ->)];
    destruct (exposes s); destruct l; 
    (destruct (kw_is "module" s); [destruct (search_one "namespace" s) |]);
    (destruct (kw_is "submodule" s); [destruct (search_one "belongs-to" s) |]);
    cbn; repeat constructor; cbn; intuition discriminate.
  - intros c. rewrite !in_app_iff. unfold rest_part. rewrite !in_app_iff, !group_In. unfold ns_part, belongs_part, roots_part. split.
    + intros [H | [H | [H | [H | [H | [H | [H | H]]]]]]].
      * destruct (kw_is "module" s) eqn:M; [| destruct H]. destruct (search_one "namespace" s) as [u |] eqn:P; [| destruct H].
        destruct H as [<- | []]. apply p_ns; [apply kw_is_ok; exact M |]. apply search_one_some. eauto.
      * destruct (kw_is "submodule" s) eqn:M; [| destruct H]. destruct (search_one "belongs-to" s) as [u |] eqn:P; [| destruct H].
        destruct H as [<- | []]. apply p_belongs; [apply kw_is_ok; exact M |]. apply search_one_some. eauto.
      * destruct H as (q & H1 & H2 & ->). apply p_group; [cbn; tauto | exact H1 | exact H2].
      * destruct l as [| y l]; [destruct H |]. destruct H as [<- | []]. apply p_imports; [exact L | discriminate].
      * destruct H as (q & H1 & H2 & ->). apply p_group; [cbn; tauto | exact H1 | exact H2].
      * destruct H as (q & H1 & H2 & ->). apply p_group; [cbn; tauto | exact H1 | exact H2].
      * destruct H as (q & H1 & H2 & ->). apply p_group; [cbn; tauto | exact H1 | exact H2].
      * destruct (exposes s) eqn:X; [| destruct H]. destruct H as [<- | []]. apply p_roots. apply exposes_ok. exact X.
    + intros P. destruct P as [u M F | b M F | g kk a q I R Q | q R Q | V].
      * left. rewrite (proj2 (kw_is_ok "module" s) M). apply search_one_some in F. destruct F as (p & -> & <-). left. reflexivity.
      * right. left. rewrite (proj2 (kw_is_ok "submodule" s) M). apply search_one_some in F. destruct F as (p & -> & <-). left. reflexivity.
      * cbn in I. destruct I as [I | [I | [I | [I | []]]]]; injection I as <- <- <-.
        -- right. right. left. eauto.
        -- right. right. right. right. left. eauto.
        -- right. right. right. right. right. left. eauto.
        -- right. right. right. right. right. right. left. eauto.
      * right. right. right. left. rewrite (U q R) in *. destruct l; [contradiction | left; reflexivity].
      * right. right. right. right. right. right. right. apply exposes_ok in V. rewrite V. left. reflexivity.
Qed.

Lemma deps_records : forall ss deps, Recorded ss deps -> (forall s, In s ss -> Complete s /\ exists k, s_kw s = Kw k) ->
  (forall x, In x deps -> exists s, Latest ss s /\ Record_of s x) /\ (forall s, Latest ss s -> exists x, In x deps /\ Record_of s x).
Proof.
  intros ss deps R H. split.
  - intros x I. apply (recorded_In ss deps R) in I. destruct I as (s & L & ->). exists s. split; [exact L |].
    destruct (H s (latest_In ss s L)) as (C & k & K). exact (node_record s k C K).
  - intros s L. exists (fst (module_node s)). split; [apply (recorded_In ss deps R); eauto |].
    destruct (H s (latest_In ss s L)) as (C & k & K). exact (node_record s k C K).
Qed.
