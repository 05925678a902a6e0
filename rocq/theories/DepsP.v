(** Proofs about DepsM.v. *)
From Coq Require Import String Ascii List Bool Arith Permutation Lia.
From Verif Require Import Base BaseP XmlM RunningM RegexP DepictM DepsM DepsSpec.
Import ListNotations.
Open Scope string_scope.
Open Scope list_scope.

Lemma kw_is_ok : forall k s, kw_is k s = true <-> s_kw s = Kw k.
Proof. intros k s. unfold kw_is. destruct (s_kw s) as [w |]; [rewrite String.eqb_eq |]; split; congruence. Qed.
Lemma search_In : forall k s n, In n (map s_arg (search k s)) <-> Names k s n.
Proof.
  intros k s n. unfold Names, search. rewrite in_map_iff. split.
  - intros (x & E & I). apply filter_In in I. destruct I as (I & K). apply kw_is_ok in K. eauto.
  - intros (x & I & K & E). exists x. split; [exact E |]. apply filter_In. split; [exact I | apply kw_is_ok; exact K].
Qed.
Lemma search_one_some : forall k s v, (exists x, search_one k s = Some x /\ s_arg x = v) <-> First k s v.
Proof.
  intros k s v. unfold search_one, search, First. generalize (s_subs s) as l. induction l as [| y l IH]; cbn [filter].
  - split; [intros (x & E & _); discriminate | intros (l & x & r & E & _); destruct l; discriminate].
  - destruct (kw_is k y) eqn:K.
    + apply kw_is_ok in K. split.
      * intros (x & E & V). assert (x = y) by congruence. subst x. exists [], y, l. repeat split; auto.
      * intros (a & x & r & E & N & Kx & V). destruct a as [| z a].
        -- cbn in E. injection E as -> ->. eauto.
        -- cbn in E. injection E as <- ->. exfalso. exact (N y (or_introl eq_refl) K).
    + rewrite IH. assert (NK : s_kw y <> Kw k) by (rewrite <- kw_is_ok; congruence). split.
      * intros (a & x & r & -> & N & Kx & V). exists (y :: a), x, r. repeat split; auto. intros z [<- | I]; auto.
      * intros (a & x & r & E & N & Kx & V). destruct a as [| z a]; cbn in E; injection E as E1 E2; [subst; contradiction |].
        exists a, x, r. subst. repeat split; auto. intros w I. apply N. right. exact I.
Qed.
Lemma search_one_none : forall k s, search_one k s = None <-> Lacks k s.
Proof.
  intros k s. unfold search_one, search, Lacks. split.
  - intros H y I K. apply kw_is_ok in K. assert (X : In y (filter (kw_is k) (s_subs s))) by (apply filter_In; auto). destruct (filter _ _); [destruct X | discriminate].
  - intro H. destruct (filter (kw_is k) (s_subs s)) as [| x l] eqn:E; [reflexivity |]. exfalso. assert (X : In x (x :: l)) by (left; reflexivity). rewrite <- E in X.
    apply filter_In in X. destruct X as (I & K). apply kw_is_ok in K. exact (H x I K).
Qed.

(** ** One node *)
Lemma import_nodes_ok : forall l, snd (import_nodes l) = true <-> forall x, In x l -> exists p, First "prefix" x p.
Proof.
  induction l as [| x l IH]; cbn [import_nodes]; [split; [intros _ x [] | reflexivity] |].
  destruct (search_one "prefix" x) as [p |] eqn:E.
  - destruct (import_nodes l) as (ks, ok) eqn:N. cbn [snd] in *. rewrite IH. split; [| intros H y I; apply H; right; exact I].
    intros H y [<- | I]; [| apply H; exact I]. exists (s_arg p). apply search_one_some. eauto.
  - cbn [snd]. split; [discriminate |]. intro H. destruct (H x (or_introl eq_refl)) as (p & F). apply search_one_some in F. destruct F as (y & F & _). congruence.
Qed.
Lemma import_nodes_tags : forall l x, In x (fst (import_nodes l)) -> xtag x = "import".
Proof.
  induction l as [| y l IH]; intros x I; cbn [import_nodes] in I; [destruct I |]. destruct (search_one "prefix" y); [| destruct I as [<- | []]; reflexivity].
  destruct (import_nodes l) as (ks, ok) eqn:N. destruct I as [<- | I]; [reflexivity |]. apply IH. exact I.
Qed.
Lemma import_nodes_gets : forall l, snd (import_nodes l) = true -> gets "module" (fst (import_nodes l)) = map s_arg l.
Proof.
  induction l as [| y l IH]; intro H; cbn [import_nodes] in *; [reflexivity |]. destruct (search_one "prefix" y); [| discriminate].
  destruct (import_nodes l) as (ks, ok) eqn:N. cbn [fst snd] in *. unfold gets in *. cbn [flat_map map]. rewrite (IH H). reflexivity.
Qed.
Lemma import_group_ok : forall s, snd (import_group s) = true <-> Complete s.
Proof.
  intro s. assert (snd (import_group s) = snd (import_nodes (search "import" s))) as ->.
  { unfold import_group. destruct (search "import" s) as [| x l]; [reflexivity |]. destruct (import_nodes (x :: l)); reflexivity. }
  rewrite import_nodes_ok. unfold Complete, search. split.
  - intros H x I K. apply H. apply filter_In. split; [exact I | apply kw_is_ok; exact K].
  - intros H x I. apply filter_In in I. destruct I as (I & K). apply H; [exact I | apply kw_is_ok; exact K].
Qed.
Lemma node_ok : forall s, snd (module_node s) = true <-> Complete s.
Proof. intro s. rewrite <- import_group_ok. unfold module_node. destruct (import_group s) as (i, ok). reflexivity. Qed.

Lemma node_tag : forall s, xtag (fst (module_node s)) = "module".
Proof. intro s. unfold module_node. destruct (import_group s) as (i, ok). reflexivity. Qed.
Lemma node_id : forall s, get_attr "id" (fst (module_node s)) = Some (s_arg s).
Proof. intro s. unfold module_node. destruct (import_group s) as (i, ok). reflexivity. Qed.
Lemma node_prefix : forall s p, get_attr "prefix" (fst (module_node s)) = Some p <-> s_kw s = Kw "module" /\ First "prefix" s p.
Proof.
  intros s p. rewrite <- kw_is_ok, <- search_one_some. unfold module_node. destruct (import_group s) as (i, ok). unfold get_attr. cbn [fst xattrs app assoc]. cbn [String.eqb Ascii.eqb Bool.eqb].
  destruct (kw_is "module" s); [| split; [discriminate | intros (E & _); discriminate]].
  destruct (search_one "prefix" s) as [x |]; cbn [assoc]; [cbn [String.eqb Ascii.eqb Bool.eqb] |]; split.
  - intro E. split; [reflexivity |]. exists x. split; congruence.
  - intros (_ & y & E & V). congruence.
  - discriminate.
  - intros (_ & y & E & _). discriminate.
Qed.

Definition tagged (t : string) (l : list xml) : list xml := filter (fun c => String.eqb (xtag c) t) l.
Lemma tagged_none : forall t l, (forall x, In x l -> xtag x <> t) -> tagged t l = [].
Proof.
  intros t l H. unfold tagged. induction l as [| x l IH]; [reflexivity |]. cbn [filter]. destruct (String.eqb_spec (xtag x) t) as [E | E]; [exfalso; exact (H x (or_introl eq_refl) E) |].
  apply IH. intros y I. apply H. right. exact I.
Qed.
Lemma tagged_all : forall t l, (forall x, In x l -> xtag x = t) -> tagged t l = l.
Proof.
  intros t l H. unfold tagged. induction l as [| x l IH]; [reflexivity |]. cbn [filter]. rewrite (H x (or_introl eq_refl)), String.eqb_refl. f_equal. apply IH. intros y I. apply H. right. exact I.
Qed.
Lemma tagged_app : forall t a b, tagged t (a ++ b) = tagged t a ++ tagged t b.
Proof. intros. apply filter_app. Qed.
Lemma group_tag : forall p c a s x, In x (group p c a s) -> xtag x = p.
Proof. intros p c a s x I. unfold group in I. destruct (search c s); [destruct I | destruct I as [<- | []]; reflexivity]. Qed.
Lemma imports_tag : forall s x, In x (fst (import_group s)) -> xtag x = "imports".
Proof. intros s x I. unfold import_group in I. destruct (search "import" s); [destruct I |]. destruct (import_nodes _). destruct I as [<- | []]; reflexivity. Qed.
Definition ns_part (s : stm) : list xml :=
  if kw_is "module" s then match search_one "namespace" s with Some u => [Elem "namespace" (Some (s_arg u)) [] []] | None => [] end else [].
Definition belongs_part (s : stm) : list xml :=
  if kw_is "submodule" s then match search_one "belongs-to" s with Some b => [Elem "belongs-to" None [("module", s_arg b)] []] | None => [] end else [].
Lemma ns_tag : forall s x, In x (ns_part s) -> xtag x = "namespace".
Proof. intros s x I. unfold ns_part in I. destruct (kw_is "module" s); [| destruct I]. destruct (search_one "namespace" s); [destruct I as [<- | []]; reflexivity | destruct I]. Qed.
Lemma belongs_tag : forall s x, In x (belongs_part s) -> xtag x = "belongs-to".
Proof. intros s x I. unfold belongs_part in I. destruct (kw_is "submodule" s); [| destruct I]. destruct (search_one "belongs-to" s); [destruct I as [<- | []]; reflexivity | destruct I]. Qed.
Definition roots_part (s : stm) : list xml := if exposes s then [Elem "roots" None [] []] else [].
Definition rest_part (s : stm) : list xml :=
  group "revisions" "revision" "date" s ++ group "augments" "augment" "xpath" s ++ group "deviations" "deviation" "xpath" s ++ roots_part s.
Lemma rest_tag : forall s x, In x (rest_part s) -> In (xtag x) ["revisions"; "augments"; "deviations"; "roots"].
Proof.
  intros s x I. unfold rest_part, roots_part in I. rewrite !in_app_iff in I. destruct I as [I | [I | [I | I]]]; try (apply group_tag in I; rewrite I; cbn; tauto).
  destruct (exposes s); [destruct I as [<- | []]; cbn; tauto | destruct I].
Qed.
Lemma node_kids : forall s, xkids (fst (module_node s)) = ns_part s ++ belongs_part s ++ group "includes" "include" "module" s ++ fst (import_group s) ++ (if snd (import_group s) then rest_part s else []).
Proof. intro s. unfold module_node. destruct (import_group s) as (i, ok). reflexivity. Qed.
Ltac notag := apply tagged_none; intros x I;
  first [apply ns_tag in I; rewrite I; discriminate | apply belongs_tag in I; rewrite I; discriminate | apply group_tag in I; rewrite I; discriminate | apply imports_tag in I; rewrite I; discriminate
        | destruct (snd (import_group _)); [apply rest_tag in I; let E := fresh in intro E; rewrite E in I; cbn in I; intuition discriminate | destruct I]].
Lemma node_imports : forall s, Complete s -> gets "module" (find2 "imports" "import" (fst (module_node s))) = map s_arg (search "import" s).
Proof.
  intros s C. apply import_group_ok in C. unfold find2. fold (tagged "imports" (xkids (fst (module_node s)))). rewrite node_kids, !tagged_app.
  assert (tagged "imports" (ns_part s) = []) as -> by notag. assert (tagged "imports" (belongs_part s) = []) as -> by notag.
  assert (tagged "imports" (group "includes" "include" "module" s) = []) as -> by notag.
  assert (tagged "imports" (if snd (import_group s) then rest_part s else []) = []) as -> by notag.
  cbn [app]. rewrite app_nil_r, (tagged_all "imports") by (intros x I; apply (imports_tag s); exact I).
  unfold import_group in *. destruct (search "import" s) as [| y l]; [reflexivity |]. destruct (import_nodes (y :: l)) as (ks, ok) eqn:N. cbn [fst snd flat_map xkids] in *. rewrite app_nil_r.
  fold (tagged "import" ks). assert (K : ks = fst (import_nodes (y :: l))) by (rewrite N; reflexivity). rewrite K, tagged_all by (apply import_nodes_tags).
  apply import_nodes_gets. rewrite N. exact C.
Qed.
Lemma node_includes : forall s, gets "module" (find2 "includes" "include" (fst (module_node s))) = map s_arg (search "include" s).
Proof.
  intros s. unfold find2. fold (tagged "includes" (xkids (fst (module_node s)))). rewrite node_kids, !tagged_app.
  assert (tagged "includes" (ns_part s) = []) as -> by notag. assert (tagged "includes" (belongs_part s) = []) as -> by notag.
  assert (tagged "includes" (fst (import_group s)) = []) as -> by notag.
  assert (tagged "includes" (if snd (import_group s) then rest_part s else []) = []) as -> by notag.
  cbn [app]. rewrite app_nil_r, (tagged_all "includes") by (intros x I; apply group_tag in I; exact I).
  unfold group. destruct (search "include" s) as [| y l]; [reflexivity |]. cbn [flat_map xkids]. rewrite app_nil_r. fold (tagged "include" (map (fun x => Elem "include" None [("module", s_arg x)] []) (y :: l))).
  rewrite tagged_all by (intros x I; apply in_map_iff in I; destruct I as (z & <- & _); reflexivity).
  generalize (y :: l) as k. induction k as [| z k IH]; [reflexivity |]. unfold gets in *. cbn [map flat_map]. rewrite IH. reflexivity.
Qed.
Lemma node_ns : forall s, s_kw s = Kw "module" -> forall u,
  match filter (fun c => String.eqb (xtag c) "namespace") (xkids (fst (module_node s))) with c :: _ => xtext c | [] => None end = u <->
  (u = None /\ Lacks "namespace" s) \/ exists v, u = Some v /\ First "namespace" s v.
Proof.
  intros s K u. fold (tagged "namespace" (xkids (fst (module_node s)))). rewrite node_kids, !tagged_app.
  rewrite (tagged_all "namespace" (ns_part s)) by (intros x I; apply (ns_tag s); exact I). assert (tagged "namespace" (belongs_part s) = []) as -> by notag.
  assert (tagged "namespace" (group "includes" "include" "module" s) = []) as -> by notag. assert (tagged "namespace" (fst (import_group s)) = []) as -> by notag.
  assert (tagged "namespace" (if snd (import_group s) then rest_part s else []) = []) as -> by notag. cbn [app]. rewrite app_nil_r.
  unfold ns_part. rewrite (proj2 (kw_is_ok _ _) K). rewrite <- search_one_none. destruct (search_one "namespace" s) as [x |] eqn:E.
  - cbn [xtext]. split.
    + intros <-. right. exists (s_arg x). split; [reflexivity |]. apply search_one_some. eauto.
    + intros [(_ & X) | (v & -> & F)]; [discriminate |]. apply search_one_some in F. destruct F as (y & F & <-). congruence.
  - split.
    + intros <-. left. auto.
    + intros [(-> & _) | (v & -> & F)]; [reflexivity |]. apply search_one_some in F. destruct F as (y & F & _). congruence.
Qed.
Lemma contains_ok : forall a b, contains a b = true <-> exists x y, b = (x ++ a ++ y)%string.
Proof.
  intros a b. induction b as [| c b IH]; cbn [contains]; rewrite orb_true_iff.
  - split.
    + intros [H | H]; [| discriminate]. apply starts_eq in H. exists "", (sdrop (String.length a) ""). exact H.
    + intros (x & y & E). left. destruct x; [| discriminate]. destruct a; [reflexivity | discriminate].
  - rewrite IH. split.
    + intros [H | (x & y & ->)]; [apply starts_eq in H; exists ""; eauto |]. exists (String c x), y. reflexivity.
    + intros (x & y & E). destruct x as [| d x]; [left | right; cbn in E; injection E as <- ->; eauto].
      cbn [String.append] in E. rewrite E. apply starts_app.
Qed.
Lemma exposes_ok : forall s, exposes s = true <-> Visible s.
Proof.
  intro s. unfold exposes, Visible. rewrite existsb_exists. split.
  - intros (k & Ik & H). apply existsb_exists in H. destruct H as (x & I & H). apply filter_In in I. destruct I as (I & K). apply kw_is_ok in K.
    exists x, k. split; [exact I |]. split; [exact K |]. split; [exact Ik |]. intros y Iy a b E. apply negb_true_iff in H.
    assert (X : existsb is_hidden (s_subs x) = true); [| congruence]. apply existsb_exists. exists y. split; [exact Iy |]. unfold is_hidden. rewrite E, String.eqb_refl, andb_true_r.
    apply contains_ok. eauto.
  - intros (x & k & I & K & Ik & H). exists k. split; [exact Ik |]. apply existsb_exists. exists x. split; [apply filter_In; split; [exact I | apply kw_is_ok; exact K] |].
    apply negb_true_iff. destruct (existsb is_hidden (s_subs x)) eqn:E; [| reflexivity]. exfalso. apply existsb_exists in E. destruct E as (y & Iy & Hy). unfold is_hidden in Hy.
    destruct (s_kw y) as [w | m w] eqn:Ky; [discriminate |]. apply andb_true_iff in Hy. destruct Hy as (Hm & Hw). apply String.eqb_eq in Hw. apply contains_ok in Hm. destruct Hm as (a & b & ->). subst w.
    exact (H y Iy a b Ky).
Qed.
Lemma node_roots : forall s, Complete s -> ((exists x, In x (xkids (fst (module_node s))) /\ xtag x = "roots") <-> Visible s).
Proof.
  intros s C. rewrite <- exposes_ok. rewrite node_kids. rewrite (proj2 (import_group_ok s) C). split.
  - intros (x & I & T). rewrite !in_app_iff in I. destruct I as [I | [I | [I | [I | I]]]].
    + apply ns_tag in I. congruence.
    + apply belongs_tag in I. congruence.
    + apply group_tag in I. congruence.
    + apply imports_tag in I. congruence.
    + unfold rest_part, roots_part in I. rewrite !in_app_iff in I. destruct I as [I | [I | [I | I]]]; try (apply group_tag in I; congruence). destruct (exposes s); [reflexivity | destruct I].
  - intro E. exists (Elem "roots" None [] []). split; [| reflexivity]. unfold rest_part, roots_part. rewrite E. rewrite !in_app_iff. cbn. tauto.
Qed.

(** ** The record *)
Lemma has_id_ok : forall n s, has_id n (fst (module_node s)) = true <-> s_arg s = n.
Proof. intros n s. unfold has_id, eq_opt. rewrite node_id. apply String.eqb_eq. Qed.
Lemma latest_snoc : forall ss s t, Latest (ss ++ [t]) s <-> s = t \/ (Latest ss s /\ s_arg t <> s_arg s).
Proof.
  intros ss s t. split.
  - intros (l & r & E & N). destruct (exists_last (l := s :: r)) as (r' & z & Er); [discriminate |]. rewrite Er, app_assoc in E. apply app_inj_tail in E. destruct E as (E & <-).
    destruct r' as [| s0 r']; cbn in Er; injection Er as E1 E2; [left; congruence |]. subst s0. right. split.
    + exists l, r'. split; [exact E |]. intros s' I. apply N. rewrite E2. apply in_app_iff. left. exact I.
    + apply N. rewrite E2. apply in_app_iff. right. left. reflexivity.
  - intros [-> | ((l & r & -> & N) & D)].
    + exists ss, []. split; [reflexivity | intros s' []].
    + exists l, (r ++ [t]). split; [rewrite <- app_assoc; reflexivity |]. intros s' I. apply in_app_iff in I. destruct I as [I | [<- | []]]; auto.
Qed.
Lemma recorded_In : forall ss deps, Recorded ss deps -> forall x, In x deps <-> exists s, Latest ss s /\ x = fst (module_node s).
Proof.
  intros ss deps R. induction R as [| ss s deps R IH]; intro x.
  - split; [intros [] | intros (s & (l & r & E & _) & _); destruct l; discriminate].
  - unfold update_dependencies. destruct (module_node s) as (y, ok) eqn:M. cbn [fst]. rewrite in_app_iff, filter_In, negb_true_iff. assert (Y : y = fst (module_node s)) by (rewrite M; reflexivity). split.
    + intros [(I & H) | [<- | []]].
      * apply IH in I. destruct I as (t & L & ->). exists t. split; [| reflexivity]. apply latest_snoc. right. split; [exact L |]. intro E. symmetry in E. apply has_id_ok in E. congruence.
      * exists s. split; [apply latest_snoc; left; reflexivity | exact Y].
    + intros (t & L & ->). apply latest_snoc in L. destruct L as [-> | (L & D)]; [right; left; exact Y |]. left. split; [apply IH; eauto |].
      apply not_true_iff_false. rewrite has_id_ok. congruence.
Qed.
Lemma NoDup_tail : forall (a b : list string), NoDup (a ++ b) -> NoDup a /\ NoDup b.
Proof.
  induction a as [| x a IH]; intros b N; [split; [constructor | exact N] |]. cbn [app] in N. inversion N as [| ? ? N1 N2]; subst. destruct (IH b N2) as (A & B). split; [| exact B].
  constructor; [| exact A]. intro I. apply N1. apply in_app_iff. left. exact I.
Qed.
Lemma recorded_ids : forall ss deps, Recorded ss deps -> NoDup (gets "id" deps) /\ forall n, In n (gets "id" deps) <-> In n (map s_arg ss).
Proof.
  intros ss deps R. induction R as [| ss s deps R (N & IH)]; [split; [constructor | tauto] |]. unfold update_dependencies. destruct (module_node s) as (y, ok) eqn:M. cbn [fst].
  assert (Y : y = fst (module_node s)) by (rewrite M; reflexivity). unfold gets in *. rewrite flat_map_app. cbn [flat_map]. rewrite Y, node_id. cbn [app].
  assert (G : forall n, In n (flat_map (fun x => match get_attr "id" x with Some v => [v] | None => [] end) (filter (fun y0 => negb (has_id (s_arg s) y0)) deps)) <->
     In n (flat_map (fun x => match get_attr "id" x with Some v => [v] | None => [] end) deps) /\ n <> s_arg s).
  { intro n. rewrite !in_flat_map. split.
    - intros (x & I & H). apply filter_In in I. destruct I as (I & Hn). split; [eauto |]. intros ->. unfold has_id, eq_opt in Hn. destruct (get_attr "id" x); [| destruct H]. destruct H as [-> | []]. rewrite String.eqb_refl in Hn. discriminate.
    - intros ((x & I & H) & D). exists x. split; [| exact H]. apply filter_In. split; [exact I |]. unfold has_id, eq_opt. destruct (get_attr "id" x); [| destruct H]. destruct H as [-> | []]. apply negb_true_iff. apply String.eqb_neq. exact D. }
  split.
  - apply (NoDup_Add (a := s_arg s) (l := flat_map (fun x => match get_attr "id" x with Some v => [v] | None => [] end) (filter (fun y0 => negb (has_id (s_arg s) y0)) deps))).
    + replace (flat_map _ _) with (flat_map (fun x => match get_attr "id" x with Some v => [v] | None => [] end) (filter (fun y0 => negb (has_id (s_arg s) y0)) deps) ++ []) at 1 by apply app_nil_r. apply Add_app.
    + split; [| intro I; apply G in I; destruct I as (_ & I); congruence].
      clear - N. induction deps as [| x deps IH]; [constructor |]. cbn [flat_map filter] in *. assert (N2 := proj2 (NoDup_tail _ _ N)). destruct (negb (has_id (s_arg s) x)); [| apply IH; exact N2]. cbn [flat_map].
      destruct (get_attr "id" x) as [v |]; [| apply IH; exact N2]. cbn [app] in *. inversion N as [| ? ? N3 N4]; subst. constructor; [| apply IH; exact N4].
      intro I. apply N3. apply in_flat_map in I. destruct I as (z & I & H). apply filter_In in I. apply in_flat_map. exists z. tauto.
  - intro n. rewrite in_app_iff, G, IH, map_app, in_app_iff. cbn. destruct (string_dec n (s_arg s)) as [-> | D]; [tauto |]. split; [intros [(I & _) | [E | []]]; [left; exact I | congruence] | intros [I | [E | []]]; [left; auto | congruence]].
Qed.
Lemma latest_In : forall ss s, Latest ss s -> In s ss.
Proof. intros ss s (l & r & -> & _). apply in_app_iff. right. left. reflexivity. Qed.
Lemma mem_ok : forall s l, mem String.eqb s l = true <-> In s l. Proof. intros. apply (mem_In String.eqb String.eqb_eq). Qed.

Section Record.
  Variables (ss : list stm) (deps : list xml).
  Hypothesis R : Recorded ss deps.
  Hypothesis C : forall s, In s ss -> Complete s.
  Theorem deps_imports : forall m i, In i (fst (get_dependencies deps m)) <-> exists s, Latest ss s /\ s_arg s = m /\ Imports s i.
  Proof.
    intros m i. cbn [get_dependencies fst]. rewrite in_flat_map. split.
    - intros (x & I & G). apply filter_In in I. destruct I as (I & H). apply andb_true_iff in H. destruct H as (_ & H). apply (recorded_In ss deps R) in I. destruct I as (s & L & ->).
      apply has_id_ok in H. exists s. split; [exact L |]. split; [exact H |]. rewrite node_imports in G by (apply C, latest_In; exact L). apply search_In. exact G.
    - intros (s & L & E & H). exists (fst (module_node s)). split.
      + apply filter_In. split; [apply (recorded_In ss deps R); eauto |]. rewrite node_tag. apply has_id_ok in E. rewrite E. reflexivity.
      + rewrite node_imports by (apply C, latest_In; exact L). apply search_In. exact H.
  Qed.
  Theorem deps_depends : forall m d, In d (snd (get_dependencies deps m)) <-> exists s, Latest ss s /\ s_arg s = d /\ (Imports s m \/ Includes s m).
  Proof.
    intros m d. cbn [get_dependencies snd]. unfold gets at 1. rewrite in_flat_map. split.
    - intros (x & I & G). apply filter_In in I. destruct I as (I & H). apply (recorded_In ss deps R) in I. destruct I as (s & L & ->). rewrite node_id in G. destruct G as [<- | []].
      exists s. split; [exact L |]. split; [reflexivity |]. apply orb_true_iff in H. rewrite !mem_ok in H. rewrite node_includes, node_imports in H by (apply C, latest_In; exact L). rewrite !search_In in H. exact H.
    - intros (s & L & <- & H). exists (fst (module_node s)). split; [| rewrite node_id; left; reflexivity]. apply filter_In. split; [apply (recorded_In ss deps R); eauto |].
      apply orb_true_iff. rewrite !mem_ok. rewrite node_includes, node_imports by (apply C, latest_In; exact L). rewrite !search_In. exact H.
  Qed.
  Theorem deps_required : forall m x, In x (required deps m) <->
    x = m \/ (exists s, Latest ss s /\ s_arg s = m /\ Imports s x) \/ (exists s, Latest ss s /\ s_arg s = x /\ (Imports s m \/ Includes s m)).
  Proof.
    intros m x. rewrite <- deps_imports, <- deps_depends. unfold required. destruct (get_dependencies deps m) as (i, d). cbn [fst snd]. rewrite !in_app_iff. cbn. intuition congruence.
  Qed.
  Theorem deps_roots : forall s, Latest ss s -> exists x, In x deps /\ get_attr "id" x = Some (s_arg s) /\ ((exists k, In k (xkids x) /\ xtag k = "roots") <-> Visible s).
  Proof.
    intros s L. exists (fst (module_node s)). split; [apply (recorded_In ss deps R); eauto |]. split; [apply node_id |]. apply node_roots. apply C, latest_In; exact L.
  Qed.
End Record.
Theorem deps_namespaces : forall ss deps, Recorded ss deps -> forall o p u, In (o, p, u) (namespaces deps) <->
  exists s, Latest ss s /\ o = Some (s_arg s) /\ s_kw s = Kw "module" /\ First "prefix" s p /\
    ((u = None /\ Lacks "namespace" s) \/ exists v, u = Some v /\ First "namespace" s v).
Proof.
  intros ss deps R o p u. unfold namespaces. rewrite in_flat_map. split.
  - intros (x & I & H). apply filter_In in I. destruct I as (I & _). apply (recorded_In ss deps R) in I. destruct I as (s & L & ->). destruct (get_attr "prefix" _) as [q |] eqn:P; [| destruct H].
    destruct H as [E | []]. rewrite node_id in E. assert (o = Some (s_arg s)) by congruence. assert (q = p) by congruence. subst o q. apply node_prefix in P. destruct P as (K & F).
    exists s. split; [exact L |]. split; [reflexivity |]. split; [exact K |]. split; [exact F |]. apply (node_ns s K). congruence.
  - intros (s & L & -> & K & F & H). exists (fst (module_node s)). split; [apply filter_In; split; [apply (recorded_In ss deps R); eauto | rewrite node_tag; reflexivity] |].
    rewrite (proj2 (node_prefix s p) (conj K F)). left. rewrite node_id. apply (node_ns s K) in H. rewrite H. reflexivity.
Qed.
Theorem deps_update : forall deps s, (Complete s -> exists l, snd (update_dependencies deps s) = Ok l /\ forall n, In n l <-> Imports s n \/ Includes s n) /\
  (~ Complete s -> snd (update_dependencies deps s) = Err AttributeError).
Proof.
  intros deps s. rewrite <- node_ok. unfold update_dependencies. destruct (module_node s) as (y, ok). cbn [snd]. split.
  - intros ->. exists (needed s). split; [reflexivity |]. intro n. unfold needed. rewrite in_app_iff, !search_In. unfold Imports, Includes. tauto.
  - intro H. destruct ok; [congruence | reflexivity].
Qed.
