(** Proofs about compiled models and the files kept for them. *)
From Coq Require Import String Ascii List Bool.
From Verif Require Import Base BaseP XmlM CompileM DepictM DepictP DeviceP TypeM TypeSpec TypeP DepsM BuildM BuildSpec.
Import ListNotations.
Open Scope string_scope.
Open Scope list_scope.

Section RInd.
  Variable P : rstmt -> Prop.
  Hypothesis H : forall i local t ks, (forall c, In c ks -> P c) -> P (RStmt i local t ks).
  Fixpoint rstmt_ind' (x : rstmt) : P x :=
    match x with
    | RStmt i local t ks =>
        H i local t ks
          ((fix go (l : list rstmt) : forall c, In c l -> P c :=
              match l return forall c, In c l -> P c with
              | [] => fun c i => match i with end
              | x :: r => fun c i => match i with
                                     | or_introl e => match e in _ = y return P y with eq_refl => rstmt_ind' x end
                                     | or_intror j => go r c j
                                     end
              end) ks)
    end.
End RInd.

Lemma resolve_eq : forall ids pre i local t ks, resolve ids pre (RStmt i local t ks) =
  (let! ty := leaf_type ids pre local t in let! l := mapM (resolve ids pre) ks in Ok (YStmt (with_type ty i) l)).
Proof.
  intros. cbn [resolve]. destruct (leaf_type ids pre local t) as [ty |]; cbn [bind]; [| reflexivity].
  assert (E : forall ks, (fix go (l : list rstmt) : res (list ystmt) :=
               match l with [] => Ok [] | c :: r => let! y := resolve ids pre c in let! ys := go r in Ok (y :: ys) end) ks = mapM (resolve ids pre) ks).
  { clear. induction ks as [| c r IH]; [reflexivity |]. cbn [mapM]. destruct (resolve ids pre c); cbn [bind]; [| reflexivity]. rewrite IH. reflexivity. }
  rewrite E. reflexivity.
Qed.

(** ** Without identities types do not depend on what is remembered *)
Lemma values_free : forall ids pre ids' pre' t, ~ UsesIdentities t -> type_values ids pre t = type_values ids' pre' t.
Proof.
  intros ids pre ids' pre'. induction t as [a d td en b p ms m IT IM] using ytype_ind'. intro N. rewrite !type_values_eq.
  assert (E : (if String.eqb a "boolean" then Ok "true|false" else if String.eqb a "union" then
        let! vs := mapM (type_values ids pre) ms in Ok (join_bar (filter (fun v => negb (String.eqb v "")) vs))
      else if String.eqb a "enumeration" then Ok (join_bar en) else if String.eqb a "identityref" then
        match b with None => Ok "" | Some b => let! l := identityref_values ids pre m b in Ok (join_bar l) end else Ok "") =
      (if String.eqb a "boolean" then Ok "true|false" else if String.eqb a "union" then
        let! vs := mapM (type_values ids' pre') ms in Ok (join_bar (filter (fun v => negb (String.eqb v "")) vs))
      else if String.eqb a "enumeration" then Ok (join_bar en) else if String.eqb a "identityref" then
        match b with None => Ok "" | Some b => let! l := identityref_values ids' pre' m b in Ok (join_bar l) end else Ok "")).
  { rewrite (mapM_ext (type_values ids pre) (type_values ids' pre') ms).
    - destruct (String.eqb_spec a "identityref") as [-> |]; [exfalso; apply N; constructor | reflexivity].
    - intros t T. apply IM; [exact T |]. intro U. apply N. eapply ui_member; eauto. }
  destruct d; [exact E |]. destruct td as [[t |] |]; [| reflexivity | exact E].
  apply IT; [reflexivity |]. intro U. apply N. apply ui_typedef. exact U.
Qed.
Lemma resolve_free : forall ids pre ids' pre' x, ~ HasIdentity x -> resolve ids pre x = resolve ids' pre' x.
Proof.
  intros ids pre ids' pre'. induction x as [i local t ks IH] using rstmt_ind'. intro N. rewrite !resolve_eq.
  rewrite (mapM_ext (resolve ids pre) (resolve ids' pre') ks).
  - assert (E : leaf_type ids pre local t = leaf_type ids' pre' local t); [| rewrite E; reflexivity].
    destruct t as [t |]; [| reflexivity]. unfold leaf_type. rewrite (values_free ids pre ids' pre' t); [reflexivity |].
    intro U. apply N. apply hi_own. exact U.
  - intros c C. apply IH; [exact C |]. intro U. apply N. eapply hi_kid; eauto.
Qed.

(** ** Namespaces *)
Inductive yrefers : ystmt -> string -> Prop :=
| yr_own : forall i ks, yrefers (YStmt i ks) (y_module i)
| yr_ext : forall i ks m w a, In (KwExt m w, a) (y_ext i) -> yrefers (YStmt i ks) m
| yr_kid : forall i ks c m, In c ks -> yrefers c m -> yrefers (YStmt i ks) m.
Lemma mapM_in : forall {A B} (f : A -> res B) l r y, mapM f l = Ok r -> In y r -> exists x, In x l /\ f x = Ok y.
Proof.
  intros A B f l. induction l as [| x l IH]; intros r y E I; cbn [mapM] in E.
  - injection E as <-. destruct I.
  - apply bind_ok in E. destruct E as (b & EB & E). apply bind_ok in E. destruct E as (bs & EBS & E). injection E as <-.
    destruct I as [<- | I]; [exists x; split; [left; reflexivity | exact EB] |]. destruct (IH bs y EBS I) as (x' & X & F). exists x'. split; [right; exact X | exact F].
Qed.
Lemma resolve_refers : forall ids pre x y n, resolve ids pre x = Ok y -> yrefers y n -> Refers x n.
Proof.
  intros ids pre. induction x as [i local t ks IH] using rstmt_ind'. intros y n E R. rewrite resolve_eq in E.
  apply bind_ok in E. destruct E as (ty & _ & E). apply bind_ok in E. destruct E as (l & EL & E). injection E as <-.
  inversion R as [i0 ks0 | i0 ks0 m w a J | i0 ks0 c m J Q]; subst.
  - exact (rf_own i local t ks).
  - exact (rf_ext i local t ks n w a J).
  - destruct (mapM_in _ _ _ _ EL J) as (x & X & EX). eapply rf_kid; [exact X |]. eapply IH; eauto.
Qed.
Lemma go_mapM : forall ns m ks, go ns m ks = mapM (fun c => depict ns (child_mode m c) c) ks.
Proof. intros ns m ks. induction ks as [| c r IH]; [reflexivity |]. cbn [go mapM]. destruct (depict ns (child_mode m c) c); cbn [bind]; [| reflexivity]. rewrite IH. reflexivity. Qed.
Lemma depict_free : forall ns ns' y m, (forall n, yrefers y n -> assoc String.eqb n ns = assoc String.eqb n ns') -> depict ns m y = depict ns' m y.
Proof.
  intros ns ns'. fix IH 1. intros [i ks] m A. rewrite !depict_eq. rewrite <- (A (y_module i)) by apply yr_own.
  assert (G : go ns m ks = go ns' m ks).
  { assert (K : forall c, In c ks -> forall n, yrefers c n -> assoc String.eqb n ns = assoc String.eqb n ns') by (intros c C n R; apply A; eapply yr_kid; eauto).
    clear A. induction ks as [| c r IHr]; [reflexivity |]. cbn [go]. rewrite (IH c (child_mode m c) (K c (or_introl eq_refl))).
    rewrite IHr; [reflexivity |]. intros c' C. apply K. right. exact C. }
  assert (X : ext_attrs ns i = ext_attrs ns' i).
  { assert (K : forall m w a, In (KwExt m w, a) (y_ext i) -> assoc String.eqb m ns = assoc String.eqb m ns') by (intros mm w a J; apply A; eapply yr_ext; eauto).
    unfold ext_attrs. induction (y_ext i) as [| [[k | m' w] a] r IHr]; [reflexivity | |]; cbn [flat_map].
    - apply IHr. intros mm w' a' J. apply (K mm w' a'). right. exact J.
    - rewrite (K m' w a) by (left; reflexivity). rewrite IHr; [reflexivity |]. intros mm w' a' J. apply (K mm w' a'). right. exact J. }
  rewrite G, X. reflexivity.
Qed.
Lemma nodes_free : forall ns ns' ks, (forall y n, In y ks -> yrefers y n -> assoc String.eqb n ns = assoc String.eqb n ns') ->
  compile_nodes ns ks = compile_nodes ns' ks.
Proof.
  intros ns ns' ks A. unfold compile_nodes.
  assert (E : forall m p, mapM (depict ns m) (filter p ks) = mapM (depict ns' m) (filter p ks)).
  { intros m p. apply mapM_ext. intros y Y. apply filter_In in Y. apply depict_free. intros n. apply A. apply Y. }
  rewrite !E. reflexivity.
Qed.
Definition put_ns (d : list (string * string)) (c : cmod) : list (string * string) :=
  if ms_module (cm_m c) then match cm_ns c with Some u => dset String.eqb (ms_name (cm_m c)) u d | None => d end else d.
Lemma put_ns_free : forall n mods d d',
  (exists c u, In c mods /\ ms_module (cm_m c) = true /\ ms_name (cm_m c) = n /\ cm_ns c = Some u) \/ assoc String.eqb n d = assoc String.eqb n d' ->
  assoc String.eqb n (fold_left put_ns mods d) = assoc String.eqb n (fold_left put_ns mods d').
Proof.
  intros n. induction mods as [| c r IH]; intros d d' H; cbn [fold_left].
  - destruct H as [(c & u & [] & _) | H]; exact H.
  - apply IH. unfold put_ns. destruct H as [(c' & u & [<- | I] & M & N & U) | H].
    + right. rewrite M, U. rewrite !(assoc_dset' String.eqb string_eqb_ok). rewrite <- N. rewrite String.eqb_refl. reflexivity.
    + left. exists c', u. auto.
    + right. destruct (ms_module (cm_m c)); [| exact H]. destruct (cm_ns c); [| exact H].
      rewrite !(assoc_dset' String.eqb string_eqb_ok). destruct (String.eqb n (ms_name (cm_m c))); [reflexivity | exact H].
Qed.

Definition nodes_of (k : comp) (vm : cmod) : res (list xml) :=
  let! ss := mapM (resolve (k_ids k) (k_pre k)) (cm_kids vm) in compile_nodes (k_ns k) ss.
Lemma tree_free : forall module mods vm k k', Closed mods -> WithoutIdentities mods -> In vm mods ->
  nodes_of (note module mods k) vm = nodes_of (note module mods k') vm.
Proof.
  intros module mods vm k k' C W V. unfold nodes_of.
  rewrite (mapM_ext (resolve (k_ids (note module mods k)) (k_pre (note module mods k))) (resolve (k_ids (note module mods k')) (k_pre (note module mods k'))) (cm_kids vm)).
  - destruct (mapM (resolve (k_ids (note module mods k')) (k_pre (note module mods k'))) (cm_kids vm)) as [ss | e] eqn:E; cbn [bind]; [| reflexivity].
    apply nodes_free. intros y n Y R. destruct (mapM_in _ _ _ _ E Y) as (x & X & EX). cbn [note k_ns].
    apply (put_ns_free n mods (k_ns k) (k_ns k')). left. apply (C vm x n V X). eapply resolve_refers; eauto.
  - intros x X. apply resolve_free. apply (W vm x V X).
Qed.

(** ** Lives of folders *)
Section Life.
  Variable pyang : list (string * string) -> list string -> res (list cmod).
  Variable load : list (string * string) -> list xml.

  Lemma yang_compile : forall order m st, d_yang (snd (snd (compile pyang order m st))) = d_yang (snd st).
  Proof.
    intros order m [k f]. cbn [snd compile]. destruct (assoc String.eqb m (d_xml f)) as [[t |] |]; try reflexivity;
      (destruct (pyang _ _) as [mods |]; [| reflexivity]; destruct (find _ mods) as [vm |]; [| reflexivity];
       destruct (cm_prefix vm); [| reflexivity]; destruct (let! ss := _ in _); reflexivity).
  Qed.
  Lemma deps_compile : forall order m st, k_deps (fst (snd (compile pyang order m st))) = k_deps (fst st).
  Proof.
    intros order m [k f]. cbn [fst compile]. destruct (assoc String.eqb m (d_xml f)) as [[t |] |]; try reflexivity;
      (destruct (pyang _ _) as [mods |]; [| reflexivity]; destruct (find _ mods) as [vm |]; [| reflexivity];
       destruct (cm_prefix vm); [| reflexivity]; destruct (let! ss := _ in _); reflexivity).
  Qed.
  (** The XML files after a call *)
  Lemma xml_compile : forall order m st n, assoc String.eqb n (d_xml (snd (snd (compile pyang order m st)))) = assoc String.eqb n (d_xml (snd st)) \/
    n = m /\ exists t, fst (compile pyang order m st) = Ok t /\ assoc String.eqb n (d_xml (snd (snd (compile pyang order m st)))) = Some (Some t).
  Proof.
    intros order m [k f] n. cbn [snd compile]. destruct (assoc String.eqb m (d_xml f)) as [[t |] |] eqn:A; [left; reflexivity | |];
      (destruct (pyang _ _) as [mods |]; [| left; reflexivity]; destruct (find _ mods) as [vm |]; [| left; reflexivity];
       destruct (cm_prefix vm); [| left; reflexivity]; destruct (let! ss := _ in _); [| left; reflexivity]; cbn [snd fst d_xml];
       rewrite (assoc_dset' String.eqb string_eqb_ok); destruct (String.eqb_spec n m) as [-> |]; [right; split; [reflexivity |]; eexists; split; reflexivity | left; reflexivity]).
  Qed.

  (** Without a file of its own, a call does not depend on the state. *)
  Lemma compile_free : forall order m k k' y x x', (forall l mods, pyang y l = Ok mods -> Closed mods /\ WithoutIdentities mods) ->
    (forall t, assoc String.eqb m x <> Some (Some t)) -> (forall t, assoc String.eqb m x' <> Some (Some t)) ->
    fst (compile pyang order m (k, Folder y x)) = fst (compile pyang order m (k', Folder y x')).
  Proof.
    intros order m k k' y x x' O N N'. cbn [compile d_xml d_yang].
    assert (E : forall (st : comp * folder) (r : res xml * (comp * folder)), match assoc String.eqb m x with Some (Some t) => (Ok t, st) | _ => r end = r).
    { intros. destruct (assoc String.eqb m x) as [[t |] |]; [exfalso; exact (N t eq_refl) | reflexivity | reflexivity]. }
    assert (E' : forall (st : comp * folder) (r : res xml * (comp * folder)), match assoc String.eqb m x' with Some (Some t) => (Ok t, st) | _ => r end = r).
    { intros. destruct (assoc String.eqb m x') as [[t |] |]; [exfalso; exact (N' t eq_refl) | reflexivity | reflexivity]. }
    rewrite E, E'. destruct (pyang y _) as [mods |] eqn:P; [| reflexivity]. destruct (find _ mods) as [vm |] eqn:F; [| reflexivity].
    destruct (cm_prefix vm) as [p |]; [| reflexivity]. destruct (O _ _ P) as (C & W). apply find_some in F. destruct F as (V & _).
    pose proof (tree_free m mods vm k k' C W V) as T. unfold nodes_of in T. rewrite T.
    match goal with |- fst (match ?e with Ok _ => _ | Err _ => _ end) = _ => destruct e end; reflexivity.
  Qed.

  Definition good (st : comp * folder) : Prop :=
    SameNeeds (k_deps (fst st)) (load (d_yang (snd st))) /\
    (forall t, assoc String.eqb deps_name (d_xml (snd st)) = Some (Some t) -> SameNeeds (xkids t) (load (d_yang (snd st)))) /\
    (forall m t, m <> deps_name -> assoc String.eqb m (d_xml (snd st)) = Some (Some t) -> Possible pyang load (d_yang (snd st)) m (Ok t)).

  Lemma same_refl : forall d, SameNeeds d d. Proof. intros d m x. tauto. Qed.
  Lemma start_fresh : forall y, start load (Folder y []) = (Comp (load y) [] [] [], Folder y [(deps_name, Some (Elem "modules" None [] (load y)))]).
  Proof. reflexivity. Qed.
  Lemma start_good : forall f,
    (forall t, assoc String.eqb deps_name (d_xml f) = Some (Some t) -> SameNeeds (xkids t) (load (d_yang f))) ->
    (forall m t, m <> deps_name -> assoc String.eqb m (d_xml f) = Some (Some t) -> Possible pyang load (d_yang f) m (Ok t)) -> good (start load f).
  Proof.
    intros f D X. unfold start, good. destruct (assoc String.eqb deps_name (d_xml f)) as [[t |] |] eqn:A; cbn [fst snd k_deps d_yang d_xml].
    - split; [apply D; reflexivity |]. split; [| exact X]. intros t'. rewrite A. intro E. injection E as <-. apply D. reflexivity.
    - split; [apply same_refl |]. split.
      + intro t. rewrite (assoc_dset' String.eqb string_eqb_ok), String.eqb_refl. intro E. injection E as <-. apply same_refl.
      + intros m t N. rewrite (assoc_dset' String.eqb string_eqb_ok). destruct (String.eqb_spec m deps_name); [contradiction | apply X; exact N].
    - split; [apply same_refl |]. split.
      + intro t. rewrite (assoc_dset' String.eqb string_eqb_ok), String.eqb_refl. intro E. injection E as <-. apply same_refl.
      + intros m t N. rewrite (assoc_dset' String.eqb string_eqb_ok). destruct (String.eqb_spec m deps_name); [contradiction | apply X; exact N].
  Qed.

  Lemma result_possible : forall st order m, (forall l mods, pyang (d_yang (snd st)) l = Ok mods -> Closed mods /\ WithoutIdentities mods) ->
    good st -> m <> deps_name -> Lists order (required (k_deps (fst st)) m) ->
    Possible pyang load (d_yang (snd st)) m (fst (compile pyang order m st)).
  Proof.
    intros [k [y x]] order m O (G1 & G2 & G3) N (L1 & L2). cbn [fst snd d_yang d_xml k_deps] in *.
    destruct (assoc String.eqb m x) as [[t |] |] eqn:A.
    - assert (E : fst (compile pyang order m (k, Folder y x)) = Ok t) by (cbn [compile d_xml]; rewrite A; reflexivity). rewrite E. apply G3; auto.
    - exists order. split; [split; [exact L1 |]; intro z; rewrite L2; apply G1 |]. unfold first_compile. rewrite start_fresh. symmetry. apply compile_free; [exact O | |].
      + intros t. rewrite A. discriminate.
      + intros t. cbn [assoc]. destruct (String.eqb_spec m deps_name); [contradiction | discriminate].
    - exists order. split; [split; [exact L1 |]; intro z; rewrite L2; apply G1 |]. unfold first_compile. rewrite start_fresh. symmetry. apply compile_free; [exact O | |].
      + intros t. rewrite A. discriminate.
      + intros t. cbn [assoc]. destruct (String.eqb_spec m deps_name); [contradiction | discriminate].
  Qed.

  (** *** Every call by a compiler of its own *)
  Definition kept (f : folder) : Prop :=
    (forall t, assoc String.eqb deps_name (d_xml f) = Some (Some t) -> SameNeeds (xkids t) (load (d_yang f))) /\
    (forall m t, m <> deps_name -> assoc String.eqb m (d_xml f) = Some (Some t) -> Possible pyang load (d_yang f) m (Ok t)).
  Lemma start_cases : forall f, exists d x, start load f = (Comp d [] [] [], Folder (d_yang f) x) /\
    forall m, m <> deps_name -> assoc String.eqb m x = assoc String.eqb m (d_xml f).
  Proof.
    intros [y x]. unfold start. cbn [d_xml d_yang]. destruct (assoc String.eqb deps_name x) as [[t |] |] eqn:A;
      (eexists; eexists; split; [reflexivity |]); [reflexivity | |]; intros m N; rewrite (assoc_dset' String.eqb string_eqb_ok);
      (destruct (String.eqb_spec m deps_name); [contradiction | reflexivity]).
  Qed.
  Lemma compile_same : forall order m d d' y x x',
    (forall t, assoc String.eqb m x <> Some (Some t)) -> (forall t, assoc String.eqb m x' <> Some (Some t)) ->
    fst (compile pyang order m (Comp d [] [] [], Folder y x)) = fst (compile pyang order m (Comp d' [] [] [], Folder y x')).
  Proof.
    intros order m d d' y x x' N N'. cbn [compile d_xml d_yang].
    assert (E : forall (st : comp * folder) (r : res xml * (comp * folder)), match assoc String.eqb m x with Some (Some t) => (Ok t, st) | _ => r end = r).
    { intros. destruct (assoc String.eqb m x) as [[t |] |]; [exfalso; exact (N t eq_refl) | reflexivity | reflexivity]. }
    assert (E' : forall (st : comp * folder) (r : res xml * (comp * folder)), match assoc String.eqb m x' with Some (Some t) => (Ok t, st) | _ => r end = r).
    { intros. destruct (assoc String.eqb m x') as [[t |] |]; [exfalso; exact (N' t eq_refl) | reflexivity | reflexivity]. }
    rewrite E, E'. destruct (pyang y _) as [mods |]; [| reflexivity]. destruct (find _ mods) as [vm |]; [| reflexivity].
    destruct (cm_prefix vm) as [p |]; [| reflexivity]. unfold note. cbn [k_ids k_pre k_ns].
    match goal with |- fst (match ?e with Ok _ => _ | Err _ => _ end) = _ => destruct e end; reflexivity.
  Qed.
  Lemma alone_possible : forall f order m, kept f -> m <> deps_name -> Lists order (required (k_deps (fst (start load f))) m) ->
    Possible pyang load (d_yang f) m (fst (compile pyang order m (start load f))).
  Proof.
    intros f order m (G2 & G3) N (L1 & L2). destruct (start_good f G2 G3) as (S & _).
    destruct (start_cases f) as (d & x & E & X). assert (Y : d_yang (snd (start load f)) = d_yang f) by (rewrite E; reflexivity). rewrite Y in S.
    rewrite E in *. cbn [fst k_deps] in *. destruct (assoc String.eqb m x) as [[t |] |] eqn:A.
    - assert (R : fst (compile pyang order m (Comp d [] [] [], Folder (d_yang f) x)) = Ok t) by (cbn [compile d_xml]; rewrite A; reflexivity).
      rewrite R. apply G3; [exact N |]. rewrite <- (X m N). exact A.
    - exists order. split; [split; [exact L1 |]; intro z; rewrite L2; apply S |]. unfold first_compile. rewrite start_fresh. symmetry. apply compile_same.
      + intros t. rewrite A. discriminate.
      + intros t. cbn [assoc]. destruct (String.eqb_spec m deps_name); [contradiction | discriminate].
    - exists order. split; [split; [exact L1 |]; intro z; rewrite L2; apply S |]. unfold first_compile. rewrite start_fresh. symmetry. apply compile_same.
      + intros t. rewrite A. discriminate.
      + intros t. cbn [assoc]. destruct (String.eqb_spec m deps_name); [contradiction | discriminate].
  Qed.
  Lemma alone_kept : forall f, Alone pyang load f -> kept f.
  Proof.
    intros f H. induction H as [y | f order m H IH N L | f y d H IH S | f m H IH].
    - split; cbn [d_xml d_yang assoc]; intros; discriminate.
    - pose proof (alone_possible f order m IH N L) as R. destruct IH as (G2 & G3). destruct (start_good f G2 G3) as (_ & T2 & T3).
      destruct (start_cases f) as (d & x & E & X). assert (Y : d_yang (snd (start load f)) = d_yang f) by (rewrite E; reflexivity). rewrite Y in T2, T3.
      unfold kept. rewrite yang_compile, Y. split.
      + intros t. destruct (xml_compile order m (start load f) deps_name) as [Q | (Q & _)]; [rewrite Q; apply T2 | congruence].
      + intros m' t N'. destruct (xml_compile order m (start load f) m') as [Q | (-> & t' & T & Q)]; [rewrite Q; apply T3; exact N' |].
        rewrite Q. intro Z. injection Z as <-. rewrite T in R. exact R.
    - split; cbn [d_xml d_yang assoc].
      + intro t. rewrite String.eqb_refl. intro E. injection E as <-. exact S.
      + intros m t N. destruct (String.eqb_spec m deps_name); [contradiction | discriminate].
    - destruct IH as (G2 & G3). split; cbn [d_xml d_yang].
      + intro t. rewrite (assoc_dset' String.eqb string_eqb_ok). destruct (String.eqb deps_name m); [discriminate | apply G2].
      + intros m' t N. rewrite (assoc_dset' String.eqb string_eqb_ok). destruct (String.eqb m' m); [discriminate | apply G3; exact N].
  Qed.
  Theorem alone_free : forall f order m, Alone pyang load f -> m <> deps_name -> Lists order (required (k_deps (fst (start load f))) m) ->
    Possible pyang load (d_yang f) m (fst (compile pyang order m (start load f))).
  Proof. intros f order m H. apply alone_possible. apply alone_kept. exact H. Qed.

  (** *** Several calls of one compiler *)
  Hypothesis O : forall y l mods, pyang y l = Ok mods -> Closed mods /\ WithoutIdentities mods.
  Lemma life_good : forall st, Life pyang load st -> good st.
  Proof.
    intros st H. induction H as [y | st order m H IH N L | st H IH | st y d H IH S | st m H IH].
    - apply start_good; cbn [d_xml d_yang assoc]; intros; discriminate.
    - pose proof (result_possible st order m (O _) IH N L) as R. destruct IH as (G1 & G2 & G3). unfold good. cbn [happen].
      rewrite yang_compile, deps_compile. split; [exact G1 |]. split.
      + intros t. destruct (xml_compile order m st deps_name) as [E | (E & _)]; [rewrite E; apply G2 | congruence].
      + intros m' t N'. destruct (xml_compile order m st m') as [E | (-> & t' & T & E)]; [rewrite E; apply G3; exact N' |].
        rewrite E. intro Q. injection Q as <-. rewrite T in R. exact R.
    - destruct IH as (G1 & G2 & G3). apply start_good; assumption.
    - apply start_good; cbn [d_xml d_yang assoc].
      + intro t. rewrite String.eqb_refl. intro E. injection E as <-. exact S.
      + intros m t N. destruct (String.eqb_spec m deps_name); [contradiction | discriminate].
    - destruct IH as (G1 & G2 & G3). apply start_good; cbn [d_xml d_yang].
      + intro t. rewrite (assoc_dset' String.eqb string_eqb_ok). destruct (String.eqb deps_name m); [discriminate | apply G2].
      + intros m' t N. rewrite (assoc_dset' String.eqb string_eqb_ok). destruct (String.eqb m' m); [discriminate | apply G3; exact N].
  Qed.
  Theorem history_free : forall st order m, Life pyang load st -> m <> deps_name -> Lists order (required (k_deps (fst st)) m) ->
    Possible pyang load (d_yang (snd st)) m (fst (compile pyang order m st)).
  Proof. intros st order m H N L. exact (result_possible st order m (O _) (life_good st H) N L). Qed.
End Life.

(** ** A tree that was given out is given out again *)
Definition keeps (m : string) (e : event) : Prop :=
  match e with EDownload _ _ => False | EKilled m' => m' <> m | _ => True end.
Theorem given_again : forall pyang load st order m t l order', fst (compile pyang order m st) = Ok t -> m <> deps_name -> (forall e, In e l -> keeps m e) ->
  fst (compile pyang order' m (fold_left (fun st e => happen pyang load e st) l (snd (compile pyang order m st)))) = Ok t.
Proof.
  intros pyang load st order m t l order' R N K.
  assert (G : forall st, assoc String.eqb m (d_xml (snd st)) = Some (Some t) -> fst (compile pyang order' m st) = Ok t).
  { intros [k f] A. cbn [compile]. cbn [snd] in A. rewrite A. reflexivity. }
  apply G. assert (A0 : assoc String.eqb m (d_xml (snd (snd (compile pyang order m st)))) = Some (Some t)).
  { destruct st as [k f]. revert R. cbn [compile]. destruct (assoc String.eqb m (d_xml f)) as [[t' |] |] eqn:A; cbn [fst snd].
    - intro E. injection E as <-. exact A.
    - destruct (pyang _ _) as [mods |]; [| discriminate]. destruct (find _ mods) as [vm |]; [| discriminate]. destruct (cm_prefix vm); [| discriminate].
      destruct (let! ss := _ in _); [| discriminate]. cbn [fst snd d_xml]. intro E. injection E as <-.
      rewrite (assoc_dset' String.eqb string_eqb_ok), String.eqb_refl. reflexivity.
    - destruct (pyang _ _) as [mods |]; [| discriminate]. destruct (find _ mods) as [vm |]; [| discriminate]. destruct (cm_prefix vm); [| discriminate].
      destruct (let! ss := _ in _); [| discriminate]. cbn [fst snd d_xml]. intro E. injection E as <-.
      rewrite (assoc_dset' String.eqb string_eqb_ok), String.eqb_refl. reflexivity. }
  revert A0. generalize (snd (compile pyang order m st)). clear R G. induction l as [| e l IH]; intros s A; cbn [fold_left]; [exact A |].
  apply IH; [intros e' E'; apply K; right; exact E' |]. specialize (K e (or_introl eq_refl)).
  assert (ST : forall f, assoc String.eqb m (d_xml f) = Some (Some t) -> assoc String.eqb m (d_xml (snd (start load f))) = Some (Some t)).
  { intros f F. unfold start. destruct (assoc String.eqb deps_name (d_xml f)) as [[u |] |]; [exact F | |]; cbn [snd d_xml];
      rewrite (assoc_dset' String.eqb string_eqb_ok); (destruct (String.eqb_spec m deps_name); [contradiction | exact F]). }
  destruct e as [o m' | | y d | m' | m' tx]; cbn [keeps happen] in *.
  - destruct s as [k f]. destruct (xml_compile pyang o m' (k, f) m) as [E | (-> & t' & T & E)]; [rewrite E; exact A |].
    cbn [compile] in *. cbn [snd] in A. rewrite A in *. cbn [snd]. exact A.
  - apply ST. exact A.
  - destruct K.
  - apply ST. cbn [d_xml]. rewrite (assoc_dset' String.eqb string_eqb_ok). destruct (String.eqb_spec m m'); [congruence | exact A].
  - exact A.
Qed.
