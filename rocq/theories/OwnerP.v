(** Proofs for C98. *)
From Coq Require Import String Ascii List Bool Permutation.
From Verif Require Import Base BaseP XmlM CalcM DataSpec TagM TagSpec TagP DeviceM DeviceSpec DeviceP LoadableM LoadableSpec LoadableP OwnerM OwnerSpec.
Import ListNotations.
Open Scope string_scope.
Open Scope list_scope.

(** * Which names are loaded *)
Lemma last_load_named : forall l n, last_load n l <> None <-> LoadedName l n.
Proof.
  intros l n. split.
  - destruct (last_load n l) as [m |] eqn:E; [intros _ | congruence]. exists m. apply last_load_In. exact E.
  - intros (m & I & E). induction l as [| c l IH]; [destruct I |]. cbn [last_load].
    destruct (last_load n l) as [m' |]; [discriminate |]. destruct I as [-> | I].
    + rewrite E, String.eqb_refl. discriminate.
    + exfalso. apply IH; auto.
Qed.
Lemma models_named : forall l n, In n (map fst (d_models (drun l))) <-> LoadedName l n.
Proof.
  intros l n. destruct (hist_run l) as [H _]. rewrite <- last_load_named, <- (h_assoc _ _ H). split.
  - intro I. apply in_map_iff in I. destruct I as ((k & m) & E & I). cbn in E. subst k.
    destruct (h_name _ _ H _ _ I) as [_ E]. rewrite (h_assoc _ _ H), E. discriminate.
  - destruct (assoc String.eqb n (d_models (drun l))) as [m |] eqn:E; [intros _ | congruence].
    apply (assoc_In' _ str_eqb_ok) in E. apply in_map_iff. exists (n, m). auto.
Qed.
Lemma loaded_list : forall l, SortedOf (models_loaded (drun l)) (map fst (d_models (drun l))) /\ NoDup (models_loaded (drun l)) /\
  forall n, In n (models_loaded (drun l)) <-> LoadedName l n.
Proof.
  intro l. destruct (sort_ok (map fst (d_models (drun l)))) as [P A]. split; [split; assumption |]. split.
  - eapply Permutation_NoDup; [apply Permutation_sym; exact P |]. apply (hist_run l).
  - intro n. rewrite <- models_named. split; apply Permutation_in; [exact P | apply Permutation_sym; exact P].
Qed.
Lemma loaded_exact : forall l, Ascending (models_loaded (drun l)) /\ NoDup (models_loaded (drun l)) /\
  forall n, In n (models_loaded (drun l)) <-> LoadedName l n.
Proof. intro l. destruct (loaded_list l) as ((_ & A) & N & E). auto. Qed.

(** * The order of the table of models *)
Lemma dset_fst : forall {V} k (v : V) l, map fst (dset String.eqb k v l) = if mem String.eqb k (map fst l) then map fst l else map fst l ++ [k].
Proof.
  intros V k v l. induction l as [| [k' v'] r IH]; [reflexivity |]. simpl.
  destruct (String.eqb k k') eqn:E; simpl.
  - apply String.eqb_eq in E. subst k'. reflexivity.
  - rewrite IH. destruct (mem String.eqb k (map fst r)); reflexivity.
Qed.
Lemma mem_str : forall k l, mem String.eqb k l = true <-> In k l.
Proof.
  intros k l. induction l as [| a l IH]; simpl; [split; [discriminate | tauto] |].
  rewrite orb_true_iff, String.eqb_eq, IH. intuition.
Qed.
Lemma models_step : forall l c, map fst (d_models (drun (l ++ [c]))) =
  match c with
  | DLoad m => if mem String.eqb (m_name m) (map fst (d_models (drun l))) then map fst (d_models (drun l)) else map fst (d_models (drun l)) ++ [m_name m]
  | _ => map fst (d_models (drun l))
  end.
Proof.
  intros l c. rewrite drun_snoc. destruct (hist_run l) as [H N]. destruct c as [T | m | path |]; cbn [dstep].
  - reflexivity.
  - destruct (load_hist l _ m H N) as (ns & E & _). rewrite E. cbn [snd d_models]. apply dset_fst.
  - unfold get_schema_node. rewrite (proj1 (get_schema_env (rev path) (drun l))). reflexivity.
  - rewrite (proj1 (proj1 (namespaces_env (drun l)))). reflexivity.
Qed.
Lemma Earlier_more : forall l l' n n', Earlier l n n' -> Earlier (l ++ l') n n'.
Proof. intros l l' n n' (p & q & -> & A & B). exists p, (q ++ l'). rewrite app_assoc. auto. Qed.
Lemma models_order : forall l a x b y, map fst (d_models (drun l)) = a ++ x :: b -> In y b -> Earlier l x y.
Proof.
  intro l. induction l as [| c l IH] using rev_ind; intros a x b y E I.
  - destruct a; discriminate.
  - rewrite models_step in E.
    assert (K : forall a b, map fst (d_models (drun l)) = a ++ x :: b -> In y b -> Earlier (l ++ [c]) x y).
    { intros a0 b0 E0 I0. apply Earlier_more. eapply IH; eauto. }
    destruct c as [T | m | path |]; try (eapply K; eassumption).
    destruct (mem String.eqb (m_name m) (map fst (d_models (drun l)))) eqn:M; [eapply K; eassumption |].
    destruct (exists_last (l := b)) as (b' & z & ->); [intro Z; subst b; destruct I |].
    change (a ++ x :: b' ++ [z]) with (a ++ (x :: b') ++ [z]) in E. rewrite app_assoc in E. apply app_inj_tail in E. destruct E as [E1 E2].
    apply in_app_or in I. destruct I as [I | [I | []]]; [apply (K a b'); auto |]. subst z. subst y.
    exists l, [DLoad m]. split; [reflexivity |]. split.
    + apply models_named. rewrite E1. apply in_or_app. right. left. reflexivity.
    + intro X. apply models_named in X. apply mem_str in X. congruence.
Qed.

(** * The last model of the table that has a root *)
Lemma roots_last : forall ms r n, assoc String.eqb r (roots_of ms) = Some n ->
  exists a k m b, ms = a ++ (k, m) :: b /\ IsRoot m r /\ m_name m = n /\ forall k' m', In (k', m') b -> ~ IsRoot m' r.
Proof.
  intros ms r n. induction ms as [| (k, m) ms IH] using rev_ind; intro E; [discriminate |].
  unfold roots_of in E. rewrite map_app, fold_left_app in E. cbn [map snd fold_left] in E. rewrite fold_roots in E.
  destruct (mem String.eqb r (m_roots m)) eqn:M.
  - injection E as <-. exists ms, k, m, []. split; [reflexivity |]. split; [apply mem_roots; exact M |]. split; [reflexivity |]. intros k' m' [].
  - destruct (IH E) as (a & k0 & m0 & b & -> & R & N & L). exists a, k0, m0, (b ++ [(k, m)]).
    split; [rewrite <- app_assoc; reflexivity |]. split; [exact R |]. split; [exact N |].
    intros k' m' I. apply in_app_or in I. destruct I as [I | [I | []]]; [apply (L k'); exact I |].
    injection I as <- <-. intro X. apply mem_roots in X. congruence.
Qed.

Lemma Earlier_antisym : forall l n n', Earlier l n n' -> Earlier l n' n -> False.
Proof.
  intros l n n' (p & q & E & A & B) (p' & q' & E' & A' & B'). rewrite E in E'.
  assert (S : (exists z, p = p' ++ z) \/ exists z, p' = p ++ z).
  { clear -E'. revert p' E'. induction p as [| c p IH]; intros p' E; [right; exists p'; reflexivity |].
    destruct p' as [| c' p']; [left; exists (c :: p); reflexivity |]. cbn in E. injection E as -> E.
    destruct (IH _ E) as [(z & ->) | (z & ->)]; [left | right]; exists z; reflexivity. }
  assert (M : forall u z k, LoadedName u k -> LoadedName (u ++ z) k).
  { intros u z k (m & I & N). exists m. split; auto. apply in_or_app. auto. }
  destruct S as [(z & ->) | (z & ->)]; [apply B; apply M; exact A' | apply B'; apply M; exact A].
Qed.

Lemma owner_iff : forall l r p n, fst (get_model_name (r :: p) (drun l)) = Ok n <-> Owner l r n.
Proof.
  intros l r p n. cbn [get_model_name]. rewrite model_name_res. destruct (hist_run l) as [H N].
  assert (C : forall k m, In (k, m) (d_models (drun l)) -> m_name m = k /\ Current l m).
  { intros k m I. destruct (h_name _ _ H _ _ I) as [E1 E2]. split; [exact E1 |]. unfold Current. rewrite E1. exact E2. }
  assert (O : forall n0, assoc String.eqb r (roots_of (d_models (drun l))) = Some n0 -> Owner l r n0).
  { intros n0 E. destruct (roots_last _ _ _ E) as (a & k & m & b & Em & R & Nm & L).
    assert (Im : In (k, m) (d_models (drun l))) by (rewrite Em; apply in_or_app; right; left; reflexivity).
    destruct (C _ _ Im) as [E1 Cm]. exists m. split; [exact Cm |]. split; [exact Nm |]. split; [exact R |].
    intros m' Cm' R'. pose proof (Current_In _ _ Cm') as I'. rewrite Em in I'. apply in_app_or in I'. destruct I' as [I' | [I' | I']].
    - right. apply in_split in I'. destruct I' as (a1 & a2 & ->).
      apply (models_order l (map fst a1) (m_name m') (map fst a2 ++ k :: map fst b) n0).
      + rewrite Em, !map_app. cbn [map fst]. rewrite <- app_assoc. reflexivity.
      + apply in_or_app. right. left. congruence.
    - left. injection I' as _ <-. exact Nm.
    - exfalso. exact (L _ _ I' R'). }
  split.
  - destruct (assoc String.eqb r (roots_of (d_models (drun l)))) as [n0 |] eqn:E.
    + intro X. injection X as <-. apply O. reflexivity.
    + destruct (re_brace r); [destruct (scanned (drun l)) |]; discriminate.
  - intros (m & Cm & Nm & R & L). destruct (roots_known _ r _ _ (Current_In _ _ Cm) R) as (n0 & E). rewrite E.
    destruct (O _ E) as (m0 & Cm0 & Nm0 & R0 & L0). f_equal.
    destruct (L _ Cm0 R0) as [X | X]; [congruence |]. destruct (L0 _ Cm R) as [Y | Y]; [congruence |].
    exfalso. rewrite Nm0 in X. rewrite Nm in Y. exact (Earlier_antisym _ _ _ X Y).
Qed.

Lemma run_scanned : forall l, d_compiler (drun l) <> None <-> Scanned l.
Proof.
  intro l. split; [apply compiler_scanned |]. intros (T & I). apply in_split in I. destruct I as (a & b & ->).
  replace (a ++ DScan T :: b) with ((a ++ [DScan T]) ++ b) by (rewrite <- app_assoc; reflexivity).
  induction b as [| c b IH] using rev_ind.
  - rewrite app_nil_r, drun_snoc. discriminate.
  - rewrite app_assoc, drun_snoc. apply compiler_keep. exact IH.
Qed.

Lemma owner_missing : forall l r p, (forall m, Current l m -> ~ IsRoot m r) ->
  (forall u t, Word u -> Name t -> r = etree u t ->
     (Scanned l -> fst (get_model_name (r :: p) (drun l)) = Err ModelMissing) /\
     (~ Scanned l -> fst (get_model_name (r :: p) (drun l)) = Err ValueError)) /\
  (~ In "{"%char (chars r) -> fst (get_model_name (r :: p) (drun l)) = Err ModelMissing).
Proof.
  intros l r p No. cbn [get_model_name]. rewrite model_name_res. destruct (hist_run l) as [H N].
  destruct (assoc String.eqb r (roots_of (d_models (drun l)))) as [n0 |] eqn:E.
  { exfalso. destruct (roots_some _ _ _ E) as (k & m & I & R & _). destruct (h_name _ _ H _ _ I) as [E1 E2].
    apply (No m); [unfold Current; rewrite E1; exact E2 | exact R]. }
  split.
  - intros u t Wu (Wt & _ & B) ->. rewrite re_brace_app by assumption. unfold scanned.
    pose proof (run_scanned l) as S. destruct (d_compiler (drun l)).
    + split; [reflexivity |]. intro X. exfalso. apply X. apply S. discriminate.
    + split; [| reflexivity]. intro X. apply S in X. congruence.
  - intro B. destruct r as [| c r]; [reflexivity |]. unfold re_brace. cbn [line].
    assert (Nc : Ascii.eqb c "{" = false) by (apply Ascii.eqb_neq; intros ->; apply B; left; reflexivity).
    destruct (Ascii.eqb c newline); [destruct r; reflexivity |]. destruct (line r) as [[| a s] |]; cbn [option_map]; rewrite ?Nc; reflexivity.
Qed.

(** The call changes nothing but the table of namespaces, as reading it does. *)
Lemma owner_state : forall path d, (forall n, fst (get_model_name path d) = Ok n -> snd (get_model_name path d) = d) /\
  (snd (get_model_name path d) = d \/ snd (get_model_name path d) = snd (namespaces d)).
Proof.
  intros [| r p] d; cbn [get_model_name]; [split; auto |]. unfold model_name. destruct (assoc String.eqb r (roots d)); [split; auto |].
  destruct (re_brace r); [| split; auto]. destruct (namespaces d) as [[T | e] d']; cbn [fst snd]; split; auto; discriminate.
Qed.

(** * The name goes with the schema node *)
Lemma pure_owner : forall l ns rp s, pure (d_models (drun l)) ns rp = Ok s ->
  exists r q m, rev rp = r :: q /\ assoc String.eqb r (roots_of (d_models (drun l))) = Some (m_name m) /\ Current l m /\ Data (eq m) (rev rp) s.
Proof.
  intros l ns rp. destruct (hist_run l) as [H _]. induction rp as [| t up IH]; intros s E; [discriminate |].
  destruct up as [| u up'].
  - cbn [pure] in E. unfold pure_root in E.
    destruct (assoc String.eqb t (roots_of (d_models (drun l)))) as [n |] eqn:En.
    + destruct (assoc String.eqb n (d_models (drun l))) as [m |] eqn:Em; [| discriminate].
      destruct (get_child (m_tree m) t) as [[s' |] | e] eqn:Eg; try discriminate. injection E as ->.
      apply get_child_sound in Eg. rewrite (h_assoc _ _ H) in Em. destruct (last_load_In _ _ _ Em) as [_ E1].
      exists t, [], m. split; [reflexivity |]. split; [rewrite E1; exact En |]. split; [unfold Current; rewrite E1; exact Em |].
      apply (data_root _ m); auto.
    + destruct (re_brace t); [destruct ns; discriminate | discriminate].
  - change (pure (d_models (drun l)) ns (t :: u :: up')) with
      (match pure (d_models (drun l)) ns (u :: up') with
       | Err e => Err e
       | Ok p => match get_child p t with Err e => Err e | Ok None => Err ConfigError | Ok (Some s) => Ok s end
       end) in E.
    destruct (pure (d_models (drun l)) ns (u :: up')) as [q | e]; [| discriminate].
    destruct (get_child q t) as [[s' |] | e] eqn:Eg; try discriminate. injection E as ->.
    destruct (IH q eq_refl) as (r & q0 & m & E1 & E2 & C & D). exists r, (q0 ++ [t]), m.
    change (rev (t :: u :: up')) with (rev (u :: up') ++ [t]). rewrite E1. split; [reflexivity |]. split; [exact E2 |]. split; [exact C |].
    rewrite <- E1. apply (data_child _ _ _ q); [exact D | apply get_child_sound; exact Eg].
Qed.
Lemma owner_schema : forall l path s, Owned l -> fst (get_schema_node path (drun l)) = Ok s ->
  exists m, fst (get_model_name path (drun l)) = Ok (m_name m) /\ Current l m /\ Data (eq m) path s.
Proof.
  intros l path s O E. unfold get_schema_node in E.
  destruct (lookup_pure (rev path) (drun l) (valid_run l O)) as (A & _). rewrite A in E.
  destruct (pure_owner _ _ _ _ E) as (r & q & m & E1 & E2 & C & D). rewrite rev_involutive in E1, D. subst path.
  exists m. split; [| auto]. cbn [get_model_name]. rewrite model_name_res, E2. reflexivity.
Qed.
