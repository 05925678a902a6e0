(** Proofs about the state of a device: the cache of schema lookups and the table of
    namespaces. *)
From Coq Require Import String Ascii List Bool Arith Lia.
From Verif Require Import Base BaseP XmlM CalcM DataSpec DataP TagM DeviceM DeviceSpec.
Import ListNotations.
Open Scope string_scope.
Open Scope list_scope.

(** * Dictionaries *)
Lemma path_eqb_ok : eqb_ok path_eqb.
Proof. apply list_eqb_ok. intros a b. apply String.eqb_eq. Qed.
Lemma str_eqb_ok : eqb_ok String.eqb.
Proof. intros a b. apply String.eqb_eq. Qed.

Lemma assoc_In' : forall {K V} (eqb : K -> K -> bool), eqb_ok eqb -> forall k (l : list (K * V)) v,
  assoc eqb k l = Some v -> In (k, v) l.
Proof.
  intros K V eqb Hok k l v. induction l as [| [k' v'] r IH]; simpl; [discriminate |].
  destruct (eqb k k') eqn:E; intro H.
  - apply Hok in E. subst. injection H as ->. left. reflexivity.
  - right. auto.
Qed.
Lemma dset_In' : forall {K V} (eqb : K -> K -> bool) k v (l : list (K * V)) e,
  In e (dset eqb k v l) -> e = (k, v) \/ In e l.
Proof.
  intros K V eqb k v l e. induction l as [| [k' v'] r IH]; simpl.
  - intros [H | []]; auto.
  - destruct (eqb k k'); simpl; intros [H | H]; auto. destruct (IH H); auto.
Qed.
Lemma assoc_dset' : forall {K V} (eqb : K -> K -> bool), eqb_ok eqb -> forall n k v (l : list (K * V)),
  assoc eqb n (dset eqb k v l) = if eqb n k then Some v else assoc eqb n l.
Proof.
  intros K V eqb Hok n k v l. induction l as [| [k' v'] r IH]; simpl; auto.
  destruct (eqb k k') eqn:E; simpl.
  - apply Hok in E. subst k'. destruct (eqb n k) eqn:E2; auto.
  - rewrite IH. destruct (eqb n k') eqn:E2; auto. apply Hok in E2. subst k'.
    destruct (eqb n k) eqn:E3; auto. apply Hok in E3. subst. 
    assert (eqb k k = true) by (apply Hok; reflexivity). congruence.
Qed.

(** * The table of roots *)
Definition roots_of (ms : list (string * model)) : list (string * string) :=
  fold_left (fun acc m => fold_left (fun a r => dset String.eqb r (m_name m) a) (m_roots m) acc)
            (map snd ms) [].

Lemma fold_roots : forall n rs (acc : list (string * string)) r,
  assoc String.eqb r (fold_left (fun a r => dset String.eqb r n a) rs acc) =
  if mem String.eqb r rs then Some n else assoc String.eqb r acc.
Proof.
  intros n rs. induction rs as [| x rs IH]; intros acc r; simpl; auto.
  rewrite IH. rewrite (assoc_dset' _ str_eqb_ok).
  destruct (mem String.eqb r rs); [rewrite orb_true_r; auto |]. rewrite orb_false_r. reflexivity.
Qed.

Lemma mem_roots : forall m r, mem String.eqb r (m_roots m) = true <-> IsRoot m r.
Proof.
  intros m r. unfold m_roots, IsRoot. induction (skids (m_tree m)) as [| k ks IH]; simpl.
  - split; [discriminate | intros (k & [] & _)].
  - rewrite orb_true_iff, String.eqb_eq, IH. split.
    + intros [E | (k' & H & E)]; eauto.
    + intros (k' & [-> | H] & E); eauto.
Qed.

(** Who owns a root: the last model of the table having it. *)
Lemma fold_all : forall ms (acc : list (string * string)) r n,
  assoc String.eqb r (fold_left (fun acc m => fold_left (fun a r => dset String.eqb r (m_name m) a) (m_roots m) acc) ms acc) = Some n ->
  (exists m, In m ms /\ IsRoot m r /\ n = m_name m) \/
  (assoc String.eqb r acc = Some n /\ forall m, In m ms -> ~ IsRoot m r).
Proof.
  intro ms. induction ms as [| m ms IH]; intros acc r n H; simpl in *.
  - right. split; auto.
  - destruct (IH _ _ _ H) as [(m' & A & B & C) | [A B]].
    + left. exists m'. auto.
    + rewrite fold_roots in A. destruct (mem String.eqb r (m_roots m)) eqn:E.
      * left. exists m. apply mem_roots in E. injection A as A. auto.
      * right. split; auto. intros m' [-> | H']; [| auto]. intro X. apply mem_roots in X. congruence.
Qed.
Lemma fold_some : forall ms (acc : list (string * string)) r,
  (exists m, In m ms /\ IsRoot m r) \/ (exists n, assoc String.eqb r acc = Some n) ->
  exists n, assoc String.eqb r (fold_left (fun acc m => fold_left (fun a r => dset String.eqb r (m_name m) a) (m_roots m) acc) ms acc) = Some n.
Proof.
  intro ms. induction ms as [| m ms IH]; intros acc r H; simpl in *.
  - destruct H as [(m & [] & _) | H]; auto.
  - apply IH. destruct H as [(m' & [-> | H] & R) | (n & H)].
    + right. exists (m_name m'). rewrite fold_roots. apply mem_roots in R. rewrite R. reflexivity.
    + left. eauto.
    + right. rewrite fold_roots. destruct (mem String.eqb r (m_roots m)); eauto.
Qed.
Lemma roots_some : forall ms r n, assoc String.eqb r (roots_of ms) = Some n ->
  exists k m, In (k, m) ms /\ IsRoot m r /\ n = m_name m.
Proof.
  intros ms r n H. unfold roots_of in H. apply fold_all in H. destruct H as [(m & A & B & C) | [A _]]; [| discriminate].
  apply in_map_iff in A. destruct A as ([k m'] & E & A). simpl in E. subst m'. exists k, m. auto.
Qed.
Lemma roots_known : forall ms r k m, In (k, m) ms -> IsRoot m r -> exists n, assoc String.eqb r (roots_of ms) = Some n.
Proof.
  intros ms r k m H R. unfold roots_of. apply fold_some. left. exists m. split; auto. apply in_map_iff. exists (k, m). auto.
Qed.

(** * A lookup without a cache *)
Definition pure_root (ms : list (string * model)) (ns : bool) (tag : string) : res snode :=
  match assoc String.eqb tag (roots_of ms) with
  | Some n =>
      match assoc String.eqb n ms with
      | None => Err KeyError
      | Some m => match get_child (m_tree m) tag with Err e => Err e | Ok None => Err ConfigError | Ok (Some s) => Ok s end
      end
  | None => match re_brace tag with Some _ => if ns then Err ModelMissing else Err ValueError | None => Err ModelMissing end
  end.
Fixpoint pure (ms : list (string * model)) (ns : bool) (rp : list string) : res snode :=
  match rp with
  | [] => Err IndexError
  | tag :: up =>
      match up with
      | [] => pure_root ms ns tag
      | _ => match pure ms ns up with
             | Err e => Err e
             | Ok p => match get_child p tag with Err e => Err e | Ok None => Err ConfigError | Ok (Some s) => Ok s end
             end
      end
  end.
Definition scanned (d : device) : bool := match d_compiler d with None => false | Some _ => true end.

Lemma pure_ok_ns : forall ms rp a b s, pure ms a rp = Ok s -> pure ms b rp = Ok s.
Proof.
  intros ms rp a b. induction rp as [| t up IH]; intro s; [discriminate |]. simpl.
  destruct up as [| u up'].
  - unfold pure_root. destruct (assoc String.eqb t (roots_of ms)); auto.
    destruct (re_brace t); [destruct a; discriminate | discriminate].
  - destruct (pure ms a (u :: up')) as [q | e]; [| discriminate]. rewrite (IH q eq_refl). auto.
Qed.

(** The parts of a device that a lookup does not change. *)
Definition same_env (d d' : device) : Prop := d_models d' = d_models d /\ d_compiler d' = d_compiler d.
Definition Valid (d : device) : Prop :=
  forall k s, In (k, s) (d_nodes d) -> pure (d_models d) true (rev k) = Ok s.

Lemma namespaces_env : forall d, same_env d (snd (namespaces d)) /\ d_nodes (snd (namespaces d)) = d_nodes d.
Proof.
  intro d. unfold namespaces, same_env. destruct (d_compiler d) eqn:E; simpl; auto.
  destruct (d_namespaces d); simpl; auto.
Qed.
Lemma model_name_env : forall r d, same_env d (snd (model_name r d)) /\ d_nodes (snd (model_name r d)) = d_nodes d.
Proof.
  intros r d. unfold model_name. destruct (assoc String.eqb r (roots d)); [simpl; unfold same_env; auto |].
  destruct (re_brace r); [| simpl; unfold same_env; auto].
  pose proof (namespaces_env d) as H. destruct (namespaces d) as [x d']. simpl in *. auto.
Qed.
Lemma model_name_res : forall r d, fst (model_name r d) =
  match assoc String.eqb r (roots_of (d_models d)) with
  | Some n => Ok n
  | None => match re_brace r with
            | Some _ => if scanned d then Err ModelMissing else Err ValueError | None => Err ModelMissing end
  end.
Proof.
  intros r d. unfold model_name. change (roots d) with (roots_of (d_models d)).
  destruct (assoc String.eqb r (roots_of (d_models d))); auto.
  destruct (re_brace r); auto. unfold namespaces, scanned. destruct (d_compiler d); auto.
  destruct (d_namespaces d); auto.
Qed.

Lemma remember_valid : forall d k s, Valid d -> pure (d_models d) true (rev k) = Ok s -> Valid (remember k s d).
Proof.
  intros d k s H P k' s' I. simpl in I. apply dset_In' in I. destruct I as [E | I].
  - injection E as -> ->. exact P.
  - apply H. exact I.
Qed.

Lemma lookup_pure : forall rp d, Valid d ->
  fst (lookup_up rp d) = pure (d_models d) (scanned d) rp /\
  same_env d (snd (lookup_up rp d)) /\ Valid (snd (lookup_up rp d)).
Proof.
  intro rp. induction rp as [| tag up IH]; intros d V.
  - simpl. unfold same_env. auto.
  - cbn [lookup_up].
    destruct (assoc path_eqb (rev (tag :: up)) (d_nodes d)) as [s |] eqn:E.
    + apply (assoc_In' _ path_eqb_ok) in E. apply V in E. rewrite rev_involutive in E.
      cbn [fst snd]. split; [| unfold same_env; auto].
      symmetry. apply (pure_ok_ns _ _ true). exact E.
    + destruct up as [| u up'].
      * cbn [pure]. unfold pure_root.
        pose proof (model_name_res tag d) as R. pose proof (model_name_env tag d) as [[Ev1 Ev2] N].
        destruct (model_name tag d) as [r d'] eqn:Em. cbn [fst snd] in R, Ev1, Ev2, N.
        assert (V' : Valid d').
        { intros k s I. rewrite N in I. rewrite Ev1. apply V. exact I. }
        destruct (assoc String.eqb tag (roots_of (d_models d))) as [n |] eqn:Er.
        -- rewrite R. rewrite Ev1.
           destruct (assoc String.eqb n (d_models d)) as [m |] eqn:Eo; [| cbn [fst snd]; unfold same_env; auto].
           destruct (get_child (m_tree m) tag) as [[s |] | e] eqn:Eg; cbn [fst snd]; unfold same_env; auto.
           split; auto. split; [simpl; auto |]. apply remember_valid; auto.
           rewrite rev_involutive. rewrite Ev1. cbn [pure]. unfold pure_root. rewrite Er, Eo, Eg. reflexivity.
        -- rewrite R. destruct (re_brace tag); [destruct (scanned d) |]; cbn [fst snd]; unfold same_env; auto.
      * specialize (IH d V). destruct (lookup_up (u :: up') d) as [r d'] eqn:El.
        cbn [fst snd] in IH. destruct IH as (R & [Ev1 Ev2] & V').
        change (pure (d_models d) (scanned d) (tag :: u :: up')) with
          (match pure (d_models d) (scanned d) (u :: up') with
           | Err e => Err e
           | Ok p => match get_child p tag with Err e => Err e | Ok None => Err ConfigError | Ok (Some s) => Ok s end
           end).
        rewrite <- R. destruct r as [p | e]; [| cbn [fst snd]; unfold same_env; auto].
        destruct (get_child p tag) as [[s |] | e] eqn:Eg; cbn [fst snd]; unfold same_env; auto.
        split; auto. split; [simpl; auto |]. apply remember_valid; auto.
        rewrite rev_involutive. rewrite Ev1.
        change (pure (d_models d) true (tag :: u :: up')) with
          (match pure (d_models d) true (u :: up') with
           | Err e => Err e
           | Ok p => match get_child p tag with Err e => Err e | Ok None => Err ConfigError | Ok (Some s) => Ok s end
           end).
        rewrite (pure_ok_ns _ _ _ true _ (eq_sym R)). rewrite Eg. reflexivity.
Qed.

(** * Histories *)
Lemma drun_snoc : forall l c, drun (l ++ [c]) = dstep c (drun l).
Proof. intros l c. unfold drun. rewrite fold_left_app. reflexivity. Qed.

Lemma last_load_snoc : forall n l c, last_load n (l ++ [c]) =
  match c with DLoad m => if String.eqb (m_name m) n then Some m else last_load n l | _ => last_load n l end.
Proof.
  intros n l c. induction l as [| x l IH]; simpl.
  - destruct c; auto.
  - rewrite IH. destruct c; auto. destruct (String.eqb (m_name m) n); auto.
Qed.
Lemma last_load_In : forall n l m, last_load n l = Some m -> In (DLoad m) l /\ m_name m = n.
Proof.
  intros n l m. induction l as [| c l IH]; simpl; [discriminate |].
  destruct (last_load n l) as [m' |].
  - intro H. destruct (IH H). auto.
  - destruct c; try discriminate. destruct (String.eqb (m_name m0) n) eqn:E; [| discriminate].
    intro H. injection H as ->. apply String.eqb_eq in E. auto.
Qed.

Definition Known (ms : list (string * model)) (k : list string) : Prop :=
  exists r p n, k = r :: p /\ assoc String.eqb r (roots_of ms) = Some n.

Lemma get_schema_env : forall rp d, same_env d (snd (lookup_up rp d)).
Proof.
  intro rp. induction rp as [| tag up IH]; intro d; [simpl; unfold same_env; auto |]. cbn [lookup_up].
  destruct (assoc path_eqb (rev (tag :: up)) (d_nodes d)); [unfold same_env; auto |].
  destruct up as [| u up'].
  - pose proof (model_name_env tag d) as [[E1 E2] _]. destruct (model_name tag d) as [[n | e] d']; cbn [snd] in *; [| unfold same_env; auto].
    destruct (assoc String.eqb n (d_models d')); [| unfold same_env; auto].
    destruct (get_child (m_tree m) tag) as [[s |] | e]; unfold same_env; simpl; auto.
  - specialize (IH d). destruct (lookup_up (u :: up') d) as [[p | e] d']; cbn [snd] in *; auto.
    destruct (get_child p tag) as [[s |] | e]; auto.
Qed.

Lemma lookup_known : forall rp d, (forall k s, In (k, s) (d_nodes d) -> Known (d_models d) k) ->
  (forall k s, In (k, s) (d_nodes (snd (lookup_up rp d))) -> Known (d_models d) k) /\
  (forall s, fst (lookup_up rp d) = Ok s -> Known (d_models d) (rev rp)).
Proof.
  intro rp. induction rp as [| tag up IH]; intros d V.
  - simpl. split; [exact V | discriminate].
  - cbn [lookup_up].
    destruct (assoc path_eqb (rev (tag :: up)) (d_nodes d)) as [s |] eqn:E.
    + cbn [fst snd]. split; [exact V |]. intros s' _. apply (assoc_In' _ path_eqb_ok) in E. exact (V _ _ E).
    + destruct up as [| u up'].
      * pose proof (model_name_res tag d) as R. pose proof (model_name_env tag d) as [[Ev1 Ev2] N].
        destruct (model_name tag d) as [r d'] eqn:Em. cbn [fst snd] in R, Ev1, Ev2, N.
        assert (V' : forall k s, In (k, s) (d_nodes d') -> Known (d_models d) k) by (rewrite N; exact V).
        destruct r as [n | e]; [| cbn [fst snd]; split; [exact V' | discriminate]].
        assert (K : Known (d_models d) [tag]).
        { exists tag, [], n. split; auto. destruct (assoc String.eqb tag (roots_of (d_models d))); [congruence |].
          destruct (re_brace tag); [destruct (scanned d) |]; discriminate. }
        destruct (assoc String.eqb n (d_models d')); [| cbn [fst snd]; split; [exact V' | discriminate]].
        destruct (get_child (m_tree m) tag) as [[s |] | e]; cbn [fst snd]; split; try exact V'; try discriminate.
        -- simpl. intros k s' I. apply dset_In' in I. destruct I as [I | I]; [injection I as -> ->; exact K | exact (V' _ _ I)].
        -- intros s' _. exact K.
      * specialize (IH d V). destruct (lookup_up (u :: up') d) as [r d'] eqn:El. cbn [fst snd] in IH. destruct IH as [V' K].
        destruct r as [p | e]; [| cbn [fst snd]; split; [exact V' | discriminate]].
        specialize (K p eq_refl).
        assert (K' : Known (d_models d) (rev (tag :: u :: up'))).
        { destruct K as (r & q & n & K1 & K2). exists r, (q ++ [tag]), n. split; auto.
          change (rev (tag :: u :: up')) with (rev (u :: up') ++ [tag]). rewrite K1. reflexivity. }
        destruct (get_child p tag) as [[s |] | e]; cbn [fst snd]; split; try exact V'; try discriminate.
        -- cbn [remember d_nodes]. intros k s' I. apply dset_In' in I.
           destruct I as [I | I]; [injection I as -> ->; exact K' | exact (V' _ _ I)].
        -- intros s' _. exact K'.
Qed.

Lemma purge_ok : forall d name l, (forall k s, In (k, s) l -> Known (d_models d) k) ->
  exists l', purge d name l = Ok l' /\
    forall k s, In (k, s) l' -> In (k, s) l /\
      exists r p n, k = r :: p /\ assoc String.eqb r (roots_of (d_models d)) = Some n /\ n <> name.
Proof.
  intros d name l. induction l as [| [k v] l IH]; intro V.
  - exists []. split; auto. intros k s [].
  - destruct IH as (l' & E & P). { intros k' s' I. apply (V k' s'). right. exact I. }
    destruct (V k v (or_introl eq_refl)) as (r & p & n & -> & R).
    cbn [purge root_owner]. change (roots d) with (roots_of (d_models d)). rewrite R. cbn [bind]. rewrite E. cbn [bind].
    eexists. split; [reflexivity |]. intros k s I.
    destruct (String.eqb n name) eqn:En.
    + destruct (P _ _ I) as [A B]. split; [right; exact A | exact B].
    + destruct I as [I | I].
      * injection I as <- <-. split; [left; reflexivity |]. exists r, p, n. split; auto. split; auto.
        apply String.eqb_neq. exact En.
      * destruct (P _ _ I) as [A B]. split; [right; exact A | exact B].
Qed.

Record Hist (l : list dcall) (d : device) : Prop := {
  h_assoc : forall n, assoc String.eqb n (d_models d) = last_load n l;
  h_name : forall k m, In (k, m) (d_models d) -> m_name m = k /\ last_load k l = Some m;
  h_known : forall k s, In (k, s) (d_nodes d) -> Known (d_models d) k }.

Lemma dset_NoDup_In : forall {V} k (v : V) (l : list (string * V)) e, NoDup (map fst l) ->
  In e (dset String.eqb k v l) -> e = (k, v) \/ (In e l /\ fst e <> k).
Proof.
  intros V k v l e. induction l as [| [k' v'] r IH]; simpl; intros N H.
  - destruct H as [H | []]; auto.
  - inversion N as [| a b N1 N2]; subst. destruct (String.eqb k k') eqn:E; simpl in H.
    + apply String.eqb_eq in E. subst k'. destruct H as [H | H]; auto. right. split; auto.
      intro X. apply N1. rewrite <- X. apply in_map. exact H.
    + destruct H as [H | H].
      * right. split; auto. subst e. simpl. intro X. subst k'. rewrite String.eqb_refl in E. discriminate.
      * destruct (IH N2 H) as [A | [A B]]; auto.
Qed.
Lemma dset_keys : forall {V} k (v : V) (l : list (string * V)), NoDup (map fst l) -> NoDup (map fst (dset String.eqb k v l)).
Proof.
  intros V k v l. induction l as [| [k' v'] r IH]; simpl; intro N.
  - constructor; [intros [] | constructor].
  - inversion N as [| a b N1 N2]; subst. destruct (String.eqb k k') eqn:E; simpl.
    + apply String.eqb_eq in E. subst k'. constructor; auto.
    + constructor; auto. intro X. apply in_map_iff in X. destruct X as (e & E1 & E2).
      apply dset_In' in E2. destruct E2 as [E2 | E2].
      * subst e. simpl in E1. subst k'. rewrite String.eqb_refl in E. discriminate.
      * apply N1. rewrite <- E1. apply in_map. exact E2.
Qed.
Lemma dset_new_In : forall {V} k (v : V) (l : list (string * V)), In (k, v) (dset String.eqb k v l).
Proof.
  intros V k v l. induction l as [| [k' v'] r IH]; simpl; [left; auto |].
  destruct (String.eqb k k'); simpl; auto.
Qed.
Lemma dset_keep : forall {V} k (v : V) (l : list (string * V)) e, In e l -> fst e <> k -> In e (dset String.eqb k v l).
Proof.
  intros V k v l e. induction l as [| [k' v'] r IH]; simpl; [tauto |].
  intros H N. destruct (String.eqb k k') eqn:E; simpl.
  - apply String.eqb_eq in E. subst k'. destruct H as [H | H]; auto. subst e. simpl in N. congruence.
  - destruct H as [H | H]; auto.
Qed.

Lemma known_load : forall l d m k r p n, Hist l d -> k = r :: p ->
  assoc String.eqb r (roots_of (d_models d)) = Some n -> n <> m_name m ->
  Known (dset String.eqb (m_name m) m (d_models d)) k.
Proof.
  intros l d m k r p n H -> R N. apply roots_some in R. destruct R as (k0 & m0 & I & Rt & ->).
  destruct (h_name _ _ H _ _ I) as [E _]. subst k0.
  assert (I' : In (m_name m0, m0) (dset String.eqb (m_name m) m (d_models d))) by (apply dset_keep; auto).
  destruct (roots_known _ r _ _ I' Rt) as (n' & Hn). exists r, p, n'. auto.
Qed.

Definition NDup (d : device) : Prop := NoDup (map fst (d_models d)).

Lemma load_hist : forall l d m, Hist l d -> NDup d ->
  exists ns, load_model m d =
    (Ok tt, Device (dset String.eqb (m_name m) m (d_models d)) ns (d_compiler d) (d_namespaces d)) /\
    (forall k s, In (k, s) ns -> In (k, s) (d_nodes d) /\
       exists r p n, k = r :: p /\ assoc String.eqb r (roots_of (d_models d)) = Some n /\ n <> m_name m).
Proof.
  intros l d m H N. unfold load_model. destruct (assoc String.eqb (m_name m) (d_models d)) as [m0 |] eqn:E.
  - destruct (purge_ok d (m_name m) (d_nodes d) (h_known _ _ H)) as (l' & P & Q). rewrite P.
    exists l'. split; auto.
  - exists (d_nodes d). split; auto. intros k s I. split; auto.
    destruct (h_known _ _ H _ _ I) as (r & p & n & Ek & R). exists r, p, n. split; auto. split; auto.
    intro X. subst n. destruct (roots_some _ _ _ R) as (k0 & m0 & I0 & _ & E0).
    destruct (h_name _ _ H _ _ I0) as [E1 E2]. rewrite <- (h_assoc _ _ H) in E2. congruence.
Qed.

Lemma hist_step : forall l d c, Hist l d -> NDup d -> Hist (l ++ [c]) (dstep c d) /\ NDup (dstep c d).
Proof.
  intros l d c H N. destruct c as [T | m | path |]; cbn [dstep].
  - split; [| exact N]. constructor; simpl.
    + intro n. rewrite last_load_snoc. apply (h_assoc _ _ H).
    + intros k m I. rewrite last_load_snoc. apply (h_name _ _ H). exact I.
    + apply (h_known _ _ H).
  - destruct (load_hist l d m H N) as (ns & E & P). rewrite E. cbn [snd]. split.
    + constructor; cbn [d_models d_nodes].
      * intro n. rewrite (assoc_dset' _ str_eqb_ok), last_load_snoc, (String.eqb_sym n).
        destruct (String.eqb (m_name m) n); auto. apply (h_assoc _ _ H).
      * intros k m0 I. apply dset_NoDup_In in I; [| exact N]. rewrite last_load_snoc. destruct I as [I | [I J]].
        -- injection I as -> ->. rewrite String.eqb_refl. auto.
        -- simpl in J. rewrite (proj2 (String.eqb_neq _ _)) by congruence. apply (h_name _ _ H). exact I.
      * intros k s I. destruct (P _ _ I) as [A (r & p & n & E1 & E2 & E3)]. eapply known_load; eauto.
    + unfold NDup. cbn [d_models]. apply dset_keys. exact N.
  - unfold get_schema_node. pose proof (get_schema_env (rev path) d) as [E1 E2].
    destruct (lookup_known (rev path) d (h_known _ _ H)) as [K _]. split.
    + constructor.
      * intro n. rewrite last_load_snoc, E1. apply (h_assoc _ _ H).
      * intros k m I. rewrite last_load_snoc. rewrite E1 in I. apply (h_name _ _ H). exact I.
      * rewrite E1. exact K.
    + unfold NDup. rewrite E1. exact N.
  - pose proof (namespaces_env d) as [[E1 E2] E3]. split.
    + constructor.
      * intro n. rewrite last_load_snoc, E1. apply (h_assoc _ _ H).
      * intros k m I. rewrite last_load_snoc. rewrite E1 in I. apply (h_name _ _ H). exact I.
      * rewrite E1, E3. apply (h_known _ _ H).
    + unfold NDup. rewrite E1. exact N.
Qed.

Lemma hist_run : forall l, Hist l (drun l) /\ NDup (drun l).
Proof.
  intro l. induction l as [| c l IH] using rev_ind.
  - split; [| constructor]. constructor; simpl; auto; intros k s [].
  - rewrite drun_snoc. destruct IH. apply hist_step; auto.
Qed.

(** Loading a model never fails. *)
Lemma load_ok : forall l m, fst (load_model m (drun l)) = Ok tt.
Proof.
  intros l m. destruct (hist_run l) as [H N]. destruct (load_hist l _ m H N) as (ns & E & _). rewrite E. reflexivity.
Qed.

(** * The cache *)
Lemma pure_cong : forall ms ms' r p ns, pure_root ms ns r = pure_root ms' ns r ->
  pure ms ns (p ++ [r]) = pure ms' ns (p ++ [r]).
Proof.
  intros ms ms' r p ns E. induction p as [| t p IH]; [exact E |].
  change ((t :: p) ++ [r]) with (t :: (p ++ [r])). 
  destruct (p ++ [r]) as [| a b] eqn:Ep; [destruct p; discriminate |].
  cbn [pure]. cbn [pure] in IH. rewrite IH. reflexivity.
Qed.

Lemma Owned_snoc : forall l c, Owned (l ++ [c]) -> Owned l.
Proof. intros l c H m m' r A B. apply H; apply in_or_app; left; auto. Qed.

Lemma valid_run : forall l, Owned l -> Valid (drun l).
Proof.
  intro l. induction l as [| c l IH] using rev_ind; intro O.
  - intros k s [].
  - specialize (IH (Owned_snoc _ _ O)). rewrite drun_snoc. set (d := drun l) in *.
    assert (HN : Hist l d /\ NDup d) by apply hist_run. destruct HN as [H N].
    destruct c as [T | m | path |]; cbn [dstep].
    + exact IH.
    + destruct (load_hist l d m H N) as (ns & E & P). rewrite E. cbn [snd]. intros k s I. cbn [d_nodes d_models] in *.
      destruct (P _ _ I) as [A (r & p & n & -> & R & NE)]. specialize (IH _ _ A).
      cbn [rev] in *. rewrite <- IH. symmetry. apply pure_cong. unfold pure_root. rewrite R.
      destruct (roots_some _ _ _ R) as (k0 & m0 & I0 & R0 & E0).
      destruct (h_name _ _ H _ _ I0) as [E1 E2]. subst k0.
      assert (I0' : In (m_name m0, m0) (dset String.eqb (m_name m) m (d_models d))).
      { apply dset_keep; auto. simpl. congruence. }
      destruct (roots_known _ r _ _ I0' R0) as (n' & Hn).
      destruct (roots_some _ _ _ Hn) as (k1 & m1 & I1 & R1 & E3).
      assert (L0 : In (DLoad m0) (l ++ [DLoad m])).
      { apply in_or_app. left. apply last_load_In in E2. tauto. }
      assert (L1 : In (DLoad m1) (l ++ [DLoad m])).
      { apply in_or_app. apply dset_In' in I1. destruct I1 as [I1 | I1].
        - injection I1 as _ ->. right. left. reflexivity.
        - left. destruct (h_name _ _ H _ _ I1) as [_ X]. apply last_load_In in X. tauto. }
      pose proof (O m1 m0 r L1 L0 R1 R0) as EE. rewrite Hn. subst n'. subst n. rewrite EE.
      rewrite (assoc_dset' _ str_eqb_ok). rewrite (proj2 (String.eqb_neq _ _) NE). reflexivity.
    + unfold get_schema_node. apply lookup_pure. exact IH.
    + pose proof (namespaces_env d) as [[E1 E2] E3]. intros k s. rewrite E1, E3. apply IH.
Qed.

Lemma lookup_same : forall l path, Owned l ->
  fst (get_schema_node path (drun l)) = fst (get_schema_node path (forget (drun l))).
Proof.
  intros l path O. unfold get_schema_node.
  destruct (lookup_pure (rev path) (drun l) (valid_run l O)) as (A & _).
  assert (V : Valid (forget (drun l))) by (intros k s []).
  destruct (lookup_pure (rev path) _ V) as (B & _). rewrite A, B. reflexivity.
Qed.

(** * The answer of a lookup *)
Lemma names_flat_node : forall s pos inc, map (fun e => stag (ce_node e)) (flat_node pos inc s) = data_names s.
Proof.
  intro s. induction s as [i ks IH] using snode_ind'. intros pos inc. rewrite flat_node_eq.
  unfold sty. cbn [si data_names]. destruct (s_type i) eqn:Et; cbn [is_choice_or_case]; try reflexivity.
  all: cbn [skids]; rewrite <- flat_list_go; generalize 0 as n; clear Et;
    induction ks as [| k ks IHk]; intro n; [reflexivity |];
    inversion IH as [| a b H1 H2]; subst; cbn [flat_list flat_map]; rewrite map_app, H1, IHk; auto.
Qed.
Lemma names_flat : forall s, map (fun e => stag (ce_node e)) (flat s) = child_names s.
Proof.
  intro s. unfold flat, child_names. generalize 0 as n. generalize (@nil nat) as pos.
  induction (skids s) as [| k ks IH]; intros pos n; [reflexivity |].
  cbn [flat_list flat_map]. rewrite map_app, names_flat_node, IH. reflexivity.
Qed.

Lemma get_child_sound : forall p t s, get_child p t = Ok (Some s) -> Defines p t s.
Proof.
  intros p t s H. apply schema_child_Defines. apply schema_child_entry. unfold get_child in H. unfold schema_entry.
  destruct (filter (fun c => String.eqb (stag (ce_node c)) t) (flat p)) as [| a [| b r]]; try discriminate.
  injection H as H. eauto.
Qed.

Lemma filter_sole : forall {A} (f : A -> string) l t e, NoDup (map f l) -> In e l -> f e = t ->
  filter (fun c => String.eqb (f c) t) l = [e].
Proof.
  intros A f l t e. induction l as [| a l IH]; intros N I E; [destruct I |].
  cbn [map] in N. inversion N as [| x y N1 N2]; subst. cbn [filter]. destruct I as [-> | I].
  - rewrite String.eqb_refl. f_equal. clear IH N N2. induction l as [| b l IH]; auto.
    cbn [filter]. destruct (String.eqb (f b) (f e)) eqn:Eb.
    + exfalso. apply N1. left. apply String.eqb_eq. exact Eb.
    + apply IH. intro X. apply N1. right. exact X.
  - destruct (String.eqb (f a) (f e)) eqn:Ea; [| auto].
    exfalso. apply N1. apply String.eqb_eq in Ea. rewrite Ea. apply in_map. exact I.
Qed.

Lemma get_child_complete : forall p t s, NoDup (child_names p) -> Defines p t s -> get_child p t = Ok (Some s).
Proof.
  intros p t s N D. apply Defines_flat in D. destruct D as (e & I & E & T).
  rewrite <- names_flat in N. unfold get_child.
  rewrite (filter_sole (fun c => stag (ce_node c)) (flat p) t e N I) by congruence. rewrite E. reflexivity.
Qed.

Lemma pure_sound : forall l ns rp s, pure (d_models (drun l)) ns rp = Ok s -> Data (Current l) (rev rp) s.
Proof.
  intros l ns rp. destruct (hist_run l) as [H _]. induction rp as [| t up IH]; intros s E; [discriminate |].
  destruct up as [| u up'].
  - cbn [pure] in E. unfold pure_root in E.
    destruct (assoc String.eqb t (roots_of (d_models (drun l)))) as [n |].
    + destruct (assoc String.eqb n (d_models (drun l))) as [m |] eqn:Em; [| discriminate].
      destruct (get_child (m_tree m) t) as [[s' |] | e] eqn:Eg; try discriminate. injection E as ->.
      apply get_child_sound in Eg. apply (data_root _ m); auto. unfold Current.
      rewrite (h_assoc _ _ H) in Em. destruct (last_load_In _ _ _ Em) as [_ E1]. rewrite E1. exact Em.
    + destruct (re_brace t); [destruct ns; discriminate | discriminate].
  - change (pure (d_models (drun l)) ns (t :: u :: up')) with
      (match pure (d_models (drun l)) ns (u :: up') with
       | Err e => Err e
       | Ok p => match get_child p t with Err e => Err e | Ok None => Err ConfigError | Ok (Some s) => Ok s end
       end) in E.
    destruct (pure (d_models (drun l)) ns (u :: up')) as [q | e]; [| discriminate].
    destruct (get_child q t) as [[s' |] | e] eqn:Eg; try discriminate. injection E as ->.
    change (rev (t :: u :: up')) with (rev (u :: up') ++ [t]).
    apply (data_child _ _ _ q); [apply IH; reflexivity | apply get_child_sound; exact Eg].
Qed.

Lemma lookup_sound : forall l path s, Owned l -> fst (get_schema_node path (drun l)) = Ok s -> Data (Current l) path s.
Proof.
  intros l path s O E. unfold get_schema_node in E.
  destruct (lookup_pure (rev path) (drun l) (valid_run l O)) as (A & _). rewrite A in E.
  apply pure_sound in E. rewrite rev_involutive in E. exact E.
Qed.

Lemma Current_In : forall l m, Current l m -> In (m_name m, m) (d_models (drun l)).
Proof.
  intros l m C. destruct (hist_run l) as [H _]. unfold Current in C. rewrite <- (h_assoc _ _ H) in C.
  apply (assoc_In' _ str_eqb_ok) in C. exact C.
Qed.

Lemma Data_nonempty : forall ms p s, Data ms p s -> p <> [].
Proof. intros ms p s H. destruct H as [| p t q s]; [discriminate |]. destruct p; discriminate. Qed.

Lemma lookup_complete : forall l path s, Owned l -> DistinctNames (Current l) ->
  (forall m k, Current l m -> In k (skids (m_tree m)) -> sty k <> TChoice /\ sty k <> TCase) ->
  Data (Current l) path s -> fst (get_schema_node path (drun l)) = Ok s.
Proof.
  intros l path s O D NC HD. unfold get_schema_node.
  destruct (lookup_pure (rev path) (drun l) (valid_run l O)) as (A & _). rewrite A. clear A.
  destruct (hist_run l) as [H _]. generalize (scanned (drun l)) as ns. intro ns.
  induction HD as [m r s C Df | p t q s HD IH Df].
  - cbn [rev app pure]. unfold pure_root.
    assert (R : IsRoot m r).
    { destruct Df as (Tg & k & Ik & Th). exists k. split; auto.
      destruct (NC m k C Ik) as [N1 N2]. destruct Th; congruence. }
    destruct (roots_known _ r _ _ (Current_In _ _ C) R) as (n & Hn). rewrite Hn.
    destruct (roots_some _ _ _ Hn) as (k1 & m1 & I1 & R1 & ->).
    destruct (h_name _ _ H _ _ I1) as [E1 E2]. subst k1.
    assert (E : m_name m1 = m_name m).
    { apply (O m1 m r); auto.
      - apply last_load_In in E2. tauto.
      - unfold Current in C. apply last_load_In in C. tauto. }
    rewrite E, (h_assoc _ _ H). unfold Current in C. rewrite C.
    rewrite (get_child_complete (m_tree m) r s); auto. apply (proj1 D m). exact C.
  - rewrite rev_app_distr. cbn [rev app]. destruct (rev p) as [| u up'] eqn:Ep.
    + exfalso. apply (Data_nonempty _ _ _ HD). destruct p; auto. simpl in Ep. destruct (rev p); discriminate.
    + change (pure (d_models (drun l)) ns (t :: u :: up')) with
        (match pure (d_models (drun l)) ns (u :: up') with
         | Err e => Err e
         | Ok p => match get_child p t with Err e => Err e | Ok None => Err ConfigError | Ok (Some s) => Ok s end
         end).
      rewrite IH. rewrite (get_child_complete q t s); auto. exact (proj2 D p q HD).
Qed.

(** * The namespace table *)
Lemma namespaces_unscanned : forall d, d_compiler d = None -> snd (namespaces d) = d.
Proof. intros d E. unfold namespaces. rewrite E. reflexivity. Qed.
Lemma namespaces_some : forall d N, d_namespaces d = Some N -> snd (namespaces d) = d.
Proof. intros d N E. unfold namespaces. rewrite E. destruct (d_compiler d); reflexivity. Qed.
Lemma namespaces_after : forall d, d_namespaces (snd (namespaces d)) = d_namespaces d \/
  d_namespaces (snd (namespaces d)) = d_compiler d /\ d_namespaces d = None.
Proof.
  intro d. unfold namespaces. destruct (d_compiler d) eqn:E; simpl; auto. destruct (d_namespaces d) eqn:E'; simpl; auto.
Qed.

(** A lookup reads the table only for an unknown root. *)
Lemma lookup_ns : forall rp d,
  d_namespaces (snd (lookup_up rp d)) = d_namespaces d \/
  (~ Known (d_models d) (rev rp) /\ rp <> [] /\ d_namespaces d = None /\ d_compiler d <> None /\
   d_namespaces (snd (lookup_up rp d)) = d_compiler d).
Proof.
  intro rp. induction rp as [| tag up IH]; intro d; [left; reflexivity |]. cbn [lookup_up].
  destruct (assoc path_eqb (rev (tag :: up)) (d_nodes d)); [left; reflexivity |].
  destruct up as [| u up'].
  - unfold model_name. change (roots d) with (roots_of (d_models d)).
    destruct (assoc String.eqb tag (roots_of (d_models d))) as [n |] eqn:Er.
    + left. destruct (assoc String.eqb n (d_models d)); auto.
      destruct (get_child (m_tree m) tag) as [[s |] | e]; reflexivity.
    + destruct (re_brace tag); [| left; reflexivity].
      destruct (namespaces d) as [x d'] eqn:En. destruct (namespaces_after d) as [E | [E1 E2]]; rewrite En in *; cbn [snd] in *.
      * left. destruct x; cbn [snd]; auto.
      * destruct (d_compiler d) as [T |] eqn:Ec.
        -- right. split; [| split; [discriminate | split; [exact E2 | split; [discriminate | destruct x; exact E1]]]].
           intros (r & p0 & n & Ek & R). simpl in Ek. injection Ek as -> _. congruence.
        -- left. destruct x; cbn [snd]; congruence.
  - specialize (IH d). destruct (lookup_up (u :: up') d) as [[q | e] d'] eqn:El; cbn [snd] in *.
    + assert (G : d_namespaces (snd match get_child q tag with
        | Err e => (Err e, d') | Ok None => (Err ConfigError, d')
        | Ok (Some s) => (Ok s, remember (rev (tag :: u :: up')) s d') end) = d_namespaces d').
      { destruct (get_child q tag) as [[s |] | e]; reflexivity. }
      rewrite G. destruct IH as [IH | (K & _ & A & B & C)]; [left; auto |].
      right. split; [| split; [discriminate | auto]].
      intros (r & p & n & Ek & R). apply K. change (rev (tag :: u :: up')) with (rev (u :: up') ++ [tag]) in Ek.
      destruct (rev (u :: up')) as [| a b] eqn:Ab.
      * exfalso. simpl in Ab. destruct (rev up'); discriminate.
      * injection Ek as -> _. exists r, b, n. auto.
    + destruct IH as [IH | (K & _ & A & B & C)]; [left; auto |].
      right. split; [| split; [discriminate | auto]].
      intros (r & p & n & Ek & R). apply K. change (rev (tag :: u :: up')) with (rev (u :: up') ++ [tag]) in Ek.
      destruct (rev (u :: up')) as [| a b] eqn:Ab.
      * exfalso. simpl in Ab. destruct (rev up'); discriminate.
      * injection Ek as -> _. exists r, b, n. auto.
Qed.

Lemma known_root : forall l path, Known (d_models (drun l)) path <-> RootKnown l path.
Proof.
  intros l path. destruct (hist_run l) as [H _]. split.
  - intros (r & p & n & -> & R). destruct (roots_some _ _ _ R) as (k & m & I & Rt & _).
    exists m, r, p. split; auto. split; auto. destruct (h_name _ _ H _ _ I) as [E1 E2]. unfold Current. rewrite E1. exact E2.
  - intros (m & r & p & -> & C & Rt). destruct (roots_known _ r _ _ (Current_In _ _ C) Rt) as (n & Hn).
    exists r, p, n. auto.
Qed.

Lemma load_rest : forall m d, d_compiler (snd (load_model m d)) = d_compiler d /\
  d_namespaces (snd (load_model m d)) = d_namespaces d.
Proof.
  intros m d. unfold load_model. destruct (assoc String.eqb (m_name m) (d_models d)); auto.
  destruct (purge d (m_name m) (d_nodes d)); auto.
Qed.

Lemma compiler_step : forall c d, d_compiler (dstep c d) =
  match c with DScan T => Some T | _ => d_compiler d end.
Proof.
  intros c d. destruct c as [T | m | path |]; simpl; auto.
  - apply load_rest.
  - apply get_schema_env.
  - apply namespaces_env.
Qed.

Lemma compiler_scanned : forall l, d_compiler (drun l) <> None -> Scanned l.
Proof.
  intro l. induction l as [| c l IH] using rev_ind; [intro H; exfalso; apply H; reflexivity |].
  rewrite drun_snoc, compiler_step. intro H. destruct c as [T | m | path |];
    try (destruct (IH H) as (T & I); exists T; apply in_or_app; left; exact I).
  exists T. apply in_or_app. right. left. reflexivity.
Qed.

Lemma Unread_snoc : forall l c, Unread (l ++ [c]) -> Unread l /\ (MayRead l c -> ~ Scanned l).
Proof.
  intros l c U. split.
  - intros p c' q E. apply (U p c' (q ++ [c])). rewrite E, <- app_assoc. reflexivity.
  - apply (U l c []). reflexivity.
Qed.

Lemma unread_none : forall l, Unread l -> d_namespaces (drun l) = None.
Proof.
  intro l. induction l as [| c l IH] using rev_ind; intro U; [reflexivity |].
  apply Unread_snoc in U. destruct U as [U R]. specialize (IH U). rewrite drun_snoc.
  destruct c as [T | m | path |]; cbn [dstep].
  - exact IH.
  - rewrite (proj2 (load_rest m (drun l))). exact IH.
  - unfold get_schema_node. destruct (lookup_ns (rev path) (drun l)) as [E | (K & _ & _ & C & _)]; [congruence |].
    exfalso. apply R.
    + intro X. apply K. rewrite rev_involutive. apply known_root. exact X.
    + apply compiler_scanned. exact C.
  - destruct (namespaces_after (drun l)) as [E | [E1 E2]]; [congruence |].
    rewrite E1. destruct (d_compiler (drun l)) eqn:Ec; auto.
    exfalso. apply R; [exact I |]. apply compiler_scanned. congruence.
Qed.

Lemma ns_keep : forall c d N, d_namespaces d = Some N -> d_namespaces (dstep c d) = Some N.
Proof.
  intros c d N E. destruct c as [T | m | path |]; cbn [dstep].
  - exact E.
  - rewrite (proj2 (load_rest m d)). exact E.
  - unfold get_schema_node. destruct (lookup_ns (rev path) d) as [G | (_ & _ & G & _)]; congruence.
  - rewrite (namespaces_some _ _ E). exact E.
Qed.

Definition Shows (d : device) (T : table) : Prop :=
  d_compiler d = Some T /\ (d_namespaces d = None \/ d_namespaces d = Some T).

Lemma shows_run : forall l2 l1 T, Unread l1 -> (forall T', ~ In (DScan T') l2) ->
  Shows (drun (l1 ++ DScan T :: l2)) T.
Proof.
  intro l2. induction l2 as [| c l2 IH] using rev_ind; intros l1 T U NS.
  - rewrite drun_snoc. split; [reflexivity |]. left. cbn. apply unread_none. exact U.
  - change (DScan T :: l2 ++ [c]) with ((DScan T :: l2) ++ [c]). rewrite app_assoc, drun_snoc.
    destruct (IH l1 T U) as [C N]. { intros T' X. apply (NS T'). apply in_or_app. auto. }
    set (d := drun (l1 ++ DScan T :: l2)) in *. clearbody d. split.
    + rewrite compiler_step. destruct c; auto. exfalso. apply (NS T0). apply in_or_app. right. left. reflexivity.
    + destruct N as [N | N]; [| right; apply ns_keep; exact N].
      destruct c as [T' | m | path |]; cbn [dstep].
      * left. exact N.
      * rewrite (proj2 (load_rest m d)). auto.
      * unfold get_schema_node. destruct (lookup_ns (rev path) d) as [G | (_ & _ & _ & _ & G)]; rewrite G; auto.
      * destruct (namespaces_after d) as [G | [G _]]; rewrite G; auto.
Qed.

Lemma last_scan_read : forall l1 T l2, Unread l1 -> (forall T', ~ In (DScan T') l2) ->
  fst (namespaces (drun (l1 ++ DScan T :: l2))) = Ok T.
Proof.
  intros l1 T l2 U N. destruct (shows_run l2 l1 T U N) as [C [E | E]]; unfold namespaces; rewrite C, E; reflexivity.
Qed.

Lemma compiler_keep : forall c d, d_compiler d <> None -> d_compiler (dstep c d) <> None.
Proof. intros c d H. rewrite compiler_step. destruct c; auto. discriminate. Qed.

Lemma first_read_stays : forall l T l', fst (namespaces (drun l)) = Ok T ->
  fst (namespaces (drun (l ++ DNamespaces :: l'))) = Ok T.
Proof.
  intros l T l' E.
  assert (G : d_compiler (drun (l ++ DNamespaces :: l')) <> None /\ d_namespaces (drun (l ++ DNamespaces :: l')) = Some T).
  { induction l' as [| c l' IH] using rev_ind.
    - rewrite drun_snoc. cbn [dstep]. unfold namespaces in *. destruct (d_compiler (drun l)) eqn:C; [| discriminate].
      destruct (d_namespaces (drun l)) eqn:N; injection E as <-; simpl; rewrite ?C, ?N; split; auto; discriminate.
    - change (DNamespaces :: l' ++ [c]) with ((DNamespaces :: l') ++ [c]). rewrite app_assoc, drun_snoc.
      destruct IH as [A B]. split; [apply compiler_keep; exact A | apply ns_keep; exact B]. }
  destruct G as [A B]. unfold namespaces. rewrite B.
  destruct (d_compiler (drun (l ++ DNamespaces :: l'))); [reflexivity | contradiction].
Qed.
