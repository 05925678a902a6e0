(** Changes made in place, and histories of API calls. *)
From Coq Require Import String Ascii List Bool Arith ZArith Lia.
From Verif Require Import Base BaseP XmlM CalcM CalcP NetconfM ConfigM ListP DataSpec DataP DeltaSpec DeltaR AddP SubP TrimSpec TrimP
  FilterM PruneSpec PruneP FilterP HeapM HeapSpec.
Import ListNotations.
Open Scope string_scope.
Open Scope list_scope.

(** ** Trees that are left alone *)
Fixpoint tgo (s : snode) (l : list xml) : list xml * option exn :=
  match l with
  | [] => ([], None)
  | c :: r =>
      match schema_child s (xtag c) with
      | Err e => (c :: r, Some e)
      | Ok cs =>
          match trim_io cs c with
          | (c', Some e) => (c' :: r, Some e)
          | (c', None) => let '(r', e) := tgo s r in (if trim_now cs c' then (r', e) else (c' :: r', e))
          end
      end
  end.
Definition ll_kept (s : snode) (all : list xml) (c : xml) : bool :=
  match schema_child s (xtag c) with
  | Ok cs => match sty cs with TLeafList => negb (trim_drops cs all c) | _ => true end
  | Err _ => true
  end.

Lemma trim_io_eq : forall s x, trim_io s x =
  match snd (tgo s (xkids x)) with
  | Some e => (set_kids (fst (tgo s (xkids x))) x, Some e)
  | None => (set_kids (filter (ll_kept s (xkids x)) (fst (tgo s (xkids x)))) x, None)
  end.
Proof.
  intros s [t tx a ks]. cbn [trim_io xkids set_kids].
  assert (G : forall l, (fix go (l : list xml) : list xml * option exn :=
       match l with
       | [] => ([], None)
       | c :: r =>
           match schema_child s (xtag c) with
           | Err e => (c :: r, Some e)
           | Ok cs =>
               match trim_io cs c with
               | (c', Some e) => (c' :: r, Some e)
               | (c', None) => let '(r', e) := go r in (if trim_now cs c' then (r', e) else (c' :: r', e))
               end
           end
       end) l = tgo s l).
  { intro l. induction l as [| c r IH]; auto. cbn [tgo]. destruct (schema_child s (xtag c)) as [cs |]; auto.
    destruct (trim_io cs c) as [c' [e |]]; auto. rewrite IH. reflexivity. }
  rewrite G. reflexivity.
Qed.

Fixpoint vgo (rd : bool) (s : snode) (l : list xml) : list xml * option exn :=
  match l with
  | [] => ([], None)
  | c :: r =>
      match schema_child s (xtag c) with
      | Err e => (c :: r, Some e)
      | Ok cs =>
          match (match xkids c with [] => (c, None) | _ => validate_io rd cs c end) with
          | (c', Some e) => (c' :: r, Some e)
          | (c', None) => let '(r', e) := vgo rd s r in (if validate_drops rd cs c' then (r', e) else (c' :: r', e))
          end
      end
  end.

Lemma validate_io_eq : forall rd s x, validate_io rd s x =
  if negb (validate_own s x) then (x, Some ConfigError)
  else (set_kids (fst (vgo rd s (xkids x))) x, snd (vgo rd s (xkids x))).
Proof.
  intros rd s [t tx a ks]. cbn [validate_io]. destruct (validate_own s (Elem t tx a ks)); auto. cbn [negb xkids set_kids].
  assert (G : forall l, (fix go (l : list xml) : list xml * option exn :=
       match l with
       | [] => ([], None)
       | c :: r =>
           match schema_child s (xtag c) with
           | Err e => (c :: r, Some e)
           | Ok cs =>
               match (match xkids c with [] => (c, None) | _ => validate_io rd cs c end) with
               | (c', Some e) => (c' :: r, Some e)
               | (c', None) => let '(r', e) := go r in (if validate_drops rd cs c' then (r', e) else (c' :: r', e))
               end
           end
       end) l = vgo rd s l).
  { intro l. induction l as [| c r IH]; auto. cbn [vgo]. destruct (schema_child s (xtag c)) as [cs |]; auto.
    destruct (match xkids c with [] => (c, None) | _ => validate_io rd cs c end) as [c' [e |]]; auto. rewrite IH. reflexivity. }
  rewrite G. reflexivity.
Qed.

(** No child anywhere is removed as it stands. *)
Inductive Calm (rd : bool) : snode -> xml -> Prop :=
| calm : forall s x, (forall c cs, In c (xkids x) -> schema_child s (xtag c) = Ok cs ->
    trim_drops cs (xkids x) c = false /\ validate_drops rd cs c = false /\ Calm rd cs c) -> Calm rd s x.

Lemma Calm_inv : forall rd s x c cs, Calm rd s x -> In c (xkids x) -> schema_child s (xtag c) = Ok cs ->
  trim_drops cs (xkids x) c = false /\ validate_drops rd cs c = false /\ Calm rd cs c.
Proof. intros rd s x c cs H. inversion H; auto. Qed.

Lemma trim_now_drops : forall cs all c, trim_drops cs all c = false -> trim_now cs c = false.
Proof. intros cs all c. unfold trim_now, trim_drops. destruct (sty cs); auto. Qed.

Lemma trim_io_calm : forall rd x s, Calm rd s x -> fst (trim_io s x) = x.
Proof.
  intros rd x. induction x as [x IH] using xml_ind'. intros s C. rewrite trim_io_eq.
  assert (G : forall l, (forall c, In c l -> In c (xkids x)) -> fst (tgo s l) = l).
  { intro l. induction l as [| c r IHl]; intro S; auto. cbn [tgo].
    destruct (schema_child s (xtag c)) as [cs |] eqn:E; auto.
    destruct (Calm_inv _ _ _ c cs C (S c (or_introl eq_refl)) E) as (D1 & D2 & Cc).
    pose proof (IH c (S c (or_introl eq_refl)) cs Cc) as T. destruct (trim_io cs c) as [c' [e |]]; simpl in T; subst c'; auto.
    specialize (IHl (fun c I => S c (or_intror I))). destruct (tgo s r) as [r' e]. simpl in IHl. subst r'.
    rewrite (trim_now_drops _ _ _ D1). reflexivity. }
  specialize (G (xkids x) (fun c I => I)). destruct (snd (tgo s (xkids x))); cbn [fst]; rewrite G.
  - destruct x; reflexivity.
  - rewrite filter_all; [destruct x; reflexivity |]. intros c I. unfold ll_kept.
    destruct (schema_child s (xtag c)) as [cs |] eqn:E; auto. destruct (Calm_inv _ _ _ c cs C I E) as (D1 & _).
    rewrite D1. destruct (sty cs); reflexivity.
Qed.

Lemma validate_io_calm : forall rd x s, Calm rd s x -> fst (validate_io rd s x) = x.
Proof.
  intros rd x. induction x as [x IH] using xml_ind'. intros s C. rewrite validate_io_eq.
  destruct (validate_own s x); auto. cbn [negb fst].
  assert (G : forall l, (forall c, In c l -> In c (xkids x)) -> fst (vgo rd s l) = l).
  { intro l. induction l as [| c r IHl]; intro S; auto. cbn [vgo].
    destruct (schema_child s (xtag c)) as [cs |] eqn:E; auto.
    destruct (Calm_inv _ _ _ c cs C (S c (or_introl eq_refl)) E) as (D1 & D2 & Cc).
    pose proof (IH c (S c (or_introl eq_refl)) cs Cc) as T.
    assert (T' : fst (match xkids c with [] => (c, None) | _ => validate_io rd cs c end) = c) by (destruct (xkids c); auto).
    destruct (match xkids c with [] => (c, None) | _ => validate_io rd cs c end) as [c' [e |]]; simpl in T'; subst c'; auto.
    specialize (IHl (fun c I => S c (or_intror I))). destruct (vgo rd s r) as [r' e]. simpl in IHl. subst r'.
    rewrite D2. reflexivity. }
  rewrite (G (xkids x) (fun c I => I)). destruct x; reflexivity.
Qed.

Lemma settle_io_calm : forall check rd x s, Calm rd s x -> fst (settle_io check rd s x) = x.
Proof.
  intros check rd x s C. unfold settle_io. pose proof (trim_io_calm rd x s C) as T.
  destruct (trim_io s x) as [y [e |]]; simpl in T; subst y; auto. destruct check; auto. apply validate_io_calm; auto.
Qed.

Lemma trim_drops_OnlyDefault : forall cs x c, trim_drops cs (xkids x) c = true -> OnlyDefault cs x c.
Proof.
  intros cs x c H. unfold trim_drops in H. destruct (sty cs) eqn:Et; try discriminate.
  - destruct (s_default (si cs)) as [d |] eqn:Ed; [| discriminate]. apply ostr_eqb_ok in H. apply (od_leaf cs x c d); auto.
  - unfold ll_is_default in H. destruct (s_default (si cs)) as [d |] eqn:Ed; [| discriminate].
    apply (od_leaf_list cs x c d (str_split "," d) (map xtext (kids_tagged (xtag c) (xkids x)))); auto.
    + apply split_Joined.
    + eexists. split; reflexivity.
    + destruct (s_user (si cs)); [apply (list_eqb_ok ostr_eqb ostr_eqb_ok); auto | apply set_eqb_iff; auto].
  - apply andb_true_iff in H. destruct H as [H1 H2]. apply no_kids_iff in H1. apply negb_true_iff in H2.
    apply od_container; auto. rewrite H1. intros k ks [].
  - apply no_kids_iff in H. apply od_list; auto. rewrite H. intros k ks [].
Qed.

Lemma validate_drops_Void : forall rd cs c, validate_drops rd cs c = true -> Void rd cs c.
Proof.
  intros rd cs c H. apply drops_cases in H. destruct H as [[H [T | [T P]]] | [H | [H1 H2]]].
  - apply vo_list; auto. rewrite H. intros k [].
  - apply vo_container; auto. rewrite H. intros k [].
  - apply vo_obsolete; auto.
  - apply vo_deprecated; auto.
Qed.

Lemma Settled_Calm : forall rd x s, Settled rd s x -> Calm rd s x.
Proof.
  intros rd x. induction x as [x IH] using xml_ind'. intros s H. constructor. intros c cs I E.
  pose proof (schema_child_Defines _ _ _ E) as D. destruct (H s x cs c (wi_here s x) I D) as (H1 & H2). split; [| split].
  - destruct (trim_drops cs (xkids x) c) eqn:T; auto. destruct (H2 (trim_drops_OnlyDefault _ _ _ T)).
  - destruct (validate_drops rd cs c) eqn:T; auto. destruct (H1 (validate_drops_Void _ _ _ T)).
  - apply (IH c I). intros sm m sn n W. apply H. apply (wi_down s x c cs); auto.
Qed.

Theorem settle_io_settled : forall check rd s x, Settled rd s x -> fst (settle_io check rd s x) = x.
Proof. intros. apply settle_io_calm. apply Settled_Calm. auto. Qed.

(** ** The two forms of trimming and validation agree *)
Lemma trim_drops_all : forall cs all all' c, sty cs <> TLeafList -> trim_drops cs all c = trim_drops cs all' c.
Proof. intros cs all all' c H. unfold trim_drops. destruct (sty cs); auto. congruence. Qed.

Lemma trim_io_agrees : forall x s, match trim s x with
  | Ok y => trim_io s x = (y, None)
  | Err e => snd (trim_io s x) = Some e
  end.
Proof.
  intro x. induction x as [x IH] using xml_ind'. intros s. rewrite trim_eq, trim_io_eq.
  assert (G : forall l, (forall c, In c l -> In c (xkids x)) -> match mapM (trim_kid s (xkids x)) l with
    | Ok kss => snd (tgo s l) = None /\ filter (ll_kept s (xkids x)) (fst (tgo s l)) = concat kss
    | Err e => snd (tgo s l) = Some e
    end).
  { intro l. induction l as [| c r IHl]; intro S; [split; reflexivity |]. cbn [mapM tgo]. unfold trim_kid at 1.
    destruct (schema_child s (xtag c)) as [cs |] eqn:E; [| reflexivity]. cbn [bind].
    pose proof (IH c (S c (or_introl eq_refl)) cs) as T. destruct (trim cs c) as [c' |] eqn:Et; cbn [bind].
    - rewrite T. specialize (IHl (fun c I => S c (or_intror I))). destruct (trim_parts _ _ _ Et) as (Etag & _).
      destruct (tgo s r) as [r' e']. cbn [fst snd] in IHl. destruct (mapM (trim_kid s (xkids x)) r) as [kss |]; cbn [bind].
      + destruct IHl as [I1 I2]. subst e'. split; [destruct (trim_now cs c'); reflexivity |]. cbn [concat].
        unfold trim_now. destruct (sty cs) eqn:Ty;
          try (rewrite (trim_drops_all cs [] (xkids x)) by congruence;
               destruct (trim_drops cs (xkids x) c'); cbn [fst filter app]; [auto |];
               unfold ll_kept at 1; rewrite Etag, E, Ty; rewrite I2; reflexivity).
        cbn [fst filter]. unfold ll_kept at 1. rewrite Etag, E, Ty. destruct (trim_drops cs (xkids x) c'); cbn [negb app]; rewrite I2; reflexivity.
      + subst e'. destruct (trim_now cs c'); reflexivity.
    - destruct (trim_io cs c) as [c' o]. simpl in T. subst o. reflexivity. }
  specialize (G (xkids x) (fun c I => I)). destruct (mapM (trim_kid s (xkids x)) (xkids x)) as [kss |]; cbn [bind].
  - destruct G as [G1 G2]. rewrite G1, G2. reflexivity.
  - rewrite G. reflexivity.
Qed.

Lemma validate_io_agrees : forall rd x s, match validate rd s x with
  | Ok y => validate_io rd s x = (y, None)
  | Err e => snd (validate_io rd s x) = Some e
  end.
Proof.
  intros rd x. induction x as [x IH] using xml_ind'. intros s. rewrite validate_eq, validate_io_eq.
  destruct (validate_own s x); [| reflexivity]. cbn [negb].
  assert (G : forall l, (forall c, In c l -> In c (xkids x)) -> match mapM (val_kid rd s) l with
    | Ok kss => vgo rd s l = (concat kss, None)
    | Err e => snd (vgo rd s l) = Some e
    end).
  { intro l. induction l as [| c r IHl]; intro S; [reflexivity |]. cbn [mapM vgo]. unfold val_kid at 1.
    destruct (schema_child s (xtag c)) as [cs |] eqn:E; [| reflexivity]. cbn [bind].
    assert (T : match val_sub rd cs c with
      | Ok y => match xkids c with [] => (c, None) | _ => validate_io rd cs c end = (y, None)
      | Err e => snd (match xkids c with [] => (c, None) | _ => validate_io rd cs c end) = Some e
      end).
    { pose proof (IH c (S c (or_introl eq_refl)) cs) as T. unfold val_sub. destruct (xkids c); auto. }
    specialize (IHl (fun c I => S c (or_intror I))).
    destruct (val_sub rd cs c) as [c' |] eqn:Ec; cbn [bind].
    - rewrite T. destruct (mapM (val_kid rd s) r) as [kss |]; cbn [bind].
      + rewrite IHl. cbn [concat]. destruct (validate_drops rd cs c'); reflexivity.
      + destruct (vgo rd s r) as [r' o]. simpl in IHl. subst o. destruct (validate_drops rd cs c'); reflexivity.
    - destruct (match xkids c with [] => (c, None) | _ => validate_io rd cs c end) as [c' o]. simpl in T. subst o. reflexivity. }
  specialize (G (xkids x) (fun c I => I)). destruct (mapM (val_kid rd s) (xkids x)) as [kss |]; cbn [bind].
  - rewrite G. reflexivity.
  - rewrite G. reflexivity.
Qed.

Definition settle (check rd : bool) (s : snode) (x : xml) : res xml :=
  let! e := trim s x in if check then validate rd s e else Ok e.

Lemma settle_io_agrees : forall check rd s x, match settle check rd s x with
  | Ok y => settle_io check rd s x = (y, None)
  | Err e => snd (settle_io check rd s x) = Some e
  end.
Proof.
  intros check rd s x. unfold settle, settle_io. pose proof (trim_io_agrees x s) as T. destruct (trim s x) as [y | e]; cbn [bind].
  - rewrite T. destruct check; [apply validate_io_agrees | reflexivity].
  - destruct (trim_io s x) as [y o]. simpl in T. subst o. reflexivity.
Qed.

(** ** Settled trees *)
Lemma Calm_not_Void : forall rd n sm m sn, Calm rd sm m -> known sm m -> In n (xkids m) -> Defines sm (xtag n) sn -> ~ Void rd sn n.
Proof.
  intros rd n. induction n as [n IH] using xml_ind'. intros sm m sn C K I D V.
  rewrite known_iff in K. destruct (K n I) as (sn' & E & Kn). assert (sn = sn') by (eapply Defines_schema_child; eauto). subst sn'.
  destruct (Calm_inv _ _ _ _ _ C I E) as (_ & D2 & Cn).
  assert (X : (forall k, In k (xkids n) -> exists ks, Defines sn (xtag k) ks /\ Void rd ks k) -> xkids n = []).
  { intro H. destruct (xkids n) as [| k r] eqn:Ek; auto. exfalso.
    assert (Ik : In k (xkids n)) by (rewrite Ek; left; auto). destruct (H k (or_introl eq_refl)) as (ks & Dk & Vk).
    refine (IH k _ sn n ks Cn Kn Ik Dk Vk). left; auto. }
  assert (Y : validate_drops rd sn n = true).
  { apply drops_cases. inversion V; subst; auto; left; split; auto. }
  congruence.
Qed.

Lemma Calm_not_default : forall rd n sm m sn, Calm rd sm m -> known sm m -> In n (xkids m) -> Defines sm (xtag n) sn -> ~ OnlyDefault sn m n.
Proof.
  intros rd n. induction n as [n IH] using xml_ind'. intros sm m sn C K I D V.
  rewrite known_iff in K. destruct (K n I) as (sn' & E & Kn). assert (sn = sn') by (eapply Defines_schema_child; eauto). subst sn'.
  destruct (Calm_inv _ _ _ _ _ C I E) as (D1 & _ & Cn).
  assert (X : (forall k ks, In k (xkids n) -> Defines sn (xtag k) ks -> OnlyDefault ks n k) -> xkids n = []).
  { intro H. destruct (xkids n) as [| k r] eqn:Ek; auto. exfalso.
    assert (Ik : In k (xkids n)) by (rewrite Ek; left; auto). pose proof Kn as Kn'. rewrite known_iff in Kn. destruct (Kn k Ik) as (ks & Sk & _).
    apply schema_child_Defines in Sk. refine (IH k _ sn n ks Cn Kn' Ik Sk _); [left; auto |]. apply H; auto. left; auto. }
  assert (Y : trim_drops sn (xkids m) n = true).
  { unfold trim_drops. inversion V as [? ? ? v T Df Tx | ? ? ? d ds vs T Df J L Hv | ? ? ? T P H | ? ? ? T H]; subst; rewrite T.
    - rewrite Df, Tx. apply ostr_eqb_ok. reflexivity.
    - unfold ll_is_default. rewrite Df. apply Joined_fun in J. subst ds. destruct L as (l & E1 & E2). unfold kids_tagged. rewrite <- E2, <- E1.
      destruct (s_user (si sn)); [apply (list_eqb_ok ostr_eqb ostr_eqb_ok); auto | apply set_eqb_iff; auto].
    - rewrite P. rewrite andb_true_r. apply no_kids_iff. auto.
    - apply no_kids_iff. auto. }
  congruence.
Qed.

Lemma Within_Calm : forall rd s x sm m, Within s x sm m -> known s x -> Calm rd s x -> Calm rd sm m.
Proof.
  intros rd s x sm m W. induction W as [| s x c cs s' n I D W IH]; auto. intros K C. rewrite known_iff in K.
  destruct (K c I) as (cs' & E & Kc). assert (cs = cs') by (eapply Defines_schema_child; eauto). subst cs'.
  apply IH; auto. apply (Calm_inv _ _ _ _ _ C I E).
Qed.

Theorem Calm_Settled : forall rd s x, known s x -> Calm rd s x -> Settled rd s x.
Proof.
  intros rd s x K C sm m sn n W I D. pose proof (Within_Calm _ _ _ _ _ W K C) as C'. pose proof (Within_known _ _ _ _ W K) as K'.
  split; [eapply Calm_not_Void; eauto | eapply Calm_not_default; eauto].
Qed.

Lemma val_leaf_list : forall rd s t cs l kss, Forall2 (fun c l => val_kid rd s c = Ok l) l kss ->
  schema_child s t = Ok cs -> (forall c, validate_drops rd cs c = false) ->
  map xtext (kids_tagged t (concat kss)) = map xtext (kids_tagged t l).
Proof.
  intros rd s t cs l kss H Hs Hd. induction H as [| c ys l kss H HF IH]; auto. cbn [concat].
  rewrite kids_tagged_app, map_app, IH. clear IH.
  destruct (val_kid_inv _ _ _ _ H) as (cs' & c' & H1 & H2 & H3). destruct (val_sub_parts _ _ _ _ H2) as (E1 & E2 & _).
  unfold kids_tagged at 3. cbn [filter]. destruct (String.eqb (xtag c) t) eqn:E.
  - apply String.eqb_eq in E. rewrite E, Hs in H1. inversion H1; subst cs'. rewrite Hd in H3. subst ys.
    unfold kids_tagged at 1. cbn [filter]. rewrite E1, E, String.eqb_refl. cbn [map app]. rewrite E2. reflexivity.
  - destruct (validate_drops rd cs' c'); subst ys; [reflexivity |]. unfold kids_tagged at 1. cbn [filter].
    rewrite E1, E. reflexivity.
Qed.

Lemma drops_status : forall rd cs c c', sty cs <> TList -> sty cs <> TContainer -> validate_drops rd cs c = false -> validate_drops rd cs c' = false.
Proof.
  intros rd cs c c' H1 H2 H. unfold validate_drops, np_container in *. destruct (sty cs); try congruence; cbn in *; 
    rewrite ?andb_false_r in *; cbn in *; auto.
Qed.

Lemma validated_calm : forall rd y s z, trim s y = Ok y -> val_sub rd s y = Ok z -> Calm rd s z.
Proof.
  intros rd y. induction y as [y IH] using xml_ind'. intros s z T V. constructor. intros c' cs I E.
  destruct (val_back _ _ _ _ _ V I) as (c & cs' & Ic & E1 & E2 & E3 & Et). rewrite Et in E. rewrite E in E1. injection E1 as <-.
  destruct (fix_trimmed s y T c Ic) as (cs' & F1 & F2 & F3). rewrite E in F1. injection F1 as <-.
  destruct (val_sub_parts _ _ _ _ E2) as (P1 & P2 & _).
  split; [| split]; auto; [| apply (IH c Ic cs c'); auto].
  destruct (val_sub_inv _ _ _ _ V) as (kss & HF & Ek & _ & _).
  unfold trim_drops in *. destruct (sty cs) eqn:Ty; auto.
  - rewrite P2. exact F3.
  - rewrite P1, Ek, (val_leaf_list rd s (xtag c) cs (xkids y) kss); auto.
    intros c0. apply (drops_status rd cs c'); congruence.
  - destruct (no_kids c') eqn:N; auto. destruct (s_presence (si cs)) eqn:P; auto. exfalso.
    assert (validate_drops rd cs c' = true) by (apply drops_cases; left; split; [apply no_kids_iff; auto | auto]). congruence.
  - destruct (no_kids c') eqn:N; auto. exfalso.
    assert (validate_drops rd cs c' = true) by (apply drops_cases; left; split; [apply no_kids_iff; auto | auto]). congruence.
Qed.

Theorem settle_settled : forall rd s x y, settle true rd s x = Ok y -> known s y /\ Settled rd s y.
Proof.
  intros rd s x y H. unfold settle in H. apply bind_ok in H. destruct H as (e & H1 & H2). apply trim_idem in H1. apply validate_val_sub in H2.
  assert (K : known s y) by (eapply val_sub_known; eauto). split; auto. apply Calm_Settled; auto. eapply validated_calm; eauto.
Qed.
