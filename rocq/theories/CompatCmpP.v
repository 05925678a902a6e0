(** Comparisons give the same answer under the schemas of compatible devices. *)
From Coq Require Import String Ascii List Bool Arith Permutation Lia.
From Verif Require Import Base BaseP XmlM CalcM NetconfM ConfigM DeltaSpec ConfigSpec DeltaPropsP CalcP DataSpec DataP TagM MDiffM MDiffSpec MDiffP DepictM DepictP DeviceM DeviceSpec DeviceP
  CompatM CompatSpec CompatDevP.
Import ListNotations.
Open Scope string_scope.
Open Scope list_scope.

(** ** Lookup by the data nodes below a schema node *)
Fixpoint datas (s : snode) : list snode :=
  let '(SNode i k) := s in if is_choice_or_case (s_type i) then flat_map datas k else [s].
Lemma flat_go_datas : forall l pos b n, Forall (fun s => forall pos inc, map ce_node (flat_node pos inc s) = datas s) l ->
  map ce_node (flat_go pos b n l) = flat_map datas l.
Proof.
  induction l as [| c l IH]; intros pos b n F; [reflexivity |]. inversion F as [| ? ? F1 F2]; subst. cbn [flat_go flat_map].
  rewrite map_app, F1, IH; auto.
Qed.
Lemma flat_node_datas : forall s pos inc, map ce_node (flat_node pos inc s) = datas s.
Proof.
  intro s. induction s as [i ks IH] using snode_ind'. intros pos inc. rewrite flat_node_eq. cbn [datas]. unfold sty. cbn [si skids].
  destruct (is_choice_or_case (s_type i)); [| reflexivity]. apply flat_go_datas. exact IH.
Qed.
Lemma flat_datas : forall s, map ce_node (flat s) = flat_map datas (skids s).
Proof.
  intro s. unfold flat. rewrite flat_list_go. apply flat_go_datas. apply Forall_forall. intros x _. apply flat_node_datas.
Qed.
Definition one (s : snode) (l : list snode) : res snode :=
  match l with
  | [c] => Ok c
  | [] => Err (match sty s with TRoot => ModelMissing | _ => ConfigError end)
  | _ => Err ModelError
  end.
Lemma filter_map_node : forall t l, map ce_node (filter (fun c => String.eqb (stag (ce_node c)) t) l) = filter (fun c => String.eqb (stag c) t) (map ce_node l).
Proof. intros t l. induction l as [| c l IH]; [reflexivity |]. cbn [filter map]. destruct (String.eqb _ t); cbn [map]; rewrite IH; reflexivity. Qed.
Lemma child_datas : forall s t, schema_child s t = one s (filter (fun c => String.eqb (stag c) t) (flat_map datas (skids s))).
Proof.
  intros s t. unfold schema_child, schema_entry. rewrite <- flat_datas, <- filter_map_node.
  destruct (filter _ (flat s)) as [| a [| b l]]; reflexivity.
Qed.

(** ** Twins *)
Definition Perm2 {A} (R : A -> A -> Prop) (l l' : list A) : Prop := exists k, Permutation l' k /\ Forall2 R l k.
Lemma Perm2_app : forall {A} (R : A -> A -> Prop) a a' b b', Perm2 R a a' -> Perm2 R b b' -> Perm2 R (a ++ b) (a' ++ b').
Proof. intros A R a a' b b' (k & P & F) (k' & P' & F'). exists (k ++ k'). split; [apply Permutation_app; auto | apply Forall2_app; auto]. Qed.
Lemma Perm2_perm : forall {A} (R : A -> A -> Prop) a b c, Perm2 R a b -> Permutation c b -> Perm2 R a c.
Proof. intros A R a b c (k & P & F) P'. exists k. split; auto. eapply Permutation_trans; eauto. Qed.
Lemma Perm2_filter : forall {A} (R : A -> A -> Prop) f a b, (forall x y, R x y -> f x = f y) -> Perm2 R a b -> Perm2 R (filter f a) (filter f b).
Proof.
  intros A R f a b H (k & P & F). exists (filter f k). split.
  - clear - P. induction P; cbn [filter]; repeat destruct (f _); auto using perm_skip, perm_swap, Permutation_refl. eapply Permutation_trans; eauto.
  - clear P. induction F as [| x y l l' Rxy F IH]; cbn [filter]; [constructor |]. rewrite (H x y Rxy). destruct (f y); [constructor |]; auto.
Qed.
Lemma Perm2_flat : forall {A B} (R : A -> A -> Prop) (Q : B -> B -> Prop) (f : A -> list B) l k,
  Forall2 R l k -> (forall x y, In x l -> R x y -> Perm2 Q (f x) (f y)) -> Perm2 Q (flat_map f l) (flat_map f k).
Proof.
  intros A B R Q f l k F. induction F as [| x y l k Rxy F IH]; intro H; cbn [flat_map].
  - exists []. split; constructor.
  - apply Perm2_app; [apply H; [left |]; auto | apply IH; intros; apply H; [right |]; auto].
Qed.
Lemma twins_datas : forall a b, Twins a b -> Perm2 Twins (datas a) (datas b).
Proof.
  intro a. induction a as [i ks IH] using snode_ind'. intros b H.
  inversion H as [a0 b0 l H1 H2 H3 H4 H5 H6 H7 H8 H9 P F]; subst. destruct b as [i' ks']. unfold sty in H2. cbn [si skids] in *.
  cbn [datas]. rewrite <- H2. destruct (is_choice_or_case (s_type i)).
  - apply (Perm2_perm _ _ (flat_map datas l)).
    + apply (Perm2_flat Twins); auto. intros x y I T. rewrite Forall_forall in IH. apply IH; auto.
    + apply Permutation_flat_map. exact P.
  - exists [SNode i' ks']. split; [reflexivity |]. constructor; [exact H | constructor].
Qed.
Lemma twins_tag : forall a b, Twins a b -> stag a = stag b.
Proof. intros a b H. inversion H; auto. Qed.

Definition Kin (t : string) (s s' : snode) : Prop :=
  match schema_child s t, schema_child s' t with
  | Ok a, Ok b => Twins a b
  | Err e, Err e' => e = e'
  | _, _ => False
  end.
Lemma kin_lists : forall s s' t l l', sty s = sty s' ->
  Perm2 Twins (filter (fun c => String.eqb (stag c) t) l) (filter (fun c => String.eqb (stag c) t) l') ->
  match one s (filter (fun c => String.eqb (stag c) t) l), one s' (filter (fun c => String.eqb (stag c) t) l') with
  | Ok a, Ok b => Twins a b | Err e, Err e' => e = e' | _, _ => False end.
Proof.
  intros s s' t l l' E (k & P & F). remember (filter _ l) as x. remember (filter _ l') as y. clear Heqx Heqy.
  inversion F as [| a b x' k' T F' ]; subst.
  - apply Permutation_sym, Permutation_nil in P. subst y. cbn [one]. rewrite E. reflexivity.
  - inversion F' as [| a2 b2 x2 k2 T2 F2]; subst.
    + apply Permutation_sym, Permutation_length_1_inv in P. subst y. cbn. exact T.
    + assert (L := Permutation_length P). destruct y as [| y1 [| y2 y]]; try discriminate. reflexivity.
Qed.
Lemma twins_kin : forall s s', Twins s s' -> forall t, Kin t s s'.
Proof.
  intros s s' H t. unfold Kin. rewrite !child_datas. apply kin_lists; [inversion H; auto |].
  apply Perm2_filter; [intros x y T; rewrite (twins_tag x y T); reflexivity |].
  inversion H as [a0 b0 l H1 H2 H3 H4 H5 H6 H7 H8 H9 P F]; subst.
  apply (Perm2_perm _ _ (flat_map datas l)); [| apply Permutation_flat_map; exact P].
  apply (Perm2_flat Twins); auto. intros x y _ T. apply twins_datas. exact T.
Qed.

(** ** Comparison *)
Lemma parse_kin : forall s s' x, sty s = sty s' -> parse_text s x = parse_text s' x.
Proof. intros s s' x E. unfold parse_text. rewrite E. reflexivity. Qed.
Lemma mapM_ext : forall {A B} (f g : A -> res B) l, (forall x, In x l -> f x = g x) -> mapM f l = mapM g l.
Proof.
  intros A B f g l H. induction l as [| a l IH]; [reflexivity |]. cbn [mapM]. rewrite (H a (or_introl eq_refl)), IH; [reflexivity |].
  intros x I. apply H. right. exact I.
Qed.
Lemma uid_kin : forall s s' x, Kin (xtag x) s s' -> uid_of s x = uid_of s' x.
Proof.
  intros s s' x K. unfold Kin in K. unfold uid_of. destruct (schema_child s (xtag x)) as [a | e], (schema_child s' (xtag x)) as [b | e']; try contradiction; cbn [bind].
  - inversion K as [a0 b0 l H1 H2 H3 H4 H5 H6 H7 H8 H9 P F]; subst. rewrite <- H2, (parse_kin a b x H2). unfold key_tuple. rewrite H7.
    rewrite (mapM_ext (fun k => let! c := find_one_child k x in Ok (parse_text a c)) (fun k => let! c := find_one_child k x in Ok (parse_text b c))); [reflexivity |].
    intros k _. destruct (find_one_child k x) as [c |]; [| reflexivity]. cbn [bind]. rewrite (parse_kin a b c H2). reflexivity.
  - congruence.
Qed.
Lemma index_kin : forall s s' l, (forall c, In c l -> Kin (xtag c) s s') -> index_kids s l = index_kids s' l.
Proof.
  intros s s' l. unfold index_kids. generalize (@nil uid) as seen. induction l as [| c l IH]; intros seen H; [reflexivity |]. cbn [index_from].
  rewrite (uid_kin s s' c (H c (or_introl eq_refl))). destruct (uid_of s' c) as [u |]; [| reflexivity]. cbn [bind].
  rewrite (IH (u :: seen)); [reflexivity |]. intros x I. apply H. right. exact I.
Qed.
Lemma node_le_kin : forall x y s s', sty s = sty s' -> (forall c, In c (xkids x) \/ In c (xkids y) -> Kin (xtag c) s s') -> node_le s x y = node_le s' x y.
Proof.
  induction x as [t tx a ks IH] using xml_ind'. intros y s s' E K. cbn [xkids] in K. cbn [node_le].
  destruct (negb (String.eqb t (xtag y))); [reflexivity |].
  assert (ST : same_text s (Elem t tx a ks) y = same_text s' (Elem t tx a ks) y).
  { unfold same_text. rewrite <- E, (parse_kin s s' _ E), (parse_kin s s' y E). reflexivity. }
  rewrite ST. destruct (same_text s' _ y) as [st |]; [| reflexivity]. cbn [bind]. destruct (negb st); [reflexivity |].
  destruct (negb (attrs_sub a (xattrs y))); [reflexivity |].
  rewrite (index_kin s s' ks), (index_kin s s' (xkids y)) by auto.
  destruct (index_kids s' ks) as [ones |]; [| reflexivity]. cbn [bind].
  destruct (index_kids s' (xkids y)) as [twos |] eqn:E2; [| reflexivity]. cbn [bind].
  assert (IH' : forall c, In c ks -> forall y s s', sty s = sty s' -> (forall c', In c' (xkids c) \/ In c' (xkids y) -> Kin (xtag c') s s') -> node_le s c y = node_le s' c y).
  { rewrite Forall_forall in IH. exact IH. }
  assert (K' : forall c, In c ks -> Kin (xtag c) s s') by auto. clear IH K.
  generalize (@nil uid) as done. induction ks as [| c r IHr]; intro done; [reflexivity |].
  rewrite (uid_kin s s' c (K' c (or_introl eq_refl))). destruct (uid_of s' c) as [u |]; [| reflexivity]. cbn [bind].
  destruct (assoc uid_eqb u twos) as [c' |]; [| reflexivity].
  assert (Kc := K' c (or_introl eq_refl)). unfold Kin in Kc.
  destruct (schema_child s (xtag c)) as [cs | e], (schema_child s' (xtag c)) as [cs' | e']; try contradiction; cbn [bind]; [| congruence].
  inversion Kc as [a0 b0 l H1 H2 H3 H4 H5 H6 H7 H8 H9 P F]; subst.
  assert (U : is_user_seq cs = is_user_seq cs') by (unfold is_user_seq; rewrite H4, H2; reflexivity). rewrite U.
  match goal with |- (if negb ?b then _ else _) = _ => destruct (negb b); [reflexivity |] end.
  rewrite (IH' c (or_introl eq_refl) c' cs cs' H2) by (intros; apply twins_kin; exact Kc).
  destruct (node_le cs' c c') as [b |]; [| reflexivity]. cbn [bind]. destruct b; [| reflexivity].
  apply IHr.
  - unfold same_text in *. exact ST.
  - intros; apply IH'; auto; right; auto.
  - intros; apply K'; right; auto.
Qed.

(** ** The keys *)
Lemma find_key_iff : forall ks n g, NoDup (map local_name ks) ->
  (find_key_tag ks n = Some g <-> exists c, In c ks /\ local_name c = n /\ xtag c = g).
Proof.
  intros ks n g N. unfold find_key_tag. induction ks as [| c ks IH]; cbn [find option_map map] in *.
  - split; [discriminate |]. intros (c & [] & _).
  - inversion N as [| ? ? N1 N2]; subst. fold (local_name c). destruct (String.eqb_spec (local_name c) n) as [E | E]; cbn [option_map].
    + split.
      * intro H. exists c. split; [left; reflexivity |]. split; [exact E | congruence].
      * intros (c' & [<- | I] & E1 & E2); [congruence |]. exfalso. apply N1. rewrite E, <- E1. apply in_map. exact I.
    + rewrite (IH N2). split; intros (c' & I & E1 & E2); exists c'; split; auto; [right; exact I |]. destruct I as [<- | I]; [contradiction | exact I].
Qed.
Lemma opt_ext : forall {A} (a b : option A), (forall x, a = Some x <-> b = Some x) -> a = b.
Proof.
  intros A [x |] b H; [symmetry; apply H; reflexivity |]. destruct b as [y |]; [| reflexivity]. assert (X := proj2 (H y) eq_refl). discriminate.
Qed.
Lemma Forall2_local : forall ks l, Forall2 Same ks l -> map xtag ks = map xtag l.
Proof. intros ks l F. induction F as [| x y ks l S F IH]; [reflexivity |]. cbn [map]. rewrite IH. apply Same_inv in S. destruct S as (-> & _). reflexivity. Qed.
Lemma local_tag : forall ks, map local_name ks = map (fun t => snd (split_tag Brace t)) (map xtag ks).
Proof. intro ks. rewrite map_map. reflexivity. Qed.
Lemma find_key_perm : forall ks ks' l n, NoDup (map local_name ks) -> Permutation ks' l -> Forall2 Same ks l -> find_key_tag ks n = find_key_tag ks' n.
Proof.
  intros ks ks' l n N P F.
  assert (N' : NoDup (map local_name ks')).
  { apply (Permutation_NoDup (l := map local_name l)); [apply Permutation_map, Permutation_sym; exact P |].
    rewrite local_tag, <- (Forall2_local ks l F), <- local_tag. exact N. }
  apply opt_ext. intro g. rewrite (find_key_iff ks n g N), (find_key_iff ks' n g N'). split; intros (c & I & E1 & E2).
  - destruct (Forall2_In_l _ _ _ _ F I) as (c' & I' & S). apply Same_inv in S. destruct S as (T & _).
    exists c'. split; [apply (Permutation_in _ (Permutation_sym P)); exact I' |]. unfold local_name in *. rewrite <- T. auto.
  - apply (Permutation_in _ P) in I. destruct (Forall2_In_r _ _ _ _ F I) as (c' & I' & S). apply Same_inv in S. destruct S as (T & _).
    exists c'. split; [exact I' |]. unfold local_name in *. rewrite T. auto.
Qed.
Definition Lists (x : xml) : Prop :=
  (get_attr "type" x = Some "list" -> NoDup (map local_name (xkids x))) /\
  forall p z, At x p z -> get_attr "type" z = Some "list" -> NoDup (map local_name (xkids z)).
Lemma keys_same : forall x y, Same x y -> (get_attr "type" x = Some "list" -> NoDup (map local_name (xkids x))) -> composer_keys x = composer_keys y.
Proof.
  intros x y S N. inversion S as [? ? l H1 H2 H3 H4 H5]; subst. unfold composer_keys. rewrite <- !H3.
  destruct (eq_opt "list" (get_attr "type" x)) eqn:E; [| reflexivity]. apply eq_opt_true in E.
  destruct (get_attr "key" x) as [k |]; [| reflexivity]. destruct (split_blanks false k) as (h, t).
  apply flat_map_ext. intro i. rewrite (find_key_perm (xkids x) (xkids y) l _ (N E) H4 H5). reflexivity.
Qed.
Lemma Lists_kid : forall x c, Lists x -> In c (xkids x) -> Lists c.
Proof. intros x c (_ & H) I. split; [intro E; apply (H [xtag c] c); [constructor; exact I | exact E] |]. intros p z A. apply (H (xtag c :: p)). constructor; assumption. Qed.
Lemma read_twins : forall x y, Same x y -> Lists x -> Twins (read_node x) (read_node y).
Proof.
  induction x as [t tx a ks IH] using xml_ind'. intros y H L. assert (K := keys_same _ _ H (proj1 L)).
  inversion H as [? ? l H1 H2 H3 H4 H5]; subst. cbn [xkids] in H5.
  destruct y as [t' tx' a' ks']. cbn [xtag] in H1. subst t'. cbn [xkids] in H4.
  apply (twins _ _ (map read_node l)); rewrite !read_eq; cbn [stag sty si s_tag s_type s_presence s_user s_default s_is_key s_keys s_status s_access skids];
    rewrite ?H3; auto.
  - apply perm_map. exact H4.
  - assert (LK : forall c, In c ks -> Lists c) by (intros c I; exact (Lists_kid _ c L I)).
    rewrite Forall_forall in IH. clear - H5 IH LK. induction H5 as [| x y ks l S F IHF]; cbn [map]; constructor.
    + apply IH; [left; reflexivity | exact S | apply LK; left; reflexivity].
    + apply IHF; intros; [apply IH | apply LK]; auto; right; auto.
Qed.

(** ** Devices *)
Lemma datas_through : forall k s, In s (datas k) -> Through k s.
Proof.
  intros k s I. rewrite <- (flat_node_datas k [] false) in I. apply in_map_iff in I. destruct I as (e & <- & I). exact (flat_node_through k [] false e I).
Qed.
Lemma root_only : forall d n t r, Fine d -> Loads d n t -> Top t r ->
  filter (fun c => String.eqb (stag c) r) (flat_map datas (skids (v_schema d))) =
  filter (fun c => String.eqb (stag c) r) (flat_map datas (map read_node (xkids t))).
Proof.
  intros d n t r (N & O) L T. unfold v_schema. cbn [skids].
  assert (Z : forall n' t', Loads d n' t' -> n' <> n -> filter (fun c => String.eqb (stag c) r) (flat_map datas (map read_node (xkids t'))) = []).
  { intros n' t' L' X. destruct (filter _ _) as [| s l] eqn:E; [reflexivity |]. exfalso. apply X. apply (O n' t' n t r L' L); auto. right.
    assert (I : In s (s :: l)) by (left; reflexivity). rewrite <- E in I. apply filter_In in I. destruct I as (I & Es). apply String.eqb_eq in Es.
    apply in_flat_map in I. destruct I as (k & Ik & Is). exists s. split; auto. exists k. split; auto. apply datas_through. exact Is. }
  unfold Loads in *. clear O T. induction (v_models d) as [| (a, b) l IH]; [destruct L |].
  cbn [flat_map snd]. rewrite flat_map_app, filter_app. cbn [map fst] in N. inversion N as [| ? ? N1 N2]; subst.
  destruct (String.string_dec a n) as [-> | X].
  - assert (b = t). { destruct L as [L | L]; [congruence |]. exfalso. apply N1. apply (in_map fst) in L. exact L. } subst b.
    assert (E : filter (fun c => String.eqb (stag c) r) (flat_map datas (flat_map (fun p => map read_node (xkids (snd p))) l)) = []).
    { clear - Z N1. induction l as [| (a, b) l IH]; [reflexivity |]. cbn [flat_map snd]. rewrite flat_map_app, filter_app.
      rewrite (Z a b); [| right; left; reflexivity | intros ->; apply N1; left; reflexivity]. cbn [app]. apply IH.
      - intros n' t' [I | I] X; [apply (Z n' t'); auto; left; exact I | apply (Z n' t'); auto; right; right; exact I].
      - intro I. apply N1. right. exact I. }
    rewrite E, app_nil_r. reflexivity.
  - rewrite (Z a b); [| left; reflexivity | exact X]. cbn [app]. apply IH; auto.
    + destruct L as [L | L]; [congruence | exact L].
    + intros n' t' I. apply (Z n' t'). right. exact I.
Qed.
Lemma kin_devices : forall d1 d2 n t1 t2 r, Fine d1 -> Fine d2 -> OneLocal d1 -> Loads d1 n t1 -> Loads d2 n t2 -> SameNodes t1 t2 ->
  Top t1 r -> Top t2 r -> Kin r (v_schema d1) (v_schema d2).
Proof.
  intros d1 d2 n t1 t2 r F1 F2 O L1 L2 (l & P & F) T1 T2. unfold Kin. rewrite !child_datas. apply kin_lists; [reflexivity |].
  rewrite (root_only d1 n t1 r F1 L1 T1), (root_only d2 n t2 r F2 L2 T2).
  apply Perm2_filter; [intros x y T; rewrite (twins_tag x y T); reflexivity |].
  apply (Perm2_perm _ _ (flat_map datas (map read_node l))); [| apply Permutation_flat_map, Permutation_map; exact P].
  assert (G : Forall2 Twins (map read_node (xkids t1)) (map read_node l)).
  { assert (LL : forall c, In c (xkids t1) -> Lists c).
    { intros c I. split; [intro E; apply (O n t1 [xtag c] c L1); [constructor; exact I | exact E] |].
      intros p z A. apply (O n t1 (xtag c :: p)); auto. constructor; assumption. }
    clear - F LL. induction F as [| x y ks l S F IH]; cbn [map]; constructor.
    - apply read_twins; auto. apply LL. left. reflexivity.
    - apply IH. intros c I. apply LL. right. exact I. }
  apply (Perm2_flat Twins); [exact G |]. intros x y _ T. apply twins_datas. exact T.
Qed.

Lemma compat_kin : forall a b r, AllFine a -> AllFine b -> OneObject a b -> OneLocal (o_dev a) -> is_compatible a b = Ok r ->
  forall c t, (a = OCfg c \/ b = OCfg c) -> In t (c_tops c) -> Kin t (v_schema (o_dev a)) (v_schema (o_dev b)).
Proof.
  intros a b r Fa Fb O OL H c t Hc I. destruct (compat_sound a b r Fa Fb O H) as (_ & A). destruct (compat_roots a b r H) as (Ra & Rb).
  assert (FA : Fine (o_dev a)) by (destruct a; cbn; apply Fa; cbn; auto).
  assert (FB : Fine (o_dev b)) by (destruct b; cbn; apply Fb; cbn; auto).
  destruct Hc as [-> | ->].
  - destruct (Ra c t eq_refl I) as (n & m & k & L & Ik & E).
    destruct (A n) as ((t1 & t2 & L1 & L2 & S) & _); [left; exists c, t, m; repeat split; eauto |]. cbn [o_dev] in *.
    assert (m = t1) by (apply (Loads_one (c_dev c) n); auto; apply FA). subst m.
    apply (kin_devices _ _ n t1 t2 t FA FB OL L1 L2 S); left; [eauto |].
    destruct (SameNodes_l _ _ _ S Ik) as (k' & Ik' & Sk). apply Same_inv in Sk. destruct Sk as (T & _). exists k'. split; auto. congruence.
  - destruct (Rb c t eq_refl I) as (n & m & k & L & Ik & E).
    destruct (A n) as ((t1 & t2 & L1 & L2 & S) & _); [right; exists c, t, m; repeat split; eauto |]. cbn [o_dev] in *.
    assert (m = t2) by (apply (Loads_one (c_dev c) n); auto; apply FB). subst m.
    apply (kin_devices _ _ n t1 t2 t FA FB OL L1 L2 S); left; [| eauto].
    destruct (SameNodes_r _ _ _ S Ik) as (k' & Ik' & Sk). apply Same_inv in Sk. destruct Sk as (T & _). exists k'. split; auto. congruence.
Qed.
Theorem compat_compare : forall c1 c2 r x y, Fine (c_dev c1) -> Fine (c_dev c2) -> OneObject (OCfg c1) (OCfg c2) -> OneLocal (c_dev c1) ->
  is_compatible (OCfg c1) (OCfg c2) = Ok r -> Holds c1 x -> Holds c2 y ->
  let s1 := v_schema (c_dev c1) in let s2 := v_schema (c_dev c2) in
  cmp_le s1 x y = cmp_le s2 x y /\ cmp_lt s1 x y = cmp_lt s2 x y /\ cmp_ge s1 x y = cmp_ge s2 x y /\
  cmp_gt s1 x y = cmp_gt s2 x y /\ cmp_eq s1 x y = cmp_eq s2 x y /\ cmp_ne s1 x y = cmp_ne s2 x y.
Proof.
  intros c1 c2 r x y F1 F2 O OL H Hx Hy s1 s2.
  assert (K : forall c, In c (xkids x) \/ In c (xkids y) -> Kin (xtag c) s1 s2).
  { intros c [I | I].
    - apply (compat_kin (OCfg c1) (OCfg c2) r) with (c := c1); auto; [intros ? -> | intros ? -> |]; auto. rewrite Hx. apply in_map. exact I.
    - apply (compat_kin (OCfg c1) (OCfg c2) r) with (c := c2); auto; [intros ? -> | intros ? -> |]; auto. rewrite Hy. apply in_map. exact I. }
  assert (E1 : node_le s1 x y = node_le s2 x y) by (apply node_le_kin; auto).
  assert (E2 : node_le s1 y x = node_le s2 y x) by (apply node_le_kin; auto; intros c I; apply K; tauto).
  unfold cmp_le, cmp_lt, cmp_ge, cmp_gt, cmp_eq, cmp_ne. rewrite E1, E2. repeat split.
Qed.

(** ** What a config is *)
Lemma forallb_ext_In : forall {A} (f g : A -> bool) l, (forall x, In x l -> f x = g x) -> forallb f l = forallb g l.
Proof. intros A f g l H. induction l as [| a l IH]; [reflexivity |]. cbn [forallb]. rewrite (H a (or_introl eq_refl)), IH; [reflexivity |]. intros x I. apply H. right. exact I. Qed.
Lemma valid_kin : forall x s s', sty s = sty s' -> s_presence (si s) = s_presence (si s') ->
  (forall c, In c (xkids x) -> Kin (xtag c) s s') -> valid s x = valid s' x.
Proof.
  induction x as [t tx a ks IH] using xml_ind'. intros s s' E Ep K. cbn [xkids] in K. cbn [valid]. rewrite <- E, <- Ep, (index_kin s s' ks K). f_equal.
  apply forallb_ext_In. intros c I. assert (Kc := K c I). unfold Kin in Kc.
  destruct (schema_child s (xtag c)) as [cs | e], (schema_child s' (xtag c)) as [cs' | e']; try contradiction; [| reflexivity].
  rewrite Forall_forall in IH. inversion Kc as [a0 b0 l H1 H2 H3 H4 H5 H6 H7 H8 H9 P F]; subst. apply IH; auto. intros c' _. apply twins_kin. exact Kc.
Qed.
Lemma drops_twins : forall a b ks c, Twins a b -> trim_drops a ks c = trim_drops b ks c.
Proof.
  intros a b ks c T. inversion T as [a0 b0 l H1 H2 H3 H4 H5 H6 H7 H8 H9 P F]; subst. unfold trim_drops, ll_is_default. rewrite H2, H3, H4, H5. reflexivity.
Qed.
Lemma trim_kin : forall x s s', (forall c, In c (xkids x) -> Kin (xtag c) s s') -> ConfigM.trim s x = ConfigM.trim s' x.
Proof.
  induction x as [t tx a ks IH] using xml_ind'. intros s s' K. cbn [xkids] in K. cbn [ConfigM.trim].
  assert (G : forall l, (forall c, In c l -> In c ks) ->
    (fix go (l : list xml) : res (list xml) := match l with [] => Ok [] | c :: r =>
       let! cs := schema_child s (xtag c) in let! c' := ConfigM.trim cs c in let! r' := go r in Ok (if trim_drops cs ks c' then r' else c' :: r') end) l =
    (fix go (l : list xml) : res (list xml) := match l with [] => Ok [] | c :: r =>
       let! cs := schema_child s' (xtag c) in let! c' := ConfigM.trim cs c in let! r' := go r in Ok (if trim_drops cs ks c' then r' else c' :: r') end) l).
  { rewrite Forall_forall in IH. induction l as [| c l IHl]; intro I; [reflexivity |].
    assert (Kc := K c (I c (or_introl eq_refl))). unfold Kin in Kc.
    destruct (schema_child s (xtag c)) as [cs | e], (schema_child s' (xtag c)) as [cs' | e']; try contradiction; cbn [bind]; [| congruence].
    rewrite (IH c (I c (or_introl eq_refl)) cs cs') by (intros; apply twins_kin; exact Kc).
    rewrite IHl by (intros x Ix; apply I; right; exact Ix). destruct (ConfigM.trim cs' c) as [c' |]; [| reflexivity]. cbn [bind].
    rewrite (drops_twins cs cs' ks c' Kc). reflexivity. }
  rewrite (G ks) by auto. reflexivity.
Qed.
Theorem compat_config : forall c1 c2 r x, Fine (c_dev c1) -> Fine (c_dev c2) -> OneObject (OCfg c1) (OCfg c2) -> OneLocal (c_dev c1) ->
  is_compatible (OCfg c1) (OCfg c2) = Ok r -> Holds c1 x \/ Holds c2 x ->
  (IsConfig (v_schema (c_dev c1)) x <-> IsConfig (v_schema (c_dev c2)) x).
Proof.
  intros c1 c2 r x F1 F2 O OL H Hx.
  assert (K : forall c, In c (xkids x) -> Kin (xtag c) (v_schema (c_dev c1)) (v_schema (c_dev c2))).
  { intros c I. destruct Hx as [Hx | Hx].
    - apply (compat_kin (OCfg c1) (OCfg c2) r) with (c := c1); auto; [intros ? -> | intros ? -> |]; auto. rewrite Hx. apply in_map. exact I.
    - apply (compat_kin (OCfg c1) (OCfg c2) r) with (c := c2); auto; [intros ? -> | intros ? -> |]; auto. rewrite Hx. apply in_map. exact I. }
  unfold IsConfig. rewrite (valid_kin x (v_schema (c_dev c1)) (v_schema (c_dev c2)) eq_refl eq_refl K), (trim_kin x (v_schema (c_dev c1)) (v_schema (c_dev c2)) K). reflexivity.
Qed.
Theorem compat_round_trip : forall c1 c2 r a b, Fine (c_dev c1) -> Fine (c_dev c2) -> OneObject (OCfg c1) (OCfg c2) -> OneLocal (c_dev c1) ->
  is_compatible (OCfg c1) (OCfg c2) = Ok r -> Holds c1 a -> Holds c2 b ->
  wfs (v_schema (c_dev c1)) = true -> IsConfig (v_schema (c_dev c1)) a -> IsConfig (v_schema (c_dev c2)) b -> ConfigSpec.Comparable (v_schema (c_dev c1)) a b ->
  Reaches (v_schema (c_dev c1)) (config_add_delta (v_schema (c_dev c1)) a (config_sub b a)) b.
Proof.
  intros c1 c2 r a b F1 F2 O OL H Ha Hb W Ca Cb Cm. apply reaches_default; auto. apply (compat_config c1 c2 r b F1 F2 O OL H); auto.
Qed.
