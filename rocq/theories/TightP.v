(** Proofs of details: how arguments are bound, what comparisons of objects answer, which
    attributes a diff shows, which paths find a statement, and annotations. *)
From Coq Require Import String Ascii List Bool Arith ZArith Lia.
From Verif Require Import Base BaseP XmlM CalcM NetconfM ConfigM DataSpec CompareSpec DataP CompareP HeapM HeapSpec.
From Verif Require Import TagM MDiffM CompatM ExecM ExecP.
From Verif Require XPathM MDiffSpec.
From Verif Require Import DepictM DepictSpec DepictP TightSpec.
Import ListNotations.
Open Scope string_scope.
Open Scope list_scope.

(** ** Arguments *)
Lemma bind_pos_ok : forall ps args, length args <= length ps -> exists l, bind_pos ps args = Ok l /\ map fst l = firstn (length args) ps /\ map snd l = args.
Proof.
  induction ps as [| p ps IH]; intros [| a r] L; simpl in *; try lia; eauto.
  destruct (IH r) as (l & E & F & G); [lia |]. rewrite E. cbn [bind]. exists ((p, a) :: l). cbn [map fst snd]. rewrite F, G. auto.
Qed.

Lemma bind_pos_err : forall ps args, length ps < length args -> bind_pos ps args = Err TypeError.
Proof.
  induction ps as [| p ps IH]; intros [| a r] L; simpl in *; try lia; auto. rewrite IH by lia. reflexivity.
Qed.

Lemma kw_in_In : forall k l, kw_in k l = true <-> In k (map fst l).
Proof.
  intros k l. unfold kw_in, kw_get. induction l as [| [n a] r IH]; cbn [assoc map fst]; [split; [discriminate | intros []] |].
  destruct (String.eqb_spec k n) as [-> | N]; [simpl; tauto |]. rewrite IH. simpl. intuition congruence.
Qed.

Lemma kw_get_app : forall k a b, kw_get k (a ++ b) = match kw_get k a with Some v => Some v | None => kw_get k b end.
Proof. intros k a b. unfold kw_get. induction a as [| [n v] r IH]; auto. cbn [app assoc]. destruct (String.eqb k n); auto. Qed.

Lemma kw_get_nth : forall ps l i n a, NoDup ps -> map fst l = firstn (length l) ps -> nth_error ps i = Some n -> nth_error (map snd l) i = Some a -> kw_get n l = Some a.
Proof.
  intros ps l. revert ps. induction l as [| [m v] r IH]; intros ps i n a D E P Q; [destruct i; discriminate |].
  destruct ps as [| p ps]; [discriminate |]. cbn [map fst length firstn] in E. injection E as -> E. inversion D as [| ? ? N D']; subst.
  unfold kw_get. cbn [assoc]. destruct i as [| i]; cbn [nth_error map snd] in *.
  - injection P as ->. injection Q as ->. rewrite String.eqb_refl. reflexivity.
  - destruct (String.eqb_spec n p) as [-> | _]; [exfalso; apply N; eapply nth_error_In; eauto | apply (IH ps i n a); auto].
Qed.

Lemma firstn_nth : forall (ps : list string) k n, In n (firstn k ps) <-> exists i, nth_error ps i = Some n /\ i < k.
Proof.
  induction ps as [| p ps IH]; intros [| k] n; cbn [firstn]; try (split; [intros [] | intros (i & _ & L); lia]).
  - split; [intros [] | intros (i & P & _); destruct i; discriminate].
  - split.
    + intros [-> | H]; [exists 0; split; [auto | lia] |]. apply IH in H. destruct H as (i & P & L). exists (S i). split; [auto | lia].
    + intros ([| i] & P & L); [injection P as ->; left; auto | right; apply IH; exists i; split; [auto | lia]].
Qed.

Lemma binds : forall ps args kw, NoDup ps ->
  (exists b, bind_args ps args kw = Ok b /\ length args <= length ps /\
     (forall i n a, nth_error ps i = Some n -> nth_error args i = Some a -> kw_get n b = Some a) /\
     (forall n, kw_get n kw <> None -> kw_get n b = kw_get n kw) /\
     (forall n a, In (n, a) kw -> In n ps /\ forall i, nth_error ps i = Some n -> length args <= i)) \/
  (bind_args ps args kw = Err TypeError /\
    (length ps < length args \/ exists n a, In (n, a) kw /\ (~ In n ps \/ exists i, nth_error ps i = Some n /\ i < length args))).
Proof.
  intros ps args kw D. unfold bind_args. destruct (le_lt_dec (length args) (length ps)) as [L | L]; [| rewrite bind_pos_err by auto; right; auto].
  destruct (bind_pos_ok ps args L) as (l & E & F & G). rewrite E. cbn [bind]. assert (LL : length l = length args) by (rewrite <- G; rewrite map_length; auto).
  destruct (forallb _ kw) eqn:B.
  - left. exists (l ++ kw). rewrite forallb_forall in B. split; auto. split; auto.
    assert (X : forall n a, In (n, a) kw -> In n ps /\ ~ In n (map fst l)).
    { intros n a H. specialize (B (n, a) H). cbn [fst] in B. apply andb_true_iff in B. destruct B as [B1 B2]. apply (mem_In String.eqb String.eqb_eq) in B1.
      apply negb_true_iff in B2. split; auto. rewrite <- kw_in_In. congruence. }
    split; [| split].
    + intros i n a P Q. rewrite kw_get_app. rewrite (kw_get_nth ps l i n a); auto; [rewrite LL; auto | rewrite G; auto].
    + intros n N. rewrite kw_get_app. destruct (kw_get n l) as [v |] eqn:K; auto. exfalso. destruct (kw_get n kw) as [w |] eqn:K2; [| congruence].
      destruct (X n w) as [_ Y]; [| apply Y; apply kw_in_In; unfold kw_in; rewrite K; auto].
      clear - K2. unfold kw_get in K2. induction kw as [| [m v] r IH]; [discriminate |]. cbn [assoc] in K2. destruct (String.eqb_spec n m) as [-> | _]; [injection K2 as ->; left; auto | right; auto].
    + intros n a H. destruct (X n a H) as [X1 X2]. split; auto. intros i P. destruct (le_lt_dec (length args) i) as [Q | Q]; auto. exfalso.
      apply X2. rewrite F. apply firstn_nth. eauto.
  - right. split; auto. right. apply not_true_iff_false in B.
    assert (Y : exists p, In p kw /\ (mem String.eqb (fst p) ps && negb (kw_in (fst p) l)) = false).
    { clear - B. induction kw as [| p r IH]; cbn [forallb] in B; [congruence |].
      destruct (mem String.eqb (fst p) ps && negb (kw_in (fst p) l)) eqn:E; [| exists p; split; [left; auto | auto]].
      destruct IH as (q & Q & R); [exact B | exists q; split; [right; auto | auto]]. }
    destruct Y as ([n a] & Y & Z). exists n, a. split; auto. cbn [fst] in Z. apply andb_false_iff in Z. destruct Z as [Z | Z].
    + left. intro I. apply (mem_In String.eqb String.eqb_eq) in I. congruence.
    + right. apply negb_false_iff in Z. apply kw_in_In in Z. rewrite F in Z. apply firstn_nth in Z. exact Z.
Qed.

Lemma edit_binds : forall args kw,
  (exists b, bind_args edit_params args kw = Ok b /\ length args <= 6 /\
     (forall i n a, nth_error edit_signature i = Some n -> nth_error args i = Some a -> kw_get n b = Some a) /\
     (forall n, kw_get n kw <> None -> kw_get n b = kw_get n kw) /\
     (forall n a, In (n, a) kw -> In n edit_signature /\ forall i, nth_error edit_signature i = Some n -> length args <= i)) \/
  (bind_args edit_params args kw = Err TypeError /\
    (6 < length args \/ exists n a, In (n, a) kw /\ (~ In n edit_signature \/ exists i, nth_error edit_signature i = Some n /\ i < length args))).
Proof.
  intros args kw. apply (binds edit_signature args kw). unfold edit_signature. repeat (constructor; [simpl; intuition discriminate |]). constructor.
Qed.

(** ** Comparisons of objects *)
Lemma sees_tree : forall h i x, Sees h i [x] -> config_tree h i = Ok x.
Proof.
  intros h i x H. unfold Sees in H. unfold config_tree, config_at, tree. destruct (nth_error (h_objs h) i) as [[a | a b o] |]; [| | destruct H].
  - destruct H as (y & Y & E). injection E as ->. cbn [bind]. rewrite Y. reflexivity.
  - destruct H as (y & z & _ & _ & E). discriminate.
Qed.

Lemma sees_intro : forall h i a x, nth_error (h_objs h) i = Some (HeapM.OCfg a) -> nth_error (h_trees h) a = Some x -> Sees h i [x].
Proof. intros h i a x H1 H2. unfold Sees. rewrite H1. eauto. Qed.

Lemma objects_compared : forall op s h i j x y, Sees h i [x] -> Sees h j [y] -> valid s x = true -> valid s y = true -> xtag x = xtag y ->
  exists b, step s h (CCompare op i j) = (h, Ok (VBool b)) /\ (b = true <-> Says op s x y).
Proof.
  intros op s h i j x y Hx Hy Vx Vy T. cbn [step]. rewrite (sees_tree h i x Hx), (sees_tree h j y Hy). cbn [bind].
  destruct (cmp_le_iff s x y Vx Vy T) as (le & L1 & L2). destruct (cmp_le_iff s y x Vy Vx (eq_sym T)) as (ge & G1 & G2).
  assert (G1' : cmp_ge s x y = Ok ge) by exact G1. destruct (cmp_ops s x y le ge L1 G1') as (E1 & _ & E2 & E3 & E4 & _).
  destruct (cmp_eq_iff s x y Vx Vy T) as (e & E5 & E6). assert (e = le && ge) by congruence. subst e.
  destruct op; cbn [compare Says]; rewrite ?L1, ?G1', ?E1, ?E2, ?E3, ?E4; cbn [bind]; eexists; (split; [reflexivity |]); auto.
  - rewrite <- L2, <- G2. destruct le, ge; simpl; intuition congruence.
  - rewrite <- L2, <- G2. destruct le, ge; simpl; intuition congruence.
  - rewrite <- E6. destruct (le && ge); simpl; intuition congruence.
Qed.

(** ** Attributes that a diff shows *)
Lemma assoc_kept : forall (ks : list string) k a, assoc String.eqb k (filter (fun p : string * string => mem String.eqb (fst p) ks) a) = if mem String.eqb k ks then assoc String.eqb k a else None.
Proof.
  intros ks k a. induction a as [| [n v] r IH]; cbn [filter fst assoc]; [destruct (mem String.eqb k ks); auto |].
  destruct (mem String.eqb n ks) eqn:M; cbn [assoc]; destruct (String.eqb_spec k n) as [-> | N]; rewrite ?M; auto. rewrite IH, M. auto.
Qed.

Lemma process_shows : forall p t m y, MDiffSpec.At (process_attrib m t) p y -> exists x, MDiffSpec.At t p x /\ xtag y = xtag x /\ xtext y = xtext x /\
  (m <> "" -> get_attr "diff" y = Some m) /\
  (forall k, k <> "diff" -> (In k shown_attrs -> get_attr k y = get_attr k x) /\ (~ In k shown_attrs -> get_attr k y = None)).
Proof.
  assert (A : forall m x k, get_attr k (process_attrib m x) = assoc String.eqb k (process_attrs m (xattrs x))) by (intros m [t tx a ks] k; reflexivity).
  assert (P : forall m x, xtag (process_attrib m x) = xtag x /\ xtext (process_attrib m x) = xtext x /\ xkids (process_attrib m x) = map (process_attrib m) (xkids x)) by (intros m [t tx a ks]; auto).
  assert (ONE : forall m x, (m <> "" -> get_attr "diff" (process_attrib m x) = Some m) /\
    (forall k, k <> "diff" -> (In k shown_attrs -> get_attr k (process_attrib m x) = get_attr k x) /\ (~ In k shown_attrs -> get_attr k (process_attrib m x) = None))).
  { intros m x. assert (R : forall k, k <> "diff" -> get_attr k (process_attrib m x) = if mem String.eqb k shown_attrs then get_attr k x else None).
    { intros k N. rewrite A. unfold process_attrs. destruct (String.eqb m ""); [apply (assoc_kept shown_attrs) |].
      rewrite dset_assoc. destruct (String.eqb_spec k "diff") as [-> | _]; [congruence |]. apply (assoc_kept shown_attrs). }
    split.
    - intro N. rewrite A. unfold process_attrs. apply String.eqb_neq in N. rewrite N. rewrite dset_assoc. reflexivity.
    - intros k N. rewrite (R k N). split; intro I.
      + rewrite (proj2 (mem_In String.eqb String.eqb_eq k shown_attrs) I). auto.
      + destruct (mem String.eqb k shown_attrs) eqn:M; auto. exfalso. apply I. apply (mem_In String.eqb String.eqb_eq). auto. }
  induction p as [| u p IH]; intros t m y H; inversion H as [? c I | ? c ? ? I D]; subst; destruct (P m t) as (_ & _ & K); rewrite K in I; apply in_map_iff in I; destruct I as (c0 & <- & I);
    destruct (P m c0) as (T1 & T2 & _).
  - rewrite T1. exists c0. split; [apply MDiffSpec.at_kid; auto |]. auto.
  - destruct (IH c0 m y D) as (x & X & R). rewrite T1. exists x. split; [apply MDiffSpec.at_down; auto | exact R].
Qed.

(** ** Paths *)
Lemma absolute_only : forall m p t, XPathM.get_statement m p = Some t -> Absolute p.
Proof.
  intros m p t H. unfold XPathM.get_statement in H. destruct p as [| a p]; [discriminate |]. cbn [XPathM.split_at] in H.
  destruct (XPathM.split_at "/" p) as [h l] eqn:E. destruct (Ascii.eqb_spec a "/") as [-> | N]; [| discriminate].
  destruct p as [| c p]; cbn [XPathM.split_at] in E; [injection E as <- <-; discriminate |].
  exists c, p. split; auto. intros ->. destruct (XPathM.split_at "/" p) as [h' l']. cbn in E. injection E as <- <-. discriminate.
Qed.

(** ** Annotations *)
Lemma look_only : forall k l v, (exists a, In (k, a) l) -> (forall a, In (k, a) l -> a = v) -> look k l = Some v.
Proof.
  intros k l v. induction l as [| [n w] r IH]; intros (a & I) U; [destruct I |]. cbn [look].
  destruct (look k r) as [z |] eqn:L.
  - f_equal. assert (J : In (k, z) r).
    { clear - L. induction r as [| [n w] r IH]; [discriminate |]. cbn [look] in L. destruct (look k r) eqn:M; [injection L as ->; right; auto |].
      destruct (String.eqb_spec k n) as [-> | _]; [injection L as ->; left; auto | discriminate]. }
    apply U. right. auto.
  - destruct (String.eqb_spec k n) as [-> | N]; [f_equal; apply U; left; auto |].
    exfalso. destruct I as [I | I]; [congruence |]. assert (X : None = Some v) by (apply IH; [eauto | intros b J; apply U; right; auto]). discriminate.
Qed.

Lemma ext_In : forall ns i k v, In (k, v) (ext_attrs ns i) <-> exists e, In e (y_ext i) /\ Annotates ns e k /\ v = match snd e with Some a => a | None => "" end.
Proof.
  intros ns i k v. unfold ext_attrs. rewrite in_flat_map. split.
  - intros ([w o] & I & H). exists (w, o). split; auto. destruct w as [w | m w]; [destruct H |].
    destruct (contains "tailf" m) eqn:C; [| destruct H]. destruct (assoc String.eqb m ns) as [u |] eqn:A; [| destruct H].
    destruct H as [H | []]. injection H as <- <-. split; auto. exists m, w, u. auto.
  - intros ([w o] & I & (m & w' & u & E & C & A & K) & V). exists (w, o). split; auto. cbn [fst] in E. subst w. rewrite C, A. left. subst. auto.
Qed.

Lemma plain_look : forall k m i r, look (String "{" r) (plain_attrs k m i) = None.
Proof.
  intros k m i r. apply look_none. intro H. unfold plain_attrs in H. rewrite !map_app in H.
  repeat (apply in_app_or in H; destruct H as [H | H]);
    unfold if_attr, opt_attr in H; repeat (match type of H with context [match ?x with _ => _ end] => destruct x; cbn [map fst app] in H end);
    cbn in H; intuition discriminate.
Qed.

Lemma annotated : forall ns m i ks x, depict ns m (YStmt i ks) = Ok x ->
  (forall e k, In e (y_ext i) -> Annotates ns e k -> (forall e', In e' (y_ext i) -> Annotates ns e' k -> snd e' = snd e) ->
    get_attr k x = Some (match snd e with Some v => v | None => "" end)) /\
  (forall r, (forall e, In e (y_ext i) -> ~ Annotates ns e (String "{" r)) -> get_attr (String "{" r) x = None).
Proof.
  intros ns m i ks x H. rewrite depict_eq in H. destruct (assoc String.eqb (y_module i) ns) as [u |]; [| discriminate].
  destruct (y_kw i) as [kw | a b]; [| discriminate]. apply bind_ok in H. destruct H as (l & _ & H). assert (E := f_equal (fun r => match r with Ok y => y | Err _ => x end) H). cbv beta iota in E. clear H. subst x.
  assert (F : forall k, look (String "{" k) (feature_attrs i) = None) by (intro k; apply look_feature; discriminate). split.
  - intros e k I A U. unfold get_attr. cbn [xattrs]. rewrite set_all_look, !look_app.
    assert (B : exists r, k = String "{" r) by (destruct A as (m' & w & u' & _ & _ & _ & ->); eexists; reflexivity). destruct B as (r & B). rewrite B, F, <- B.
    rewrite (look_only k (ext_attrs ns i) (match snd e with Some v => v | None => "" end)); auto.
    + exists (match snd e with Some v => v | None => "" end). apply ext_In. eauto.
    + intros a J. apply ext_In in J. destruct J as (e' & J1 & J2 & ->). rewrite (U e' J1 J2). auto.
  - intros r N. unfold get_attr. cbn [xattrs]. rewrite set_all_look, !look_app, F, plain_look.
    rewrite look_none; auto. intro J. apply in_map_iff in J. destruct J as ([k v] & E & J). cbn [fst] in E. subst k. apply ext_In in J. destruct J as (e & J1 & J2 & _). exact (N e J1 J2).
Qed.

Lemma is_data_iff : forall t, is_data t = true <-> DataNode t.
Proof.
  intro t. unfold is_data, DataNode. rewrite existsb_exists. unfold is_kw. split.
  - intros (k & I & E). destruct (y_kw (yi t)) as [w |]; [| discriminate]. apply String.eqb_eq in E. subst w. exists k. auto.
  - intros (k & E & I). exists k. rewrite E, String.eqb_refl. auto.
Qed.
