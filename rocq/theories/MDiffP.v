(** Proofs about the comparison of models. *)
From Coq Require Import String List Bool Permutation.
From Verif Require Import Base BaseP XmlM PlainP PruneP MDiffM MDiffSpec.
Import ListNotations.
Open Scope string_scope.
Open Scope list_scope.

(** * Peers *)
Lemma findall_In : forall t x c, In c (findall t x) <-> In c (xkids x) /\ xtag c = t.
Proof. intros t x c. unfold findall. rewrite filter_In, String.eqb_eq. tauto. Qed.
Lemma sole_In : forall {A} (l : list A) p c, l = [p] -> In c l -> c = p.
Proof. intros A l p c -> [H | []]. congruence. Qed.

Lemma get_peer_none : forall t x, get_peer t x = Ok None -> forall c, In c (xkids x) -> xtag c <> t.
Proof.
  intros t x H c I E. unfold get_peer in H.
  assert (G : In c (findall t x)) by (apply findall_In; auto).
  destruct (findall t x) as [| a [| b r]]; try discriminate. destruct G.
Qed.
Lemma get_peer_some : forall t x q, get_peer t x = Ok (Some q) -> findall t x = [q].
Proof.
  intros t x q H. unfold get_peer in H. destruct (findall t x) as [| a [| b r]]; try discriminate.
  injection H as ->. reflexivity.
Qed.
Lemma sole_spec : forall t x q, findall t x = [q] -> In q (xkids x) /\ xtag q = t /\ forall c, In c (xkids x) -> xtag c = t -> c = q.
Proof.
  intros t x q H.
  assert (G : In q (findall t x)) by (rewrite H; left; reflexivity).
  apply findall_In in G. destruct G. split; auto. split; auto. intros c I E.
  apply (sole_In _ _ c H). apply findall_In. auto.
Qed.

(** * [node_less] *)
Definition less_kids (y : xml) :=
  fix go (l : list xml) : res bool :=
       match l with
       | [] => Ok true
       | c :: r =>
           match findall (xtag c) y with
           | [] => Ok false
           | [p] => let! b := node_less c p in if b then go r else Ok false
           | _ => Err ModelError
           end
       end.
Lemma node_less_eq : forall x y, node_less x y =
  if negb (String.eqb (xtag x) (xtag y)) then Ok false
  else if negb (ostr_eqb (xtext x) (xtext y)) then Ok false
  else if negb (attrs_less x y) then Ok false
  else less_kids y (xkids x).
Proof. intros [t tx a ks] y. reflexivity. Qed.

Lemma less_kids_true : forall y l, less_kids y l = Ok true <->
  forall c, In c l -> exists p, findall (xtag c) y = [p] /\ node_less c p = Ok true.
Proof.
  intros y l. induction l as [| c r IH]; simpl.
  - split; auto. intros _ c [].
  - split.
    + destruct (findall (xtag c) y) as [| p [| b s]] eqn:E; try discriminate.
      destruct (node_less c p) as [[|] | e] eqn:Ep; cbn [bind]; try discriminate.
      intros H c' [<- | I]; [exists p; auto | apply IH; auto].
    + intro H. destruct (H c (or_introl eq_refl)) as (p & -> & ->). cbn [bind]. apply IH. intros c' I. apply H. auto.
Qed.

Lemma less_true : forall x y, node_less x y = Ok true <->
  xtag x = xtag y /\ xtext x = xtext y /\ attrs_less x y = true /\
  forall c, In c (xkids x) -> exists p, findall (xtag c) y = [p] /\ node_less c p = Ok true.
Proof.
  intros x y. rewrite node_less_eq, <- less_kids_true.
  assert (O : forall u v : option string, ostr_eqb u v = true <-> u = v).
  { apply opt_eqb_ok. intros a b. apply String.eqb_eq. }
  split.
  - destruct (String.eqb (xtag x) (xtag y)) eqn:E1; cbn [negb]; [| discriminate].
    destruct (ostr_eqb (xtext x) (xtext y)) eqn:E2; cbn [negb]; [| discriminate].
    destruct (attrs_less x y) eqn:E3; cbn [negb]; [| discriminate].
    intro H. apply String.eqb_eq in E1. apply O in E2; auto.
  - intros (E1 & E2 & E3 & H). apply String.eqb_eq in E1. apply O in E2. rewrite E1, E2, E3. exact H.
Qed.

Lemma get_attr_In : forall a x v, get_attr a x = Some v -> exists p, In p (xattrs x) /\ fst p = a.
Proof.
  intros a x v. unfold get_attr. induction (xattrs x) as [| [k w] r IH]; simpl; [discriminate |].
  destruct (String.eqb a k) eqn:E.
  - intros _. apply String.eqb_eq in E. exists (k, w). auto.
  - intro H. destruct (IH H) as (p & I & F). exists p. auto.
Qed.
Lemma get_attr_key : forall p x, In p (xattrs x) -> exists v, get_attr (fst p) x = Some v.
Proof.
  intros p x. unfold get_attr. induction (xattrs x) as [| [k w] r IH]; simpl; [tauto |].
  intros [<- | I].
  - simpl. rewrite String.eqb_refl. eauto.
  - destruct (String.eqb (fst p) k); eauto.
Qed.
Lemma attrs_less_true : forall x y, attrs_less x y = true <->
  forall a v, get_attr a x = Some v -> get_attr a y = Some v.
Proof.
  intros x y. unfold attrs_less. rewrite forallb_forall.
  assert (O : forall u v : option string, ostr_eqb u v = true <-> u = v).
  { apply opt_eqb_ok. intros a b. apply String.eqb_eq. }
  split.
  - intros H a v G. destruct (get_attr_In _ _ _ G) as (p & I & <-). specialize (H p I).
    destruct (get_attr (fst p) y) as [w |]; [| discriminate]. apply O in H. congruence.
  - intros H p I. destruct (get_attr_key p x I) as (v & G). rewrite (H _ _ G), G. apply O. reflexivity.
Qed.

(** * Equality *)
Lemma filter_sole_In : forall (l : list xml) t c, filter (fun k => String.eqb (xtag k) t) l = [c] -> In c l.
Proof.
  intros l t c H. assert (G : In c (filter (fun k => String.eqb (xtag k) t) l)) by (rewrite H; left; reflexivity).
  apply filter_In in G. tauto.
Qed.

Lemma sole_nodup : forall l : list xml,
  (forall c, In c l -> filter (fun k => String.eqb (xtag k) (xtag c)) l = [c]) -> NoDup (map xtag l).
Proof.
  intro l. induction l as [| a r IH]; intro H; [constructor |]. cbn [map]. constructor.
  - intro I. apply in_map_iff in I. destruct I as (b & E & I).
    specialize (H a (or_introl eq_refl)). cbn [filter] in H. rewrite String.eqb_refl in H.
    injection H as H. assert (G : In b (filter (fun k => String.eqb (xtag k) (xtag a)) r)).
    { apply filter_In. split; auto. apply String.eqb_eq. exact E. }
    rewrite H in G. destruct G.
  - apply IH. intros c I. pose proof (H c (or_intror I)) as G. cbn [filter] in G.
    destruct (String.eqb (xtag a) (xtag c)) eqn:E; auto.
    injection G as -> G. exfalso.
    assert (X : In c (filter (fun k => String.eqb (xtag k) (xtag c)) r)).
    { apply filter_In. split; [exact I | apply String.eqb_refl]. }
    rewrite G in X. destruct X.
Qed.

Lemma nodup_tags : forall l : list xml, NoDup (map xtag l) -> NoDup l.
Proof. intros l. apply NoDup_map_inv. Qed.
Lemma nodup_eq : forall (l : list xml) a b, NoDup (map xtag l) -> In a l -> In b l -> xtag a = xtag b -> a = b.
Proof.
  intros l a b. induction l as [| c r IH]; intros N Ia Ib E; [destruct Ia |].
  cbn [map] in N. inversion N as [| z w N1 N2]; subst. destruct Ia as [<- | Ia], Ib as [<- | Ib]; auto.
  - exfalso. apply N1. rewrite E. apply in_map. exact Ib.
  - exfalso. apply N1. rewrite <- E. apply in_map. exact Ia.
Qed.

Lemma pair_up : forall (R : xml -> xml -> Prop) x y,
  (forall c, In c (xkids x) -> exists p, findall (xtag c) y = [p] /\ R c p) ->
  (forall p, In p (xkids y) -> exists c, findall (xtag p) x = [c]) ->
  exists l, Permutation (xkids y) l /\ Forall2 R (xkids x) l.
Proof.
  intros R x y H1 H2.
  assert (Nx : NoDup (map xtag (xkids x))).
  { apply sole_nodup. intros c I. destruct (H1 c I) as (p & F & _). apply sole_spec in F. destruct F as (Ip & Tp & _).
    destruct (H2 p Ip) as (c' & F). rewrite Tp in F. assert (c = c').
    { apply (sole_In _ _ c F). apply findall_In. auto. }
    subst c'. exact F. }
  assert (Ny : NoDup (map xtag (xkids y))).
  { apply sole_nodup. intros p I. destruct (H2 p I) as (c & F). apply sole_spec in F. destruct F as (Ic & Tc & _).
    destruct (H1 c Ic) as (p' & F & _). rewrite Tc in F. assert (p = p').
    { apply (sole_In _ _ p F). apply findall_In. auto. }
    subst p'. exact F. }
  assert (L : exists l, Forall2 (fun c p => findall (xtag c) y = [p] /\ R c p) (xkids x) l).
  { clear Nx H2. induction (xkids x) as [| c r IH]; [exists []; constructor |].
    destruct (H1 c (or_introl eq_refl)) as (p & F & Rc). destruct IH as (l & Hl). { intros c' I. apply H1. right. exact I. }
    exists (p :: l). constructor; auto. }
  destruct L as (l & L). exists l. split.
  - apply NoDup_Permutation.
    + apply nodup_tags. exact Ny.
    + assert (E : map xtag l = map xtag (xkids x)).
      { clear - L. induction L as [| c p cs ps [F _] L IH]; [reflexivity |]. cbn [map]. rewrite IH. f_equal.
        apply sole_spec in F. tauto. }
      apply nodup_tags. rewrite E. exact Nx.
    + intro p. split; intro I.
      * destruct (H2 p I) as (c & F). apply sole_spec in F. destruct F as (Ic & Tc & _).
        clear - L Ic Tc I. induction L as [| c' p' cs ps [F _] L IH]; [destruct Ic |].
        destruct Ic as [-> | Ic]; [| right; auto]. left. symmetry. apply (sole_In _ _ p F). apply findall_In. auto.
      * clear - L I. induction L as [| c' p' cs ps [F _] L IH]; [destruct I |].
        destruct I as [<- | I]; auto. apply sole_spec in F. tauto.
  - clear - L. induction L as [| c p cs ps [_ Rc] L IH]; constructor; auto.
Qed.

Lemma equal_same : forall x y, node_less x y = Ok true -> node_less y x = Ok true -> Same x y.
Proof.
  intro x. induction x as [x IH] using xml_ind'. intros y H1 H2.
  apply less_true in H1. destruct H1 as (Tg & Tx & A1 & K1).
  apply less_true in H2. destruct H2 as (_ & _ & A2 & K2).
  rewrite attrs_less_true in A1, A2.
  destruct (pair_up Same x y) as (l & P & F).
  - intros c I. destruct (K1 c I) as (p & Fp & L). exists p. split; auto. apply IH; auto.
    apply sole_spec in Fp. destruct Fp as (Ip & Tp & _). destruct (K2 p Ip) as (c' & Fc & L'). rewrite Tp in Fc.
    assert (c = c') by (apply (sole_In _ _ c Fc); apply findall_In; auto). subst c'. exact L'.
  - intros p I. destruct (K2 p I) as (c & F & _). eauto.
  - apply (same_node _ _ l); auto. intro a. destruct (get_attr a x) as [v |] eqn:E1.
    + symmetry. apply A1. exact E1.
    + destruct (get_attr a y) as [v |] eqn:E2; auto. apply A2 in E2. congruence.
Qed.

Lemma Same_inv : forall x y, Same x y -> xtag x = xtag y /\ xtext x = xtext y /\
  (forall a, get_attr a x = get_attr a y) /\ SameNodes x y.
Proof. intros x y H. destruct H as [x y l A B C D E]. split; auto. split; auto. split; auto. exists l. auto. Qed.

Lemma Forall2_In_l : forall {A B} (R : A -> B -> Prop) l m a, Forall2 R l m -> In a l -> exists b, In b m /\ R a b.
Proof.
  intros A B R l m a H. induction H as [| x y l m Rxy H IH]; intro I; [destruct I |].
  destruct I as [-> | I]; [exists y; simpl; auto |]. destruct (IH I) as (b & Ib & Rb). exists b. simpl. auto.
Qed.
Lemma Forall2_In_r : forall {A B} (R : A -> B -> Prop) l m b, Forall2 R l m -> In b m -> exists a, In a l /\ R a b.
Proof.
  intros A B R l m b H. induction H as [| x y l m Rxy H IH]; intro I; [destruct I |].
  destruct I as [-> | I]; [exists x; simpl; auto |]. destruct (IH I) as (a & Ia & Ra). exists a. simpl. auto.
Qed.
Lemma SameNodes_l : forall x y c, SameNodes x y -> In c (xkids x) -> exists p, In p (xkids y) /\ Same c p.
Proof.
  intros x y c (l & P & F) I. destruct (Forall2_In_l _ _ _ _ F I) as (p & Ip & S). exists p. split; auto.
  apply (Permutation_in _ (Permutation_sym P)). exact Ip.
Qed.
Lemma SameNodes_r : forall x y p, SameNodes x y -> In p (xkids y) -> exists c, In c (xkids x) /\ Same c p.
Proof.
  intros x y p (l & P & F) I. apply (Forall2_In_r _ _ _ _ F). apply (Permutation_in _ P). exact I.
Qed.

(** Equal nodes are never told apart, in either direction. *)
Lemma less_kids_not : forall y l, (forall c, In c l -> (exists p, In p (xkids y) /\ xtag p = xtag c) /\
    forall p, findall (xtag c) y = [p] -> node_less c p <> Ok false) -> less_kids y l <> Ok false.
Proof.
  intros y l. induction l as [| c r IH]; intro H; simpl; [discriminate |].
  destruct (H c (or_introl eq_refl)) as [(p & Ip & Tp) N].
  destruct (findall (xtag c) y) as [| p' [| b s]] eqn:E; try discriminate.
  - exfalso. assert (X : In p (findall (xtag c) y)) by (apply findall_In; auto). rewrite E in X. destruct X.
  - specialize (N p' eq_refl). destruct (node_less c p') as [[|] | e]; cbn [bind]; try discriminate; [| congruence].
    apply IH. intros c' I. apply H. right. exact I.
Qed.
Lemma less_not_attrs : forall x y, (forall a, get_attr a x = get_attr a y) -> attrs_less x y = true.
Proof. intros x y H. apply attrs_less_true. intros a v E. rewrite <- H. exact E. Qed.

Lemma same_less : forall x y, Same x y -> node_less x y <> Ok false /\ node_less y x <> Ok false.
Proof.
  intro x. induction x as [x IH] using xml_ind'. intros y S. apply Same_inv in S. destruct S as (Tg & Tx & A & K).
  assert (O : forall u : option string, ostr_eqb u u = true).
  { intro u. apply opt_eqb_ok; auto. intros a b. apply String.eqb_eq. }
  split; rewrite node_less_eq.
  - rewrite Tg, Tx, String.eqb_refl, O, (less_not_attrs x y A). cbn [negb]. apply less_kids_not.
    intros c I. destruct (SameNodes_l _ _ _ K I) as (p & Ip & S). split.
    + exists p. split; auto. symmetry. apply Same_inv in S. tauto.
    + intros p' F. assert (p = p').
      { apply (sole_In _ _ p F). apply findall_In. split; auto. symmetry. apply Same_inv in S. tauto. }
      subst p'. apply (IH c I p S).
  - rewrite Tg, Tx, String.eqb_refl, O, (less_not_attrs y x) by (intro a; symmetry; apply A).
    cbn [negb]. apply less_kids_not.
    intros p I. destruct (SameNodes_r _ _ _ K I) as (c & Ic & S). split.
    + exists c. split; auto. apply Same_inv in S. tauto.
    + intros c' F. assert (c = c').
      { apply (sole_In _ _ c F). apply findall_In. split; auto. apply Same_inv in S. tauto. }
      subst c'. apply (IH c Ic p S).
Qed.

Lemma node_equal_true : forall x y, node_equal x y = Ok true -> Same x y.
Proof.
  intros x y H. unfold node_equal in H. destruct (node_less x y) as [[|] | e] eqn:E; cbn [bind] in H; try discriminate.
  apply equal_same; auto.
Qed.
Lemma node_equal_false : forall x y, node_equal x y = Ok false -> ~ Same x y.
Proof.
  intros x y H S. apply same_less in S. destruct S as [S1 S2]. unfold node_equal in H.
  destruct (node_less x y) as [[|] | e]; cbn [bind] in H; congruence.
Qed.

(** * [compare_nodes] *)
Definition one_child (n1 c : xml) : res (list xml) :=
  let! p := get_peer (xtag c) n1 in
  match p with
  | None => Ok [copy_subtree c "added"]
  | Some q =>
      let! e := node_equal q c in
      if e then Ok []
      else match get_attr "type" c with
           | None => Err KeyError
           | Some ty =>
               if is_leaf_type ty then Ok [copy_node c "modified"]
               else let! ks := compare_nodes c q in Ok [set_kids ks (copy_node c "")]
           end
  end.
Definition new_kids (n1 : xml) :=
  fix go (l : list xml) : res (list xml) :=
    match l with
    | [] => Ok []
    | c :: r => let! here := one_child n1 c in let! rest := go r in Ok (here ++ rest)
    end.
Lemma compare_eq : forall n2 n1, compare_nodes n2 n1 =
  let! new := new_kids n1 (xkids n2) in
  let! old := only_in_first n2 (xkids n1) in
  Ok (new ++ old).
Proof.
  intros [t tx a k2] n1. cbn [compare_nodes xkids].
  match goal with |- bind ?a _ = bind ?b _ => assert (E : a = b) end.
  { induction k2 as [| c r IH]; [reflexivity |]. cbn [new_kids]. unfold one_child at 1.
    destruct (get_peer (xtag c) n1) as [p | e]; cbn [bind]; [| reflexivity].
    rewrite IH. reflexivity. }
  rewrite E. reflexivity.
Qed.

Lemma new_kids_In : forall n1 l ks, new_kids n1 l = Ok ks ->
  (forall c, In c l -> exists h, one_child n1 c = Ok h) /\
  (forall y, In y ks <-> exists c h, In c l /\ one_child n1 c = Ok h /\ In y h).
Proof.
  intros n1 l. induction l as [| c r IH]; intros ks H; cbn [new_kids] in H.
  - injection H as <-. split; [intros c [] |]. intro y. split; [intros [] | intros (c & h & [] & _)].
  - apply bind_ok in H. destruct H as (h & Hh & H). apply bind_ok in H. destruct H as (rest & Hr & H).
    injection H as <-. destruct (IH _ Hr) as [I1 I2]. split.
    + intros c' [<- | I]; eauto.
    + intro y. rewrite in_app_iff, I2. split.
      * intros [I | (c' & h' & I & E & J)]; [exists c, h; simpl; auto | exists c', h'; simpl; auto].
      * intros (c' & h' & [<- | I] & E & J); [left; congruence | right; eauto].
Qed.

Lemma only_In : forall n2 l ks, only_in_first n2 l = Ok ks ->
  (forall c, In c l -> exists p, get_peer (xtag c) n2 = Ok p) /\
  (forall y, In y ks <-> exists c, In c l /\ get_peer (xtag c) n2 = Ok None /\ y = copy_subtree c "deleted").
Proof.
  intros n2 l. induction l as [| c r IH]; intros ks H; cbn [only_in_first] in H.
  - injection H as <-. split; [intros c [] |]. intro y. split; [intros [] | intros (c & [] & _)].
  - apply bind_ok in H. destruct H as (p & Hp & H). apply bind_ok in H. destruct H as (rest & Hr & H).
    injection H as <-. destruct (IH _ Hr) as [I1 I2]. split.
    + intros c' [<- | I]; eauto.
    + intro y. destruct p as [q |].
      * rewrite I2. split.
        -- intros (c' & I & E & J). exists c'. simpl. auto.
        -- intros (c' & [<- | I] & E & J); [congruence | eauto].
      * simpl. rewrite I2. split.
        -- intros [<- | (c' & I & E & J)]; [exists c; auto | exists c'; auto].
        -- intros (c' & [<- | I] & E & J); [left; auto | right; eauto].
Qed.

(** The three ways in which a child of the new node is reported. *)
Lemma one_child_cases : forall n1 c h, one_child n1 c = Ok h ->
  (get_peer (xtag c) n1 = Ok None /\ h = [copy_subtree c "added"]) \/
  (exists q, findall (xtag c) n1 = [q] /\ Same q c /\ h = []) \/
  (exists q ty, findall (xtag c) n1 = [q] /\ ~ Same q c /\ get_attr "type" c = Some ty /\ is_leaf_type ty = true /\
     h = [copy_node c "modified"]) \/
  (exists q ty ks, findall (xtag c) n1 = [q] /\ ~ Same q c /\ get_attr "type" c = Some ty /\ is_leaf_type ty = false /\
     compare_nodes c q = Ok ks /\ h = [set_kids ks (copy_node c "")]).
Proof.
  intros n1 c h H. unfold one_child in H. apply bind_ok in H. destruct H as (p & Hp & H).
  destruct p as [q |]; [| injection H as <-; left; auto].
  right. apply get_peer_some in Hp. apply bind_ok in H. destruct H as (e & He & H).
  destruct e.
  - injection H as <-. left. exists q. split; auto. split; auto. apply node_equal_true. exact He.
  - right. apply node_equal_false in He. destruct (get_attr "type" c) as [ty |] eqn:Et; [| discriminate].
    destruct (is_leaf_type ty) eqn:El.
    + injection H as <-. left. exists q, ty. auto.
    + apply bind_ok in H. destruct H as (ks & Hk & H). injection H as <-. right. exists q, ty, ks. auto 8.
Qed.

Lemma diff_empty : forall t1 t2 d, model_diff false t1 t2 = Ok d -> (nonempty d = false <-> SameNodes t1 t2).
Proof.
  intros t1 t2 d H. unfold model_diff in H. destruct (String.eqb (xtag t1) (xtag t2)); [| discriminate].
  apply bind_ok in H. destruct H as (ks & Hk & H). injection H as <-. unfold nonempty. cbn [xkids].
  rewrite compare_eq in Hk. apply bind_ok in Hk. destruct Hk as (new & Hn & Hk).
  apply bind_ok in Hk. destruct Hk as (old & Ho & Hk). injection Hk as <-.
  destruct (new_kids_In _ _ _ Hn) as [N1 N2]. destruct (only_In _ _ _ Ho) as [O1 O2].
  assert (E : (match new ++ old with [] => false | _ => true end = false) <-> (forall y, ~ In y (new ++ old))).
  { destruct (new ++ old) as [| a r]; split; auto; [discriminate |]. intro X. exfalso. apply (X a). left. reflexivity. }
  rewrite E. split.
  - intro Z.
    assert (P2 : forall p, In p (xkids t2) -> exists q, findall (xtag p) t1 = [q] /\ Same q p).
    { intros p I. destruct (N1 p I) as (h & Hh). pose proof (one_child_cases _ _ _ Hh) as C.
      assert (Hnil : h = []).
      { destruct h as [| y h']; auto. exfalso. apply (Z y). apply in_or_app. left. apply N2. exists p, (y :: h'). simpl. auto. }
      destruct C as [(_ & ->) | [(q & F & S & _) | [(q & ty & F & S & T & L & ->) | (q & ty & k & F & S & T & L & C & ->)]]];
        try discriminate. eauto. }
    apply pair_up.
    + intros c I. destruct (O1 c I) as (p & Hp). destruct p as [p |].
      * apply get_peer_some in Hp. exists p. split; auto. pose proof (sole_spec _ _ _ Hp) as (Ip & Tp & _).
        destruct (P2 p Ip) as (q & F & S). rewrite Tp in F.
        assert (c = q) by (apply (sole_In _ _ c F); apply findall_In; auto). subst q. exact S.
      * exfalso. apply (Z (copy_subtree c "deleted")). apply in_or_app. right. apply O2. exists c. auto.
    + intros p I. destruct (P2 p I) as (q & F & _). eauto.
  - intros S y I. apply in_app_or in I. destruct I as [I | I].
    + apply N2 in I. destruct I as (c & h & Ic & Hh & Iy).
      destruct (SameNodes_r _ _ _ S Ic) as (q0 & Iq & Sq). pose proof (Same_inv _ _ Sq) as (Tg & _).
      destruct (one_child_cases _ _ _ Hh) as [(P & ->) | [(q & F & Sq' & ->) | [(q & ty & F & NS & T & L & ->) | (q & ty & k & F & NS & T & L & C & ->)]]].
      * apply (get_peer_none _ _ P q0 Iq Tg).
      * destruct Iy.
      * assert (q0 = q) by (apply (sole_In _ _ q0 F); apply findall_In; auto). subst q. contradiction.
      * assert (q0 = q) by (apply (sole_In _ _ q0 F); apply findall_In; auto). subst q. contradiction.
    + apply O2 in I. destruct I as (c & Ic & P & _). destruct (SameNodes_l _ _ _ S Ic) as (p & Ip & Sp).
      pose proof (Same_inv _ _ Sp) as (Tg & _). apply (get_peer_none _ _ P p Ip). congruence.
Qed.

(** The same object compared with itself gives an empty diff. *)
Lemma diff_itself : forall t, exists d, model_diff true t t = Ok d /\ nonempty d = false.
Proof.
  intro t. unfold model_diff. rewrite String.eqb_refl. eexists. split; reflexivity.
Qed.

(** * The comparison succeeds on proper models *)
Lemma At_inv : forall x p y, At x p y ->
  exists c, In c (xkids x) /\ ((p = [xtag c] /\ y = c) \/ exists p', p = xtag c :: p' /\ At c p' y).
Proof. intros x p y H. destruct H as [x c I | x c p y I H]; exists c; split; auto. right. eauto. Qed.
Lemma At_nonempty : forall x p y, At x p y -> p <> [].
Proof. intros x p y H. destruct H; discriminate. Qed.

Lemma distinct_kid : forall x c, DistinctTags x -> In c (xkids x) -> DistinctTags c.
Proof.
  intros x c [A B] I. split.
  - apply (B [xtag c]). apply at_kid. exact I.
  - intros p y H. apply (B (xtag c :: p)). apply at_down; auto.
Qed.
Lemma typed_kid : forall x c, Typed x -> In c (xkids x) -> Typed c /\ get_attr "type" c <> None.
Proof.
  intros x c T I. split.
  - intros p y H. apply (T (xtag c :: p)). apply at_down; auto.
  - apply (T [xtag c]). apply at_kid. exact I.
Qed.

Lemma findall_distinct : forall x t, NoDup (map xtag (xkids x)) -> findall t x = [] \/ exists q, findall t x = [q].
Proof.
  intros x t. unfold findall. induction (xkids x) as [| a r IH]; intro N; [left; reflexivity |].
  cbn [map] in N. inversion N as [| z w N1 N2]; subst. cbn [filter]. destruct (String.eqb (xtag a) t) eqn:E.
  - right. exists a. f_equal. destruct (filter (fun c => String.eqb (xtag c) t) r) as [| b s] eqn:F; auto.
    exfalso. apply N1. assert (G : In b (filter (fun c => String.eqb (xtag c) t) r)) by (rewrite F; left; reflexivity).
    apply filter_In in G. destruct G as [G1 G2]. apply String.eqb_eq in E, G2. rewrite E, <- G2. apply in_map. exact G1.
  - apply IH. exact N2.
Qed.
Lemma get_peer_distinct : forall x t, NoDup (map xtag (xkids x)) -> exists p, get_peer t x = Ok p.
Proof.
  intros x t N. unfold get_peer. destruct (findall_distinct x t N) as [-> | (q & ->)]; eauto.
Qed.

Lemma less_total : forall x y, DistinctTags y -> exists b, node_less x y = Ok b.
Proof.
  intro x. induction x as [x IH] using xml_ind'. intros y D. rewrite node_less_eq.
  destruct (negb (String.eqb (xtag x) (xtag y))); [eauto |].
  destruct (negb (ostr_eqb (xtext x) (xtext y))); [eauto |].
  destruct (negb (attrs_less x y)); [eauto |].
  induction (xkids x) as [| c r IHr]; [simpl; eauto |]. cbn [less_kids].
  destruct (findall_distinct y (xtag c) (proj1 D)) as [E | (q & E)]; rewrite E; [eauto |].
  destruct (IH c (or_introl eq_refl) q) as (b & ->).
  { apply (distinct_kid y); auto. apply sole_spec in E. tauto. }
  cbn [bind]. destruct b; [| eauto]. apply IHr. intros c' I. apply IH. right. exact I.
Qed.
Lemma equal_total : forall x y, DistinctTags x -> DistinctTags y -> exists b, node_equal x y = Ok b.
Proof.
  intros x y D1 D2. unfold node_equal. destruct (less_total x y D2) as (b & ->). cbn [bind].
  destruct b; [apply less_total; exact D1 | eauto].
Qed.

Lemma compare_total : forall n2 n1, DistinctTags n1 -> DistinctTags n2 -> Typed n2 -> exists ks, compare_nodes n2 n1 = Ok ks.
Proof.
  intro n2. induction n2 as [n2 IH] using xml_ind'. intros n1 D1 D2 T2. rewrite compare_eq.
  assert (N : exists new, new_kids n1 (xkids n2) = Ok new).
  { assert (K : forall c, In c (xkids n2) -> exists h, one_child n1 c = Ok h).
    { intros c I. unfold one_child. destruct (get_peer_distinct n1 (xtag c) (proj1 D1)) as (p & Hp). rewrite Hp. cbn [bind].
      destruct p as [q |]; [| eauto]. apply get_peer_some in Hp. apply sole_spec in Hp. destruct Hp as (Iq & _).
      pose proof (distinct_kid _ _ D1 Iq) as Dq. pose proof (distinct_kid _ _ D2 I) as Dc.
      destruct (typed_kid _ _ T2 I) as [Tc Ty].
      destruct (equal_total q c Dq Dc) as (e & ->). cbn [bind]. destruct e; [eauto |].
      destruct (get_attr "type" c) as [ty |]; [| contradiction]. destruct (is_leaf_type ty); [eauto |].
      destruct (IH c I q Dq Dc Tc) as (ks & ->). cbn [bind]. eauto. }
    revert K. generalize (xkids n2). intro l. induction l as [| c r IHl]; intro K; [simpl; eauto |].
    cbn [new_kids]. destruct (K c (or_introl eq_refl)) as (h & ->). cbn [bind].
    destruct IHl as (rest & ->). { intros c' I. apply K. right. exact I. }
    cbn [bind]. eauto. }
  destruct N as (new & ->). cbn [bind].
  assert (O : exists old, only_in_first n2 (xkids n1) = Ok old).
  { induction (xkids n1) as [| c r IHl]; [simpl; eauto |]. cbn [only_in_first].
    destruct (get_peer_distinct n2 (xtag c) (proj1 D2)) as (p & ->). cbn [bind].
    destruct IHl as (rest & ->). cbn [bind]. eauto. }
  destruct O as (old & ->). cbn [bind]. eauto.
Qed.
Lemma diff_total : forall b t1 t2, xtag t1 = xtag t2 -> DistinctTags t1 -> DistinctTags t2 -> Typed t2 ->
  exists d, model_diff b t1 t2 = Ok d.
Proof.
  intros b t1 t2 E D1 D2 T2. unfold model_diff. rewrite E, String.eqb_refl. destruct b; [eauto |].
  destruct (compare_total t2 t1 D1 D2 T2) as (ks & ->). cbn [bind]. eauto.
Qed.

(** * Marks *)
Lemma pa_tag : forall m x, xtag (process_attrib m x) = xtag x.
Proof. intros m [t tx a ks]. reflexivity. Qed.
Lemma pa_kids : forall m x, xkids (process_attrib m x) = map (process_attrib m) (xkids x).
Proof. intros m [t tx a ks]. reflexivity. Qed.
Lemma pa_diff : forall m x, m <> "" -> get_attr "diff" (process_attrib m x) = Some m.
Proof.
  intros m [t tx a ks] N. unfold get_attr. cbn [process_attrib xattrs]. unfold process_attrs.
  rewrite (proj2 (String.eqb_neq _ _) N). rewrite assoc_dset. reflexivity.
Qed.
Lemma assoc_filter_known : forall (f : string * string -> bool) a n, (forall v, f (n, v) = true) ->
  assoc String.eqb n (filter f a) = assoc String.eqb n a.
Proof.
  intros f a n H. induction a as [| [k v] r IH]; [reflexivity |]. cbn [filter assoc].
  destruct (String.eqb n k) eqn:E.
  - apply String.eqb_eq in E. subst k. rewrite H. cbn [assoc]. rewrite String.eqb_refl. reflexivity.
  - destruct (f (k, v)); [cbn [assoc]; rewrite E |]; exact IH.
Qed.
Lemma assoc_filter_out : forall (f : string * string -> bool) a n, (forall v, f (n, v) = false) ->
  assoc String.eqb n (filter f a) = None.
Proof.
  intros f a n H. induction a as [| [k v] r IH]; [reflexivity |]. cbn [filter].
  destruct (f (k, v)) eqn:E; [| exact IH]. cbn [assoc]. destruct (String.eqb n k) eqn:En; [| exact IH].
  apply String.eqb_eq in En. subst k. rewrite H in E. discriminate.
Qed.
Lemma pa_type : forall m x, get_attr "type" (process_attrib m x) = get_attr "type" x.
Proof.
  intros m [t tx a ks]. unfold get_attr. cbn [process_attrib xattrs]. unfold process_attrs.
  assert (E : assoc String.eqb "type" (filter (fun p => mem String.eqb (fst p) known_attrib) a) = assoc String.eqb "type" a).
  { apply assoc_filter_known. reflexivity. }
  destruct (String.eqb m ""); [exact E |]. rewrite assoc_dset. exact E.
Qed.
Lemma pa_nodiff : forall x, get_attr "diff" (process_attrib "" x) = None.
Proof.
  intros [t tx a ks]. unfold get_attr. cbn [process_attrib xattrs]. unfold process_attrs.
  apply (assoc_filter_out (fun p => mem String.eqb (fst p) known_attrib)). reflexivity.
Qed.

Lemma At_pa : forall m x p y, At (process_attrib m x) p y <-> exists z, At x p z /\ y = process_attrib m z.
Proof.
  intros m x. induction x as [x IH] using xml_ind'. intros p y. split.
  - intro H. apply At_inv in H. destruct H as (c & I & H). rewrite pa_kids in I. apply in_map_iff in I.
    destruct I as (k & <- & I). rewrite pa_tag in H. destruct H as [[-> ->] | (p' & -> & H)].
    + exists k. split; auto. apply at_kid. exact I.
    + apply (IH k I) in H. destruct H as (z & H & ->). exists z. split; auto. apply at_down; auto.
  - intros (z & H & ->). apply At_inv in H. destruct H as (c & I & H).
    assert (J : In (process_attrib m c) (xkids (process_attrib m x))) by (rewrite pa_kids; apply in_map; exact I).
    destruct H as [[-> ->] | (p' & -> & H)].
    + rewrite <- (pa_tag m c). apply at_kid. exact J.
    + rewrite <- (pa_tag m c). apply at_down; auto. apply (IH c I). eauto.
Qed.

Lemma copy_node_tag : forall c m, xtag (copy_node c m) = xtag c.
Proof. intros c m. unfold copy_node. rewrite pa_tag. reflexivity. Qed.
Lemma copy_node_kids : forall c m, xkids (copy_node c m) = [].
Proof. intros c m. unfold copy_node. rewrite pa_kids. reflexivity. Qed.
Lemma copy_node_type : forall c m, get_attr "type" (copy_node c m) = get_attr "type" c.
Proof. intros c m. unfold copy_node. rewrite pa_type. reflexivity. Qed.
Lemma set_kids_kids : forall k x, xkids (set_kids k x) = k.
Proof. intros k [t tx a ks]. reflexivity. Qed.
Lemma set_kids_tag : forall k x, xtag (set_kids k x) = xtag x.
Proof. intros k [t tx a ks]. reflexivity. Qed.
Lemma set_kids_attr : forall k x a, get_attr a (set_kids k x) = get_attr a x.
Proof. intros k [t tx a0 ks] a. reflexivity. Qed.

(** What is below the node that reports the comparison. *)
Lemma compare_In : forall n2 n1 ks, compare_nodes n2 n1 = Ok ks ->
  (forall c, In c (xkids n2) -> exists h, one_child n1 c = Ok h) /\
  (forall c, In c (xkids n1) -> exists p, get_peer (xtag c) n2 = Ok p) /\
  forall y, In y ks <->
    (exists c h, In c (xkids n2) /\ one_child n1 c = Ok h /\ In y h) \/
    (exists c, In c (xkids n1) /\ get_peer (xtag c) n2 = Ok None /\ y = copy_subtree c "deleted").
Proof.
  intros n2 n1 ks H. rewrite compare_eq in H. apply bind_ok in H. destruct H as (new & Hn & H).
  apply bind_ok in H. destruct H as (old & Ho & H). injection H as <-.
  destruct (new_kids_In _ _ _ Hn) as [N1 N2]. destruct (only_In _ _ _ Ho) as [O1 O2].
  split; auto. split; auto. intro y. rewrite in_app_iff, N2, O2. tauto.
Qed.

Definition rep (ks : list xml) : xml := Elem "" None [] ks.
Lemma At_rep : forall ks x p y, xkids x = ks -> (At x p y <-> At (rep ks) p y).
Proof.
  intros ks x p y E. split; intro H; apply At_inv in H; destruct H as (c & I & H); cbn [rep xkids] in I;
    destruct H as [[-> ->] | (p' & -> & H)]; try (apply at_kid); try (apply at_down; auto); cbn [rep xkids]; congruence.
Qed.

Lemma same_paths : forall x y p, Same x y -> (Exists x p <-> Exists y p).
Proof.
  intro x. induction x as [x IH] using xml_ind'. intros y p S. apply Same_inv in S. destruct S as (_ & _ & _ & K). split.
  - intros (z & H). apply At_inv in H. destruct H as (c & I & H). destruct (SameNodes_l _ _ _ K I) as (q & Iq & Sq).
    pose proof (Same_inv _ _ Sq) as (Tg & _). destruct H as [[-> ->] | (p' & -> & H)]; rewrite Tg.
    + exists q. apply at_kid. exact Iq.
    + destruct (proj1 (IH c I q p' Sq) (ex_intro _ z H)) as (w & Hw). exists w. apply at_down; auto.
  - intros (z & H). apply At_inv in H. destruct H as (q & Iq & H). destruct (SameNodes_r _ _ _ K Iq) as (c & I & Sq).
    pose proof (Same_inv _ _ Sq) as (Tg & _). destruct H as [[-> ->] | (p' & -> & H)]; rewrite <- Tg.
    + exists c. apply at_kid. exact I.
    + destruct (proj2 (IH c I q p' Sq) (ex_intro _ z H)) as (w & Hw). exists w. apply at_down; auto.
Qed.

Lemma exists_sole : forall t x q p, findall t x = [q] -> p <> [] -> (Exists x (t :: p) <-> Exists q p).
Proof.
  intros t x q p F N. apply sole_spec in F. destruct F as (I & Tg & U). split.
  - intros (z & H). apply At_inv in H. destruct H as (c & Ic & [[E ->] | (p' & E & H)]).
    + injection E as _ E. contradiction.
    + injection E as E1 E2. subst p'. rewrite (U c Ic) in H by congruence. exists z. exact H.
  - intros (z & H). exists z. rewrite <- Tg. apply at_down; auto.
Qed.
Lemma exists_none : forall t x p, get_peer t x = Ok None -> ~ Exists x (t :: p).
Proof.
  intros t x p G (z & H). apply At_inv in H. destruct H as (c & Ic & H).
  apply (get_peer_none _ _ G c Ic). destruct H as [[E _] | (p' & E & _)]; congruence.
Qed.
Lemma leaf_type : forall c ty, get_attr "type" c = Some ty -> (is_leaf_type ty = true <-> LeafType c).
Proof.
  intros c ty E. unfold is_leaf_type, LeafType. rewrite orb_true_iff, !String.eqb_eq, E. split.
  - intros [-> | ->]; auto.
  - intros [H | H]; injection H as ->; auto.
Qed.
Lemma ends_kid : forall x c, LeavesEnd x -> In c (xkids x) -> LeavesEnd c /\ (LeafType c -> xkids c = []).
Proof.
  intros x c L I. split.
  - intros p y H. apply (L (xtag c :: p)). apply at_down; auto.
  - apply (L [xtag c]). apply at_kid. exact I.
Qed.

(** Everything the report has at a path starting with a given child. *)
Lemma report_cases : forall n2 n1 ks p y, compare_nodes n2 n1 = Ok ks -> At (rep ks) p y ->
  (exists c z, In c (xkids n2) /\ get_peer (xtag c) n1 = Ok None /\
     At (rep [c]) p z /\ y = process_attrib "added" z) \/
  (exists c q, In c (xkids n2) /\ findall (xtag c) n1 = [q] /\ ~ Same q c /\ LeafType c /\
     p = [xtag c] /\ y = copy_node c "modified") \/
  (exists c q kc, In c (xkids n2) /\ findall (xtag c) n1 = [q] /\ ~ Same q c /\ ~ LeafType c /\
     compare_nodes c q = Ok kc /\
     ((p = [xtag c] /\ y = set_kids kc (copy_node c "")) \/ exists p', p = xtag c :: p' /\ At (rep kc) p' y)) \/
  (exists c z, In c (xkids n1) /\ get_peer (xtag c) n2 = Ok None /\
     At (rep [c]) p z /\ y = process_attrib "deleted" z).
Proof.
  intros n2 n1 ks p y H A. destruct (compare_In _ _ _ H) as (N & O & K).
  apply At_inv in A. destruct A as (r & Ir & A). cbn [rep xkids] in Ir. apply K in Ir.
  assert (Sub : forall c m, r = copy_subtree c m -> exists z, At (rep [c]) p z /\ y = process_attrib m z).
  { intros c m ->. unfold copy_subtree in A. rewrite pa_tag in A. destruct A as [[-> ->] | (p' & -> & A)].
    - exists c. split; auto. apply at_kid. left. reflexivity.
    - apply At_pa in A. destruct A as (z & A & ->). exists z. split; auto. apply at_down; auto. left. reflexivity. }
  destruct Ir as [(c & h & Ic & Hh & Iy) | (c & Ic & P & ->)].
  - destruct (one_child_cases _ _ _ Hh) as [(P & ->) | [(q & F & S & ->) | [(q & ty & F & S & T & L & ->) | (q & ty & kc & F & S & T & L & C & ->)]]].
    + left. destruct Iy as [E | []]. destruct (Sub c "added" (eq_sym E)) as (z & A1 & A2). exists c, z. auto.
    + destruct Iy.
    + right. left. destruct Iy as [<- | []]. exists c, q. split; auto. split; auto. split; auto.
      split; [apply (leaf_type c ty T); exact L |]. rewrite copy_node_tag in A.
      destruct A as [[-> ->] | (p' & -> & A)]; auto.
      exfalso. apply At_inv in A. destruct A as (k & I & _). rewrite copy_node_kids in I. destruct I.
    + right. right. left. destruct Iy as [<- | []]. exists c, q, kc. split; auto. split; auto. split; auto.
      split. { intro X. apply (leaf_type c ty T) in X. congruence. }
      split; auto. rewrite set_kids_tag, copy_node_tag in A. destruct A as [[-> ->] | (p' & -> & A)]; [left; auto |].
      right. exists p'. split; auto. apply (proj1 (At_rep kc _ p' y (set_kids_kids kc _))) in A. exact A.
  - right. right. right. destruct (Sub c "deleted" eq_refl) as (z & A1 & A2). exists c, z. auto.
Qed.

Lemma At_rep1 : forall c p z, At (rep [c]) p z <-> (p = [xtag c] /\ z = c) \/ exists p', p = xtag c :: p' /\ At c p' z.
Proof.
  intros c p z. split.
  - intro H. apply At_inv in H. destruct H as (k & [<- | []] & H). exact H.
  - intros [[-> ->] | (p' & -> & H)]; [apply at_kid | apply at_down; auto]; left; reflexivity.
Qed.
Lemma At_rep1_in : forall x c p z, In c (xkids x) -> At (rep [c]) p z -> At x p z /\ exists p', p = xtag c :: p'.
Proof.
  intros x c p z I H. apply At_rep1 in H. destruct H as [[-> ->] | (p' & -> & H)]; split; eauto; [apply at_kid | apply at_down]; auto.
Qed.

(** The report is built from these four parts. *)
Lemma report_sub : forall n2 n1 ks c z p m, compare_nodes n2 n1 = Ok ks ->
  (m = "added" /\ In c (xkids n2) /\ get_peer (xtag c) n1 = Ok None) \/
  (m = "deleted" /\ In c (xkids n1) /\ get_peer (xtag c) n2 = Ok None) ->
  At (rep [c]) p z -> At (rep ks) p (process_attrib m z).
Proof.
  intros n2 n1 ks c z p m H C A. destruct (compare_In _ _ _ H) as (N & O & K).
  assert (I : In (copy_subtree c m) ks).
  { apply K. destruct C as [(-> & I & P) | (-> & I & P)].
    - left. destruct (N c I) as (h & Hh). exists c, h. split; auto. split; auto.
      unfold one_child in Hh. rewrite P in Hh. cbn [bind] in Hh. injection Hh as <-. left. reflexivity.
    - right. exists c. auto. }
  apply At_rep1 in A. destruct A as [[-> ->] | (p' & -> & A)].
  - rewrite <- (pa_tag m c). apply at_kid. exact I.
  - rewrite <- (pa_tag m c). apply at_down; [exact I |]. apply At_pa. eauto.
Qed.
Lemma report_inner : forall n2 n1 ks c q, compare_nodes n2 n1 = Ok ks -> In c (xkids n2) ->
  findall (xtag c) n1 = [q] -> ~ Same q c ->
  (LeafType c /\ At (rep ks) [xtag c] (copy_node c "modified")) \/
  (~ LeafType c /\ exists kc, compare_nodes c q = Ok kc /\ At (rep ks) [xtag c] (set_kids kc (copy_node c "")) /\
     forall p y, At (rep kc) p y -> At (rep ks) (xtag c :: p) y).
Proof.
  intros n2 n1 ks c q H Ic F S. destruct (compare_In _ _ _ H) as (N & O & K). destruct (N c Ic) as (h & Hh).
  destruct (one_child_cases _ _ _ Hh) as [(P & _) | [(q' & F' & S' & _) | [(q' & ty & F' & S' & T & L & ->) | (q' & ty & kc & F' & S' & T & L & C & ->)]]].
  - exfalso. apply sole_spec in F. destruct F as (Iq & Tq & _). apply (get_peer_none _ _ P q Iq Tq).
  - exfalso. rewrite F in F'. injection F' as ->. contradiction.
  - left. split; [apply (leaf_type c ty T); exact L |].
    replace [xtag c] with [xtag (copy_node c "modified")] by (rewrite copy_node_tag; reflexivity).
    apply at_kid. cbn [rep xkids]. apply K. left. exists c, [copy_node c "modified"]. simpl. auto.
  - right. rewrite F in F'. injection F' as ->. split. { intro X. apply (leaf_type c ty T) in X. congruence. }
    exists kc. split; auto.
    assert (E : xtag (set_kids kc (copy_node c "")) = xtag c) by (rewrite set_kids_tag, copy_node_tag; reflexivity).
    assert (I : In (set_kids kc (copy_node c "")) (xkids (rep ks))).
    { cbn [rep xkids]. apply K. left. exists c, [set_kids kc (copy_node c "")]. simpl. auto. }
    split.
    + rewrite <- E at 1. apply at_kid. exact I.
    + intros p y A. rewrite <- E. apply at_down; auto. apply (proj2 (At_rep kc _ p y (set_kids_kids kc _))). exact A.
Qed.

Lemma marked_added : forall n2 n1 ks p, compare_nodes n2 n1 = Ok ks -> LeavesEnd n2 ->
  (Marked (rep ks) p "added" <-> Added n1 n2 p).
Proof.
  intro n2. induction n2 as [n2 IH] using xml_ind'. intros n1 ks p H LE. split.
  - intros (y & A & M). destruct (report_cases _ _ _ _ _ H A) as
      [(c & z & Ic & P & Az & ->) | [(c & q & Ic & F & S & L & -> & ->) | [(c & q & kc & Ic & F & S & L & C & B) | (c & z & Ic & P & Az & ->)]]].
    + destruct (At_rep1_in n2 c p z Ic Az) as (A2 & p' & ->). split; [exists z; exact A2 |]. apply exists_none. exact P.
    + unfold copy_node in M. rewrite pa_diff in M by discriminate. discriminate.
    + destruct B as [[-> ->] | (p' & -> & B)].
      * rewrite set_kids_attr in M. unfold copy_node in M. rewrite pa_nodiff in M. discriminate.
      * destruct (ends_kid _ _ LE Ic) as [LEc _].
        destruct (proj1 (IH c Ic q kc p' C LEc) (ex_intro _ y (conj B M))) as [(z & Hz) NE]. split.
        -- exists z. apply at_down; auto.
        -- intro X. apply NE. apply (exists_sole _ _ _ _ F) in X; auto. apply (At_nonempty _ _ _ Hz).
    + rewrite pa_diff in M by discriminate. discriminate.
  - intros [(z & Az) NE]. destruct (compare_In _ _ _ H) as (N & _ & _).
    apply At_inv in Az. destruct Az as (c & Ic & Az).
    assert (A1 : At (rep [c]) p z) by (apply At_rep1; exact Az).
    destruct (get_peer (xtag c) n1) as [[q |] | e] eqn:P.
    + apply get_peer_some in P. destruct Az as [[-> ->] | (p' & -> & Az)].
      * exfalso. apply NE. apply sole_spec in P. destruct P as (Iq & Tq & _). exists q. rewrite <- Tq. apply at_kid. exact Iq.
      * assert (NE' : ~ Exists q p').
        { intro X. apply NE. apply (exists_sole _ _ _ _ P); auto. apply (At_nonempty _ _ _ Az). }
        assert (S : ~ Same q c). { intro S. apply NE'. apply (same_paths _ _ p' S). exists z. exact Az. }
        destruct (ends_kid _ _ LE Ic) as [LEc Lc].
        destruct (report_inner _ _ _ _ _ H Ic P S) as [[L _] | (L & kc & C & _ & D)].
        -- exfalso. apply At_inv in Az. destruct Az as (k & Ik & _). rewrite (Lc L) in Ik. destruct Ik.
        -- destruct (proj2 (IH c Ic q kc p' C LEc)) as (y & Ay & M). { split; [exists z; exact Az | exact NE']. }
           exists y. auto.
    + exists (process_attrib "added" z). split; [| apply pa_diff; discriminate].
      apply (report_sub _ _ _ c z p "added" H); auto.
    + destruct (N c Ic) as (h & Hh). unfold one_child in Hh. rewrite P in Hh. discriminate.
Qed.

Lemma keeps_kid : forall n1 n2 q c, KeepsKind n1 n2 -> In q (xkids n1) -> In c (xkids n2) -> xtag q = xtag c ->
  KeepsKind q c /\ (LeafType c -> xkids q = []).
Proof.
  intros n1 n2 q c K Iq Ic E. split.
  - intros p x y A1 A2. apply (K (xtag q :: p)); [apply at_down; auto |]. rewrite E. apply at_down; auto.
  - apply (K [xtag q]); [apply at_kid; auto |]. rewrite E. apply at_kid. auto.
Qed.

Lemma marked_deleted : forall n2 n1 ks p, compare_nodes n2 n1 = Ok ks -> KeepsKind n1 n2 ->
  (Marked (rep ks) p "deleted" <-> Deleted n1 n2 p).
Proof.
  intro n2. induction n2 as [n2 IH] using xml_ind'. intros n1 ks p H KK. destruct (compare_In _ _ _ H) as (N & O & K). 
  assert (Sole2 : forall c q, In c (xkids n2) -> findall (xtag c) n1 = [q] -> findall (xtag c) n2 = [c]).
  { intros c q Ic F. apply sole_spec in F. destruct F as (Iq & Tq & _). destruct (O q Iq) as (p0 & P). rewrite Tq in P.
    destruct p0 as [c' |].
    - apply get_peer_some in P. assert (c = c') by (apply (sole_In _ _ c P); apply findall_In; auto). subst c'. exact P.
    - exfalso. apply (get_peer_none _ _ P c Ic eq_refl). }
  split.
  - intros (y & A & M). destruct (report_cases _ _ _ _ _ H A) as
      [(c & z & Ic & P & Az & ->) | [(c & q & Ic & F & S & L & -> & ->) | [(c & q & kc & Ic & F & S & L & C & B) | (c & z & Ic & P & Az & ->)]]].
    + rewrite pa_diff in M by discriminate. discriminate.
    + unfold copy_node in M. rewrite pa_diff in M by discriminate. discriminate.
    + destruct B as [[-> ->] | (p' & -> & B)].
      * rewrite set_kids_attr in M. unfold copy_node in M. rewrite pa_nodiff in M. discriminate.
      * pose proof (sole_spec _ _ _ F) as (Iq & Tq & _).
        destruct (keeps_kid _ _ _ _ KK Iq Ic Tq) as [KKc _].
        destruct (proj1 (IH c Ic q kc p' C KKc) (ex_intro _ y (conj B M))) as [(z & Hz) NE]. split.
        -- exists z. rewrite <- Tq. apply at_down; auto.
        -- intro X. apply NE. apply (exists_sole _ _ _ _ (Sole2 c q Ic F)) in X; auto. apply (At_nonempty _ _ _ Hz).
    + destruct (At_rep1_in n1 c p z Ic Az) as (A2 & p' & ->). split; [exists z; exact A2 |]. apply exists_none. exact P.
  - intros [(z & Az) NE].
    apply At_inv in Az. destruct Az as (q & Iq & Az).
    assert (A1 : At (rep [q]) p z) by (apply At_rep1; exact Az).
    destruct (O q Iq) as (p0 & P). destruct p0 as [c |].
    + apply get_peer_some in P. pose proof (sole_spec _ _ _ P) as (Ic & Tc & _).
      destruct Az as [[-> ->] | (p' & -> & Az)].
      * exfalso. apply NE. exists c. rewrite <- Tc. apply at_kid. exact Ic.
      * assert (NE' : ~ Exists c p').
        { intro X. apply NE. apply (exists_sole _ _ _ _ P); auto. apply (At_nonempty _ _ _ Az). }
        assert (S : ~ Same q c). { intro S. apply NE'. apply (same_paths _ _ p' S). exists z. exact Az. }
        destruct (keeps_kid _ _ _ _ KK Iq Ic (eq_sym Tc)) as [KKc Lc].
        assert (F : findall (xtag c) n1 = [q]).
        { destruct (N c Ic) as (h & Hh). 
          destruct (one_child_cases _ _ _ Hh) as [(P' & _) | [(q' & F' & _) | [(q' & ty & F' & _) | (q' & ty & kc & F' & _)]]].
          - exfalso. apply (get_peer_none _ _ P' q Iq). auto.
          - assert (q = q') by (apply (sole_In _ _ q F'); apply findall_In; auto). congruence.
          - assert (q = q') by (apply (sole_In _ _ q F'); apply findall_In; auto). congruence.
          - assert (q = q') by (apply (sole_In _ _ q F'); apply findall_In; auto). congruence. }
        destruct (report_inner _ _ _ _ _ H Ic F S) as [[L _] | (L & kc & C & _ & D)].
        -- exfalso. apply At_inv in Az. destruct Az as (k & Ik & _). rewrite (Lc L) in Ik. destruct Ik.
        -- destruct (proj2 (IH c Ic q kc p' C KKc)) as (y & Ay & M). { split; [exists z; exact Az | exact NE']. }
           exists y. rewrite <- Tc. auto.
    + exists (process_attrib "deleted" z). split; [| apply pa_diff; discriminate].
      apply (report_sub _ _ _ q z p "deleted" H); auto.
Qed.

(** Nodes that differ are compared further. *)
Lemma same_At : forall x y p a b, Same x y -> DistinctTags x -> At x p a -> At y p b -> Same a b.
Proof.
  intro x. induction x as [x IH] using xml_ind'. intros y p a b S D A B. apply Same_inv in S. destruct S as (_ & _ & _ & K).
  apply At_inv in A. destruct A as (c & Ic & A). apply At_inv in B. destruct B as (q & Iq & B).
  destruct (SameNodes_r _ _ _ K Iq) as (c' & Ic' & Sq). pose proof (Same_inv _ _ Sq) as (Tg & _).
  assert (E : xtag c = xtag q).
  { destruct A as [[-> _] | (p1 & -> & _)], B as [[E _] | (p2 & E & _)]; injection E; auto. }
  assert (c' = c) by (apply (nodup_eq (xkids x)); auto; [exact (proj1 D) | congruence]). subst c'.
  destruct A as [[-> ->] | (p1 & -> & A)], B as [[E1 ->] | (p2 & E1 & B)]; injection E1; intros; subst.
  - exact Sq.
  - exfalso. apply (At_nonempty _ _ _ B). auto.
  - exfalso. apply (At_nonempty _ _ _ A). auto.
  - apply (IH c Ic q p2); auto. apply (distinct_kid x); auto.
Qed.

Lemma marked_modified : forall n2 n1 ks p, compare_nodes n2 n1 = Ok ks -> LeavesEnd n2 -> DistinctTags n1 ->
  (Marked (rep ks) p "modified" <-> Modified n1 n2 p).
Proof.
  intro n2. induction n2 as [n2 IH] using xml_ind'. intros n1 ks p H LE DT. split.
  - intros (y & A & M). destruct (report_cases _ _ _ _ _ H A) as
      [(c & z & Ic & P & Az & ->) | [(c & q & Ic & F & S & L & -> & ->) | [(c & q & kc & Ic & F & S & L & C & B) | (c & z & Ic & P & Az & ->)]]].
    + rewrite pa_diff in M by discriminate. discriminate.
    + pose proof (sole_spec _ _ _ F) as (Iq & Tq & _). exists q, c. split; [rewrite <- Tq; apply at_kid; auto |].
      split; [apply at_kid; auto |]. auto.
    + destruct B as [[-> ->] | (p' & -> & B)].
      * rewrite set_kids_attr in M. unfold copy_node in M. rewrite pa_nodiff in M. discriminate.
      * pose proof (sole_spec _ _ _ F) as (Iq & Tq & _). destruct (ends_kid _ _ LE Ic) as [LEc _].
        destruct (proj1 (IH c Ic q kc p' C LEc (distinct_kid _ _ DT Iq)) (ex_intro _ y (conj B M))) as (a & b & Aa & Ab & L' & NS).
        exists a, b. split; [rewrite <- Tq; apply at_down; auto |]. split; [apply at_down; auto |]. auto.
    + rewrite pa_diff in M by discriminate. discriminate.
  - intros (a & b & Aa & Ab & L & NS). destruct (compare_In _ _ _ H) as (N & _ & _).
    apply At_inv in Aa. destruct Aa as (q & Iq & Aa). apply At_inv in Ab. destruct Ab as (c & Ic & Ab).
    assert (E : xtag q = xtag c).
    { destruct Aa as [[-> _] | (p1 & -> & _)], Ab as [[E _] | (p2 & E & _)]; injection E; auto. }
    assert (F : findall (xtag c) n1 = [q]).
    { destruct (findall_distinct n1 (xtag c) (proj1 DT)) as [F | (q' & F)].
      - exfalso. assert (X : In q (findall (xtag c) n1)) by (apply findall_In; auto). rewrite F in X. destruct X.
      - assert (q = q') by (apply (sole_In _ _ q F); apply findall_In; auto). congruence. }
    pose proof (distinct_kid _ _ DT Iq) as DTq. destruct (ends_kid _ _ LE Ic) as [LEc Lc].
    assert (S : ~ Same q c).
    { intro S. apply NS. destruct Aa as [[-> ->] | (p1 & -> & Aa)], Ab as [[E1 ->] | (p2 & E1 & Ab)]; injection E1; intros; subst.
      - exact S.
      - exfalso. apply (At_nonempty _ _ _ Ab). auto.
      - exfalso. apply (At_nonempty _ _ _ Aa). auto.
      - apply (same_At q c p2); auto. }
    destruct (report_inner _ _ _ _ _ H Ic F S) as [[L' R] | (L' & kc & C & _ & D)].
    + destruct Ab as [[-> ->] | (p2 & -> & Ab)].
      * exists (copy_node c "modified"). split; auto. unfold copy_node. apply pa_diff. discriminate.
      * exfalso. apply At_inv in Ab. destruct Ab as (k & Ik & _). rewrite (Lc L') in Ik. destruct Ik.
    + destruct Ab as [[-> ->] | (p2 & -> & Ab)]; [contradiction |].
      destruct Aa as [[E1 ->] | (p1 & E1 & Aa)].
      * exfalso. injection E1; intros; subst. apply (At_nonempty _ _ _ Ab). auto.
      * injection E1; intros; subst p1. destruct (proj2 (IH c Ic q kc p2 C LEc DTq)) as (y & Ay & M).
        { exists a, b. auto. }
        exists y. auto.
Qed.

(** * Trimming *)
Definition trim_kids (msg : string) :=
  fix go (l : list xml) : list xml :=
        match l with
        | [] => []
        | c :: r =>
            if other_diff msg c then go r
            else if is_inner_type (get_attr "type" c) then
              let c' := trim msg c in
              if nonempty c' then c' :: go r else go r
            else c :: go r
        end.
Lemma trim_eq : forall msg x, trim msg x = set_kids (trim_kids msg (xkids x)) x.
Proof. intros msg [t tx a ks]. reflexivity. Qed.
Lemma trim_tag : forall msg x, xtag (trim msg x) = xtag x.
Proof. intros msg x. rewrite trim_eq. apply set_kids_tag. Qed.
Lemma trim_In : forall msg l y, In y (trim_kids msg l) <->
  exists c, In c l /\ other_diff msg c = false /\
    ((is_inner_type (get_attr "type" c) = true /\ nonempty (trim msg c) = true /\ y = trim msg c) \/
     (is_inner_type (get_attr "type" c) = false /\ y = c)).
Proof.
  intros msg l y. induction l as [| c r IH]; cbn [trim_kids].
  - split; [intros [] | intros (c & [] & _)].
  - assert (R : In y (trim_kids msg r) -> exists c0, In c0 (c :: r) /\ other_diff msg c0 = false /\
        ((is_inner_type (get_attr "type" c0) = true /\ nonempty (trim msg c0) = true /\ y = trim msg c0) \/
         (is_inner_type (get_attr "type" c0) = false /\ y = c0))).
    { intro I. apply IH in I. destruct I as (c0 & I & X). exists c0. split; [right; exact I | exact X]. }
    split.
    + destruct (other_diff msg c) eqn:E1; auto. destruct (is_inner_type (get_attr "type" c)) eqn:E2.
      * cbv zeta. destruct (nonempty (trim msg c)) eqn:E3; auto.
        intros [<- | I]; auto. exists c. simpl. auto 8.
      * intros [<- | I]; auto. exists c. simpl. auto 8.
    + intros (c0 & [<- | I] & E1 & X).
      * rewrite E1. destruct X as [(E2 & E3 & ->) | (E2 & ->)]; rewrite E2; cbv zeta; [rewrite E3 |]; left; reflexivity.
      * assert (J : In y (trim_kids msg r)) by (apply IH; eauto).
        destruct (other_diff msg c); auto. destruct (is_inner_type (get_attr "type" c)); [| right; exact J].
        cbv zeta. destruct (nonempty (trim msg c)); [right |]; exact J.
Qed.

Definition NiceNode (y : xml) : Prop :=
  (LeafType y /\ xkids y = [] /\ exists m, get_attr "diff" y = Some m /\ m <> "") \/
  (InnerType y /\ get_attr "diff" y = None) \/
  (InnerType y /\ exists m, get_attr "diff" y = Some m /\ m <> "" /\ xkids y <> [] /\
     forall c, In c (xkids y) -> get_attr "diff" c = Some m).
Definition Nice (d : xml) : Prop := forall p y, At d p y -> NiceNode y.

Lemma nice_kid : forall x c, Nice x -> In c (xkids x) -> Nice c /\ NiceNode c.
Proof.
  intros x c N I. split; [intros p y A; apply (N (xtag c :: p)); apply at_down; auto | apply (N [xtag c]); apply at_kid; auto].
Qed.
Lemma inner_type : forall x, is_inner_type (get_attr "type" x) = true <-> InnerType x.
Proof.
  intro x. unfold InnerType. destruct (get_attr "type" x) as [t |]; cbn [is_inner_type].
  - rewrite !orb_true_iff, !String.eqb_eq. split.
    + intros [[[-> | ->] | ->] | ->]; auto.
    + intros [E | [E | [E | E]]]; injection E as ->; auto.
  - split; [discriminate |]. intros [E | [E | [E | E]]]; discriminate.
Qed.
Lemma leaf_not_inner : forall x, LeafType x -> is_inner_type (get_attr "type" x) = false.
Proof. intros x [E | E]; rewrite E; reflexivity. Qed.

(** All nodes below a marked node have its mark. *)
Lemma marked_below : forall c m p y, Nice c -> NiceNode c -> get_attr "diff" c = Some m -> At c p y -> get_attr "diff" y = Some m.
Proof.
  intro c. induction c as [c IH] using xml_ind'. intros m p y N NC M A.
  apply At_inv in A. destruct A as (k & Ik & A).
  assert (Mk : get_attr "diff" k = Some m).
  { destruct NC as [(_ & E & _) | [(_ & E) | (_ & m' & E & _ & _ & K)]].
    - rewrite E in Ik. destruct Ik.
    - congruence.
    - rewrite E in M. injection M as ->. apply K. exact Ik. }
  destruct A as [[-> ->] | (p' & -> & A)]; auto.
  destruct (nice_kid _ _ N Ik) as [Nk NNk]. apply (IH k Ik m p' y Nk NNk Mk A).
Qed.

Lemma nonempty_kids : forall x, nonempty x = true <-> exists c, In c (xkids x).
Proof.
  intro x. unfold nonempty. destruct (xkids x) as [| c r]; split; try discriminate; auto.
  - intros (c & []).
  - intros _. exists c. left. reflexivity.
Qed.

Lemma trim_spec : forall msg x p, msg <> "" -> Nice x ->
  (Exists (trim msg x) p <-> p <> [] /\ exists q, Marked x (p ++ q) msg).
Proof.
  intros msg x p NE. revert p. induction x as [x IH] using xml_ind'. intros p N.
  assert (K : xkids (trim msg x) = trim_kids msg (xkids x)) by (rewrite trim_eq; apply set_kids_kids).
  split.
  - intros (z & A). split; [apply (At_nonempty _ _ _ A) |].
    apply At_inv in A. destruct A as (r & Ir & A). rewrite K in Ir. apply trim_In in Ir.
    destruct Ir as (c & Ic & OD & Ir). destruct (nice_kid _ _ N Ic) as [Nc NNc].
    destruct Ir as [(Ti & Ne & ->) | (Ti & ->)].
    + assert (Lift : forall p', p' <> [] -> Exists (trim msg c) p' -> exists q, Marked x ((xtag c :: p') ++ q) msg).
      { intros p' Np E. apply (IH c Ic p' Nc) in E. destruct E as (_ & q & w & Aw & Mw). exists q, w. split; auto.
        cbn [app]. apply at_down; auto. }
      rewrite trim_tag in A. destruct A as [[-> ->] | (p' & -> & A)].
      * apply nonempty_kids in Ne. destruct Ne as (k & Ik).
        destruct (Lift [xtag k]) as (q & Q); [discriminate | exists k; apply at_kid; exact Ik |].
        exists (xtag k :: q). exact Q.
      * apply Lift; [apply (At_nonempty _ _ _ A) | exists z; exact A].
    + destruct NNc as [(L & E & m & M & Nm) | [(I & _) | (I & _)]];
        try (apply inner_type in I; congruence).
      assert (m = msg).
      { unfold other_diff in OD. rewrite M in OD. apply andb_false_iff in OD. rewrite !negb_false_iff, !String.eqb_eq in OD.
        destruct OD; congruence. }
      subst m. destruct A as [[-> ->] | (p' & -> & A)].
      * exists []. exists c. split; auto. apply at_kid. exact Ic.
      * exfalso. apply At_inv in A. destruct A as (k & Ik & _). rewrite E in Ik. destruct Ik.
  - intros (Np & q & w & Aw & Mw). apply At_inv in Aw. destruct Aw as (c & Ic & Aw).
    destruct (nice_kid _ _ N Ic) as [Nc NNc].
    assert (OD : other_diff msg c = false).
    { unfold other_diff. destruct (get_attr "diff" c) as [m |] eqn:M; auto.
      apply andb_false_iff. rewrite !negb_false_iff, !String.eqb_eq. right.
      destruct Aw as [[_ ->] | (p' & _ & Aw)]; [congruence |].
      pose proof (marked_below c m p' w Nc NNc M Aw). congruence. }
    destruct p as [| t p']; [contradiction |].
    assert (Et : t = xtag c /\ (p' ++ q = [] /\ w = c \/ At c (p' ++ q) w)).
    { destruct Aw as [[E ->] | (p2 & E & Aw)]; cbn [app] in E; injection E as -> E; split; auto.
      right. rewrite E. exact Aw. }
    destruct Et as [-> Aw']. clear Aw.
    destruct (is_inner_type (get_attr "type" c)) eqn:Ti.
    + assert (Ne : forall p1 q1, p1 <> [] -> Marked c (p1 ++ q1) msg -> Exists (trim msg c) p1).
      { intros p1 q1 N1 M1. apply (IH c Ic p1 Nc). split; auto. exists q1. exact M1. }
      assert (NT : nonempty (trim msg c) = true).
      { assert (X : exists p1, Exists (trim msg c) p1).
        { destruct Aw' as [[_ ->] | Aw'].
          - destruct NNc as [(L & _) | [(_ & E) | (_ & m & M & _ & Nk & Km)]].
            + apply leaf_not_inner in L. congruence.
            + congruence.
            + rewrite Mw in M. injection M as <-. destruct (xkids c) as [| k ks] eqn:Ek; [contradiction |].
              assert (Ik : In k (xkids c)) by (rewrite Ek; left; reflexivity).
              exists [xtag k]. apply (Ne [xtag k] []); [discriminate |]. exists k. split; [apply at_kid; exact Ik |].
              apply Km. left. reflexivity.
          - destruct (p' ++ q) as [| t1 r1] eqn:Epq; [exfalso; apply (At_nonempty _ _ _ Aw'); reflexivity |].
            exists [t1]. apply (Ne [t1] r1); [discriminate |]. exists w. auto. }
        destruct X as (p1 & z & Az). apply At_inv in Az. destruct Az as (k & Ik & _). apply nonempty_kids. eauto. }
      assert (Ir : In (trim msg c) (xkids (trim msg x))).
      { rewrite K. apply trim_In. exists c. auto 8. }
      destruct p' as [| t1 p1].
      * exists (trim msg c). rewrite <- (trim_tag msg c). apply at_kid. exact Ir.
      * destruct Aw' as [[E _] | Aw']; [discriminate |].
        destruct (Ne (t1 :: p1) q) as (z & Az); [discriminate | exists w; auto |].
        exists z. rewrite <- (trim_tag msg c). apply at_down; auto.
    + assert (Ir : In c (xkids (trim msg x))).
      { rewrite K. apply trim_In. exists c. auto 8. }
      destruct NNc as [(L & E & _) | [(I & _) | (I & _)]]; try (apply inner_type in I; congruence).
      destruct Aw' as [[E1 ->] | Aw'].
      * apply app_eq_nil in E1. destruct E1 as [-> ->]. exists c. apply at_kid. exact Ir.
      * exfalso. apply At_inv in Aw'. destruct Aw' as (k & Ik & _). rewrite E in Ik. destruct Ik.
Qed.

(** * The three parts *)
Lemma data_kid : forall x c, DataOnly x -> In c (xkids x) -> DataOnly c /\ ((LeafType c /\ xkids c = []) \/ (InnerType c /\ xkids c <> [])).
Proof.
  intros x c D I. split; [intros p y A; apply (D (xtag c :: p)); apply at_down; auto | apply (D [xtag c]); apply at_kid; auto].
Qed.
Lemma nice_pa : forall m z, m <> "" -> ((LeafType z /\ xkids z = []) \/ (InnerType z /\ xkids z <> [])) ->
  NiceNode (process_attrib m z).
Proof.
  intros m z Nm [[L E] | [I E]].
  - left. split; [unfold LeafType; rewrite pa_type; exact L |]. split; [rewrite pa_kids, E; reflexivity |].
    exists m. split; auto. apply pa_diff. exact Nm.
  - right. right. split; [unfold InnerType; rewrite pa_type; exact I |]. exists m. split; [apply pa_diff; exact Nm |].
    split; auto. rewrite pa_kids. split.
    + destruct (xkids z); [contradiction | discriminate].
    + intros c J. apply in_map_iff in J. destruct J as (k & <- & _). apply pa_diff. exact Nm.
Qed.
Lemma report_nice : forall n2 n1 ks, compare_nodes n2 n1 = Ok ks -> DataOnly n1 -> DataOnly n2 -> Nice (rep ks).
Proof.
  intro n2. induction n2 as [n2 IH] using xml_ind'. intros n1 ks H D1 D2 p y A.
  destruct (report_cases _ _ _ _ _ H A) as
      [(c & z & Ic & P & Az & ->) | [(c & q & Ic & F & S & L & -> & ->) | [(c & q & kc & Ic & F & S & L & C & B) | (c & z & Ic & P & Az & ->)]]].
  - apply nice_pa; [discriminate |]. destruct (At_rep1_in n2 c p z Ic Az) as (A2 & _). apply (D2 p z A2).
  - left. unfold LeafType. rewrite copy_node_type. split; [exact L |]. split; [apply copy_node_kids |].
    exists "modified". split; [apply pa_diff |]; discriminate.
  - pose proof (sole_spec _ _ _ F) as (Iq & Tq & _). destruct (data_kid _ _ D1 Iq) as [D1q _]. destruct (data_kid _ _ D2 Ic) as [D2c X].
    destruct B as [[-> ->] | (p' & -> & B)].
    + right. left. unfold InnerType. rewrite !set_kids_attr, copy_node_type. split.
      * destruct X as [[X _] | [X _]]; [contradiction | exact X].
      * unfold copy_node. apply pa_nodiff.
    + apply (IH c Ic q kc C D1q D2c p' y B).
  - apply nice_pa; [discriminate |]. destruct (At_rep1_in n1 c p z Ic Az) as (A2 & _). apply (D1 p z A2).
Qed.

Lemma data_ends : forall t, DataOnly t -> LeavesEnd t.
Proof.
  intros t D p x A L. destruct (D p x A) as [[_ E] | [I _]]; auto. apply leaf_not_inner in L. apply inner_type in I. congruence.
Qed.

Lemma diff_rep : forall t1 t2 d, model_diff false t1 t2 = Ok d ->
  exists ks, compare_nodes t2 t1 = Ok ks /\ xkids d = ks.
Proof.
  intros t1 t2 d H. unfold model_diff in H. destruct (String.eqb (xtag t1) (xtag t2)); [| discriminate].
  apply bind_ok in H. destruct H as (ks & Hk & H). injection H as <-. exists ks. auto.
Qed.
Lemma Marked_rep : forall ks d p m, xkids d = ks -> (Marked d p m <-> Marked (rep ks) p m).
Proof.
  intros ks d p m E. unfold Marked. split; intros (y & A & M); exists y; split; auto; apply (At_rep ks d p y E); exact A.
Qed.

Lemma diff_added : forall t1 t2 d p, model_diff false t1 t2 = Ok d -> LeavesEnd t2 -> (Marked d p "added" <-> Added t1 t2 p).
Proof.
  intros t1 t2 d p H L. destruct (diff_rep _ _ _ H) as (ks & C & E). rewrite (Marked_rep ks d p _ E). apply marked_added; auto.
Qed.
Lemma diff_deleted : forall t1 t2 d p, model_diff false t1 t2 = Ok d -> KeepsKind t1 t2 -> (Marked d p "deleted" <-> Deleted t1 t2 p).
Proof.
  intros t1 t2 d p H L. destruct (diff_rep _ _ _ H) as (ks & C & E). rewrite (Marked_rep ks d p _ E). apply marked_deleted; auto.
Qed.
Lemma diff_modified : forall t1 t2 d p, model_diff false t1 t2 = Ok d -> LeavesEnd t2 -> DistinctTags t1 ->
  (Marked d p "modified" <-> Modified t1 t2 p).
Proof.
  intros t1 t2 d p H L D. destruct (diff_rep _ _ _ H) as (ks & C & E). rewrite (Marked_rep ks d p _ E). apply marked_modified; auto.
Qed.

Lemma part_spec : forall msg t1 t2 d (P : list string -> Prop), msg <> "" -> model_diff false t1 t2 = Ok d ->
  DataOnly t1 -> DataOnly t2 -> (forall p, Marked d p msg <-> P p) ->
  (part msg d = None <-> forall p, ~ P p) /\
  (forall p, Shown (part msg d) p <-> p <> [] /\ exists q, P (p ++ q)).
Proof.
  intros msg t1 t2 d P NE H D1 D2 HP.
  destruct (diff_rep _ _ _ H) as (ks & C & E).
  assert (N : Nice d).
  { intros p y A. apply (report_nice _ _ _ C D1 D2 p y). apply (At_rep ks d p y E). exact A. }
  assert (T : forall p, Exists (trim msg d) p <-> p <> [] /\ exists q, P (p ++ q)).
  { intro p. rewrite (trim_spec msg d p NE N). split; intros (A & q & B); split; auto; exists q; apply HP; exact B. }
  unfold part. cbv zeta. destruct (nonempty (trim msg d)) eqn:Ne.
  - split.
    + split; [discriminate |]. intro Z. exfalso. apply nonempty_kids in Ne. destruct Ne as (k & Ik).
      destruct (proj1 (T [xtag k])) as (_ & q & Q); [exists k; apply at_kid; exact Ik |]. apply (Z _ Q).
    + intro p. rewrite <- T. unfold Shown. split.
      * intros (d' & E1 & X). injection E1 as <-. exact X.
      * intro X. eauto.
  - assert (Z : forall p, ~ Exists (trim msg d) p).
    { intros p (z & A). apply At_inv in A. destruct A as (k & Ik & _).
      assert (X : nonempty (trim msg d) = true) by (apply nonempty_kids; eauto). congruence. }
    split.
    + split; auto. intros _ p X. apply (Z p). apply T. split.
      * intro Y. subst p. apply HP in X. destruct X as (y & A & _). apply (At_nonempty _ _ _ A). reflexivity.
      * exists []. rewrite app_nil_r. exact X.
    + intro p. split; [intros (d' & E1 & _); discriminate |]. intro X. exfalso. apply (Z p). apply T. exact X.
Qed.

Lemma part_added : forall t1 t2 d, model_diff false t1 t2 = Ok d -> DataOnly t1 -> DataOnly t2 ->
  (part "added" d = None <-> forall p, ~ Added t1 t2 p) /\
  (forall p, Shown (part "added" d) p <-> p <> [] /\ exists q, Added t1 t2 (p ++ q)).
Proof.
  intros t1 t2 d H D1 D2. apply (part_spec "added" t1 t2); auto; [discriminate |].
  intro p. apply diff_added; auto. apply data_ends. exact D2.
Qed.
Lemma part_deleted : forall t1 t2 d, model_diff false t1 t2 = Ok d -> DataOnly t1 -> DataOnly t2 -> KeepsKind t1 t2 ->
  (part "deleted" d = None <-> forall p, ~ Deleted t1 t2 p) /\
  (forall p, Shown (part "deleted" d) p <-> p <> [] /\ exists q, Deleted t1 t2 (p ++ q)).
Proof.
  intros t1 t2 d H D1 D2 K. apply (part_spec "deleted" t1 t2); auto; [discriminate |].
  intro p. apply diff_deleted; auto.
Qed.
Lemma part_modified : forall t1 t2 d, model_diff false t1 t2 = Ok d -> DataOnly t1 -> DataOnly t2 -> DistinctTags t1 ->
  (part "modified" d = None <-> forall p, ~ Modified t1 t2 p) /\
  (forall p, Shown (part "modified" d) p <-> p <> [] /\ exists q, Modified t1 t2 (p ++ q)).
Proof.
  intros t1 t2 d H D1 D2 K. apply (part_spec "modified" t1 t2); auto; [discriminate |].
  intro p. apply diff_modified; auto. apply data_ends. exact D2.
Qed.
