(** Layout in containers: comparisons, deltas and sums against LayoutSpec.v. *)
From Coq Require Import String Ascii List Bool Arith ZArith Lia.
From Verif Require Import Base BaseP XmlM CalcM CalcP NetconfM ConfigM DataSpec DataP DeltaSpec NameP LayoutSpec.
From Verif Require CompatP.
Import ListNotations.
Open Scope string_scope.
Open Scope list_scope.

Definition us (s : snode) (c : xml) : xml := match schema_child s (xtag c) with Ok cs => unspaced cs c | Err _ => c end.
Lemma un_eq : forall s t tx a ks, unspaced s (Elem t tx a ks) = Elem t (match sty s with TContainer => None | _ => tx end) a (map (us s) ks).
Proof. reflexivity. Qed.
Lemma un_tag : forall s x, xtag (unspaced s x) = xtag x.
Proof. intros s [t tx a ks]. reflexivity. Qed.
Lemma un_attrs : forall s x, xattrs (unspaced s x) = xattrs x.
Proof. intros s [t tx a ks]. reflexivity. Qed.
Lemma un_kids : forall s x, xkids (unspaced s x) = map (us s) (xkids x).
Proof. intros s [t tx a ks]. reflexivity. Qed.
Lemma un_text : forall s x, sty s <> TContainer -> xtext (unspaced s x) = xtext x.
Proof. intros s [t tx a ks] H. cbn [unspaced xtext]. destruct (sty s); congruence. Qed.
Lemma us_tag : forall s c, xtag (us s c) = xtag c.
Proof. intros s c. unfold us. destruct (schema_child s (xtag c)); [apply un_tag | reflexivity]. Qed.
Lemma us_attrs : forall s c, xattrs (us s c) = xattrs c.
Proof. intros s c. unfold us. destruct (schema_child s (xtag c)); [apply un_attrs | reflexivity]. Qed.
Lemma us_get : forall n s c, get_attr n (us s c) = get_attr n c.
Proof. intros n s c. unfold get_attr. rewrite us_attrs. reflexivity. Qed.
Lemma us_op : forall s c, op_of (us s c) = op_of c.
Proof. intros s c. unfold op_of. rewrite us_get. reflexivity. Qed.
Lemma us_ok : forall s c cs, schema_child s (xtag c) = Ok cs -> us s c = unspaced cs c.
Proof. intros s c cs H. unfold us. rewrite H. reflexivity. Qed.
Lemma us_kids_nil : forall s x, (match xkids (unspaced s x) with [] => true | _ => false end) = (match xkids x with [] => true | _ => false end).
Proof. intros s x. rewrite un_kids. destruct (xkids x); reflexivity. Qed.

Lemma us_leaf : forall s c cs, schema_child s (xtag c) = Ok cs -> sty cs <> TContainer -> xtext (us s c) = xtext c.
Proof. intros s c cs H N. rewrite (us_ok s c cs H). apply un_text. exact N. Qed.

Lemma height_un : forall x s, height (unspaced s x) = height x.
Proof.
  intro x. induction x as [t tx a ks IH] using xml_ind'. intro s. rewrite un_eq. cbn [height]. f_equal.
  induction ks as [| c r IHr]; [reflexivity |]. inversion IH; subst. cbn [map fold_right]. rewrite IHr by auto. f_equal.
  unfold us. destruct (schema_child s (xtag c)); auto.
Qed.

Lemma kids_tagged_us : forall s k l, kids_tagged k (map (us s) l) = map (us s) (kids_tagged k l).
Proof.
  intros s k l. unfold kids_tagged. induction l as [| c r IH]; [reflexivity |]. cbn [map filter]. rewrite us_tag. destruct (String.eqb (xtag c) k); cbn [map]; rewrite IH; reflexivity.
Qed.
Lemma find_kid_us : forall s k l, find_kid k (map (us s) l) = option_map (us s) (find_kid k l).
Proof. intros s k l. unfold find_kid. induction l as [| c r IH]; [reflexivity |]. cbn [map find]. rewrite us_tag. destruct (String.eqb (xtag c) k); auto. Qed.
Lemma find_kid_tag : forall k l c, find_kid k l = Some c -> xtag c = k.
Proof. intros k l c H. unfold find_kid in H. apply find_some in H. apply String.eqb_eq. tauto. Qed.

(** Keys are leaves. *)
Lemma key_text : forall cs k c, wfs cs = true -> sty cs = TList -> In k (s_keys (si cs)) -> xtag c = k -> xtext (us cs c) = xtext c /\ (xkids c = [] -> us cs c = c).
Proof.
  intros cs k c W' T K E. destruct (wfs_keys cs W' T) as (_ & H). destruct (H k K) as (_ & kc & C & L & _). subst k. split.
  - apply (us_leaf cs c kc C). congruence.
  - intro Q. rewrite (us_ok cs c kc C). destruct c as [t tx a ks]. cbn [xkids] in Q. subst ks. rewrite un_eq, L. reflexivity.
Qed.

Lemma parse_un : forall s x, parse_text s (unspaced s x) = parse_text s x.
Proof. intros s [t tx a ks]. unfold parse_text. cbn [unspaced xtext]. destruct (sty s); auto. destruct tx; reflexivity. Qed.

Lemma tuple_un : forall cs x, wfs cs = true -> sty cs = TList -> key_tuple cs (unspaced cs x) = key_tuple cs x.
Proof.
  intros cs x W' T. unfold key_tuple. apply mapM_ext. intros k K. unfold find_one_child. rewrite un_kids, kids_tagged_us.
  destruct (kids_tagged k (xkids x)) as [| c [| d r]] eqn:E; cbn [map bind]; auto.
  assert (X : xtag c = k). { assert (I : In c (kids_tagged k (xkids x))) by (rewrite E; left; auto). unfold kids_tagged in I. apply filter_In in I. apply String.eqb_eq. tauto. }
  f_equal. unfold parse_text. rewrite (proj1 (key_text cs k c W' T K X)). reflexivity.
Qed.

Lemma uid_us : forall s c, wfs s = true -> uid_of s (us s c) = uid_of s c.
Proof.
  intros s c W'. unfold uid_of. rewrite us_tag. destruct (schema_child s (xtag c)) as [cs |] eqn:C; cbn [bind]; auto. rewrite (us_ok s c cs C).
  destruct (sty cs) eqn:T; auto.
  - rewrite parse_un. reflexivity.
  - rewrite tuple_un; auto. apply (wfs_child s _ cs W' C).
Qed.

Definition ue (s : snode) (e : ent) : ent := (fst e, us s (snd e)).
Lemma index_us : forall s l, wfs s = true -> index_kids s (map (us s) l) = on_ok (map (ue s)) (index_kids s l).
Proof.
  intros s l W'. unfold index_kids. generalize (@nil uid). induction l as [| c r IH]; intro seen; [reflexivity |].
  cbn [map index_from]. rewrite uid_us by auto. destruct (uid_of s c) as [u |]; cbn [bind on_ok]; auto. destruct (mem uid_eqb u seen); auto. rewrite IH.
  destruct (index_from s (u :: seen) r); reflexivity.
Qed.
Lemma uids_ue : forall s l, uids (map (ue s) l) = uids l.
Proof. intros s l. unfold uids. rewrite map_map. reflexivity. Qed.
Lemma assoc_ue : forall s u l, assoc uid_eqb u (map (ue s) l) = option_map (us s) (assoc uid_eqb u l).
Proof. intros s u l. induction l as [| [v c] r IH]; [reflexivity |]. cbn [map assoc ue fst snd]. destruct (uid_eqb u v); auto. Qed.
Definition up (s : snode) (p : uid * xml * xml) : uid * xml * xml := (fst (fst p), us s (snd (fst p)), us s (snd p)).
Definition ug (s : snode) (g : groups) : groups := Groups (map (ue s) (in_1_not_2 g)) (map (ue s) (in_2_not_1 g)) (map (up s) (in_1_and_2 g)).
Lemma only_ue : forall s la lb, only_in (map (ue s) la) (map (ue s) lb) = map (ue s) (only_in la lb).
Proof.
  intros s la lb. unfold only_in. rewrite uids_ue. induction la as [| e r IH]; [reflexivity |]. cbn [map filter ue fst]. destruct (negb (mem uid_eqb (fst e) (uids lb))); cbn [map]; rewrite IH; reflexivity.
Qed.
Lemma both_ue : forall s la lb, both_in (map (ue s) la) (map (ue s) lb) = map (up s) (both_in la lb).
Proof.
  intros s la lb. unfold both_in. induction la as [| e r IH]; [reflexivity |]. cbn [map flat_map ue fst snd]. rewrite assoc_ue, map_app, IH.
  destruct (assoc uid_eqb (fst e) lb); reflexivity.
Qed.
Lemma group_us : forall s l1 l2, wfs s = true -> group_kids s (map (us s) l1) (map (us s) l2) = on_ok (ug s) (group_kids s l1 l2).
Proof.
  intros s l1 l2 W'. assert (X1 := index_us s l1 W'). assert (X2 := index_us s l2 W').
  destruct (index_kids s l1) as [la |] eqn:A; cbn [on_ok] in X1; [| unfold group_kids, pair_children; rewrite X1, A; reflexivity].
  destruct (index_kids s l2) as [lb |] eqn:B; cbn [on_ok] in X2; [| unfold group_kids, pair_children; rewrite X1, X2, A, B; reflexivity].
  rewrite (group_ok s _ _ _ _ (proj1 (index_ok _ _ _) X1) (proj1 (index_ok _ _ _) X2)), (group_ok s _ _ _ _ (proj1 (index_ok _ _ _) A) (proj1 (index_ok _ _ _) B)).
  cbn [on_ok]. unfold ug. cbn [in_1_not_2 in_2_not_1 in_1_and_2]. rewrite !only_ue, both_ue. reflexivity.
Qed.

(** ** Comparisons *)
Lemma same_un : forall s x y, same_text s (unspaced s x) (unspaced s y) = same_text s x y.
Proof.
  intros s [t tx a k] [t' tx' a' k']. unfold same_text, parse_text. cbn [unspaced xtext]. destruct (sty s); auto. destruct tx, tx'; reflexivity.
Qed.

Theorem le_un : forall x s y, wfs s = true -> node_le s (unspaced s x) (unspaced s y) = node_le s x y.
Proof.
  intro x. induction x as [t tx at_ ks IH] using xml_ind'. intros s y W'.
  assert (ST := same_un s (Elem t tx at_ ks) y). rewrite un_eq in *. cbn [node_le]. rewrite un_tag, un_attrs, un_kids, ST, !index_us by auto. clear ST.
  destruct (negb (String.eqb t (xtag y))); auto. destruct (same_text s (Elem t tx at_ ks) y) as [st |]; cbn [bind]; auto.
  destruct (negb st); auto. destruct (negb (attrs_sub at_ (xattrs y))); auto.
  destruct (index_kids s ks) as [ones |]; cbn [bind on_ok]; auto. destruct (index_kids s (xkids y)) as [twos |] eqn:TW; cbn [bind on_ok]; auto. clear ones. apply index_ok in TW.
  assert (UU : map fst (map (ue s) twos) = map fst twos) by (apply (uids_ue s twos)). rewrite UU. clear UU.
  generalize (@nil uid). induction ks as [| c r IHr]; intro done; [reflexivity |]. inversion IH; subst. cbn [map].
  rewrite uid_us by auto. destruct (uid_of s c) as [u |] eqn:U; cbn [bind]; auto. rewrite assoc_ue. destruct (assoc uid_eqb u twos) as [c' |] eqn:A; cbn [option_map]; auto.
  rewrite us_tag. destruct (schema_child s (xtag c)) as [cs |] eqn:C; cbn [bind]; auto.
  match goal with |- (if negb ?o then _ else _) = _ => destruct (negb o) end; auto. rewrite (us_ok s c cs C).
  assert (T : xtag c' = xtag c). { apply (Index_assoc s _ twos u c' TW) in A. apply (Index_tag s _ twos u c' TW) in A. apply uid_tag in U. congruence. }
  assert (C' : schema_child s (xtag c') = Ok cs) by congruence. rewrite (us_ok s c' cs C'), H1 by (apply (wfs_child s _ cs W' C)).
  destruct (node_le cs c c') as [b |]; cbn [bind]; auto. destruct b; auto.
Qed.
Lemma eq_un : forall s x y, wfs s = true -> node_eq s (unspaced s x) (unspaced s y) = node_eq s x y.
Proof. intros s x y W'. unfold node_eq. rewrite !le_un by auto. reflexivity. Qed.

(** ** Building configs *)
Lemma no_kids_un : forall s x, no_kids (unspaced s x) = no_kids x.
Proof. intros s x. unfold no_kids. apply us_kids_nil. Qed.
Lemma drops_un : forall s cs all c, schema_child s (xtag c) = Ok cs -> trim_drops cs (map (us s) all) (unspaced cs c) = trim_drops cs all c.
Proof.
  intros s cs all c C. unfold trim_drops. rewrite no_kids_un, un_tag, kids_tagged_us, map_map. destruct (sty cs) eqn:T; auto.
  - rewrite un_text by congruence. reflexivity.
  - f_equal. apply map_ext_in. intros d D. unfold kids_tagged in D. apply filter_In in D. destruct D as (_ & D). apply String.eqb_eq in D.
    apply (us_leaf s d cs); congruence.
Qed.
Lemma trim_un : forall x s, trim s (unspaced s x) = on_ok (unspaced s) (trim s x).
Proof.
  intro x. induction x as [t tx at_ ks IH] using xml_ind'. intro s. rewrite un_eq. cbn [trim].
  assert (G : forall all, (fix go (l : list xml) : res (list xml) := match l with [] => Ok [] | c :: r => let! cs := schema_child s (xtag c) in let! c' := trim cs c in let! r' := go r in
        Ok (if trim_drops cs (map (us s) all) c' then r' else c' :: r') end) (map (us s) ks) =
      on_ok (map (us s)) ((fix go (l : list xml) : res (list xml) := match l with [] => Ok [] | c :: r => let! cs := schema_child s (xtag c) in let! c' := trim cs c in let! r' := go r in
        Ok (if trim_drops cs all c' then r' else c' :: r') end) ks)).
  { intro all. induction ks as [| c r IHr]; [reflexivity |]. inversion IH; subst. cbn [map]. rewrite us_tag. destruct (schema_child s (xtag c)) as [cs |] eqn:C; cbn [bind on_ok]; auto.
    rewrite (us_ok s c cs C), H1. destruct (trim cs c) as [c' |] eqn:TC; cbn [bind on_ok]; auto. rewrite (IHr H2).
    match goal with |- context [on_ok (map (us s)) ?g] => destruct g as [r' |] end; cbn [bind on_ok]; auto.
    assert (T : xtag c' = xtag c). { destruct c as [ct ctx ca ck]. cbn [trim] in TC. apply bind_ok in TC. destruct TC as (k' & _ & TC). assert (X : c' = Elem ct ctx ca k') by congruence. subst. reflexivity. }
    assert (C' : schema_child s (xtag c') = Ok cs) by congruence. rewrite drops_un by exact C'. destruct (trim_drops cs all c'); auto. cbn [map]. rewrite (us_ok s c' cs C'). reflexivity. }
  specialize (G ks). rewrite G. match goal with |- context [on_ok (map (us s)) ?g] => destruct g as [k' |] end; reflexivity.
Qed.
Lemma own_un : forall s x, validate_own s (unspaced s x) = validate_own s x.
Proof.
  intros s x. unfold validate_own. assert (K : forallb (fun k => match find_kid k (xkids (unspaced s x)) with Some _ => true | None => false end) (s_keys (si s)) =
    forallb (fun k => match find_kid k (xkids x) with Some _ => true | None => false end) (s_keys (si s))).
  { rewrite un_kids. induction (s_keys (si s)) as [| k r IH]; [reflexivity |]. cbn [forallb]. rewrite IH, find_kid_us. destruct (find_kid k (xkids x)); reflexivity. }
  rewrite K. unfold has_attr, get_attr. rewrite un_attrs. reflexivity.
Qed.
Lemma validate_un : forall rd x s, validate rd s (unspaced s x) = on_ok (unspaced s) (validate rd s x).
Proof.
  intros rd x. induction x as [t tx at_ ks IH] using xml_ind'. intro s. assert (O := own_un s (Elem t tx at_ ks)). rewrite un_eq in *. cbn [validate]. rewrite O. clear O.
  destruct (negb (validate_own s (Elem t tx at_ ks))); auto.
  assert (G : (fix go (l : list xml) : res (list xml) := match l with [] => Ok [] | c :: r => let! cs := schema_child s (xtag c) in
        let! c' := match xkids c with [] => Ok c | _ => validate rd cs c end in let! r' := go r in Ok (if validate_drops rd cs c' then r' else c' :: r') end) (map (us s) ks) =
      on_ok (map (us s)) ((fix go (l : list xml) : res (list xml) := match l with [] => Ok [] | c :: r => let! cs := schema_child s (xtag c) in
        let! c' := match xkids c with [] => Ok c | _ => validate rd cs c end in let! r' := go r in Ok (if validate_drops rd cs c' then r' else c' :: r') end) ks)).
  { induction ks as [| c r IHr]; [reflexivity |]. inversion IH; subst. cbn [map]. rewrite us_tag. destruct (schema_child s (xtag c)) as [cs |] eqn:C; cbn [bind on_ok]; auto.
    rewrite (us_ok s c cs C), un_kids.
    assert (V : (match map (us cs) (xkids c) with [] => Ok (unspaced cs c) | _ => validate rd cs (unspaced cs c) end) = on_ok (unspaced cs) (match xkids c with [] => Ok c | _ => validate rd cs c end)).
    { destruct (xkids c); [reflexivity |]. apply H1. }
    rewrite V. clear V. destruct (match xkids c with [] => Ok c | _ => validate rd cs c end) as [c' |] eqn:TC; cbn [bind on_ok]; auto. rewrite (IHr H2).
    match goal with |- context [on_ok (map (us s)) ?g] => destruct g as [r' |] end; cbn [bind on_ok]; auto.
    assert (T : xtag c' = xtag c).
    { destruct (xkids c) eqn:K; [congruence |]. clear - TC. destruct c as [ct ctx ca ck]. cbn [validate] in TC. destruct (negb _); [discriminate |]. apply bind_ok in TC. destruct TC as (k' & _ & TC). assert (X : c' = Elem ct ctx ca k') by congruence. subst. reflexivity. }
    assert (C' : schema_child s (xtag c') = Ok cs) by congruence.
    assert (D : validate_drops rd cs (unspaced cs c') = validate_drops rd cs c') by (unfold validate_drops; rewrite no_kids_un; reflexivity). rewrite D.
    destruct (validate_drops rd cs c'); auto. cbn [map]. rewrite (us_ok s c' cs C'). reflexivity. }
  rewrite G. match goal with |- context [on_ok (map (us s)) ?g] => destruct g as [k' |] end; reflexivity.
Qed.

(** ** Sums *)
Lemma bind_on : forall A A' B B' (h : A -> A') (h' : B -> B') (r : res A) (f : A -> res B) (g : A' -> res B'),
  (forall a, r = Ok a -> g (h a) = on_ok h' (f a)) -> bind (on_ok h r) g = on_ok h' (bind r f).
Proof. intros A A' B B' h h' r f g H. destruct r; cbn [on_ok bind]; auto. Qed.
Lemma fold_on : forall A A' B B' (h : A -> A') (k : B -> B') (f : A -> B -> res A) (g : A' -> B' -> res A') l,
  (forall a b, In b l -> g (h a) (k b) = on_ok h (f a b)) -> forall a, foldM g (h a) (map k l) = on_ok h (foldM f a l).
Proof.
  intros A A' B B' h k f g l. induction l as [| b r IH]; intros H a; [reflexivity |]. cbn [map foldM]. rewrite H by (left; auto).
  destruct (f a b) as [a' |]; cbn [bind on_ok]; auto. apply IH. intros; apply H; right; auto.
Qed.
Lemma mapM_on : forall A A' B B' (h : B -> B') (k : A -> A') (f : A -> res B) (g : A' -> res B') l,
  (forall a, In a l -> g (k a) = on_ok h (f a)) -> mapM g (map k l) = on_ok (map h) (mapM f l).
Proof.
  intros A A' B B' h k f g l. induction l as [| b r IH]; intros H; [reflexivity |]. cbn [map mapM]. rewrite H by (left; auto).
  destruct (f b) as [a' |]; cbn [bind on_ok]; auto. rewrite IH by (intros; apply H; right; auto). destruct (mapM f r); reflexivity.
Qed.
Lemma find_on : forall A B (f : A -> B) p q l, (forall x, In x l -> p (f x) = q x) -> find p (map f l) = option_map f (find q l).
Proof.
  intros A B f p q l. induction l as [| x r IH]; intro H; [reflexivity |]. cbn [map find]. rewrite H by (left; auto). destruct (q x); [reflexivity | apply IH; intros; apply H; right; auto].
Qed.
Lemma existsb_on : forall A (f : A -> A) p l, (forall x, p (f x) = p x) -> existsb p (map f l) = existsb p l.
Proof. intros A f p l H. induction l as [| x r IH]; [reflexivity |]. cbn [map existsb]. rewrite H, IH. reflexivity. Qed.
Lemma ins_last_on : forall A (f : A -> A) p e l, (forall x, p (f x) = p x) -> ins_after_last p (f e) (map f l) = map f (ins_after_last p e l).
Proof.
  intros A f p e l H. induction l as [| x r IH]; [reflexivity |]. cbn [map ins_after_last]. rewrite existsb_on, H, IH by exact H.
  destruct (existsb p r); [reflexivity |]. destruct (p x); reflexivity.
Qed.
Lemma ins_before_on : forall A (f : A -> A) p e l, (forall x, p (f x) = p x) -> ins_before_first p (f e) (map f l) = map f (ins_before_first p e l).
Proof. intros A f p e l H. induction l as [| x r IH]; [reflexivity |]. cbn [map ins_before_first]. rewrite H, IH. destruct (p x); reflexivity. Qed.
Lemma ins_after_on : forall A (f : A -> A) p e l, (forall x, p (f x) = p x) -> ins_after_first p (f e) (map f l) = map f (ins_after_first p e l).
Proof. intros A f p e l H. induction l as [| x r IH]; [reflexivity |]. cbn [map ins_after_first]. rewrite H, IH. destruct (p x); reflexivity. Qed.

Section AT.
Variable s : snode.
Hypothesis WS : wfs s = true.

Lemma tag_ue : forall t e, has_tag t (ue s e) = has_tag t e.
Proof. intros t e. unfold has_tag, ue. cbn [snd]. rewrite us_tag. reflexivity. Qed.
Lemma uid_ue : forall u e, has_uid u (ue s e) = has_uid u e.
Proof. reflexivity. Qed.
Lemma del_ue : forall u l, del_uid u (map (ue s) l) = map (ue s) (del_uid u l).
Proof. intros u l. unfold del_uid. induction l as [| e r IH]; [reflexivity |]. cbn [map filter]. rewrite uid_ue. destruct (negb (has_uid u e)); cbn [map]; rewrite IH; reflexivity. Qed.
Lemma upd_ue : forall u x l, upd_uid u (us s x) (map (ue s) l) = map (ue s) (upd_uid u x l).
Proof. intros u x l. unfold upd_uid. rewrite !map_map. apply map_ext. intro e. rewrite uid_ue. destruct (has_uid u e); reflexivity. Qed.
Lemma app_ue : forall u x l, map (ue s) l ++ [(u, us s x)] = map (ue s) (l ++ [(u, x)]).
Proof. intros u x l. rewrite map_app. reflexivity. Qed.

Definition RefOK (cs : snode) (c : xml) : Prop :=
  forall p ps k v kc, puts_by cs c = Some p -> parse_preds (String.length p) p = Some ps -> In (k, v) ps -> schema_child cs k = Ok kc -> sty kc <> TContainer.

Lemma match_un : forall cs ps x, (forall k v kc, In (k, v) ps -> schema_child cs k = Ok kc -> sty kc <> TContainer) ->
  matches_preds ps (unspaced cs x) = matches_preds ps x.
Proof.
  intros cs ps x H. unfold matches_preds. rewrite un_kids. induction ps as [| [k v] r IH]; [reflexivity |]. cbn [forallb]. rewrite IH by (intros; apply (H k0 v0); [right |]; auto). f_equal.
  clear IH. cbn [fst snd]. induction (xkids x) as [| c q IHq]; [reflexivity |]. cbn [map existsb]. rewrite IHq. f_equal. rewrite us_tag. destruct (String.eqb_spec (xtag c) k) as [E | E]; auto. cbn [andb].
  unfold text_str, us. destruct (schema_child cs (xtag c)) as [kc |] eqn:C; auto. rewrite un_text; auto. apply (H k v kc); [left; auto | congruence].
Qed.

Lemma ref_ue : forall cs c l, schema_child s (xtag c) = Ok cs -> sty cs = TLeafList \/ sty cs = TList -> RefOK cs c ->
  s_user (si cs) = true -> get_attr insert_tag c = Some "before" \/ get_attr insert_tag c = Some "after" -> op_of c <> OpDelete -> op_of c <> OpRemove ->
  ref_sibling (sty cs) (us s c) (map (ue s) l) = ref_sibling (sty cs) c l.
Proof.
  intros cs c l C T RO U I O1 O2. unfold ref_sibling. rewrite !us_get, us_tag. destruct T as [T | T]; rewrite T.
  - destruct (get_attr value_tag c) as [v |]; auto. unfold find_value. rewrite (find_on _ _ (ue s) _ (fun e => has_tag (xtag c) e && ostr_eqb (xtext (snd e)) (Some v))).
    + destruct (find _ l); reflexivity.
    + intros e _. rewrite tag_ue. destruct (has_tag (xtag c) e) eqn:H; auto. cbn [andb ue snd]. unfold has_tag in H. apply String.eqb_eq in H.
      rewrite (us_leaf s (snd e) cs) by congruence. reflexivity.
  - destruct (get_attr key_tag c) as [p |] eqn:K; auto. unfold find_key. destruct (parse_preds (String.length p) p) as [ps |] eqn:P; cbn [bind]; auto.
    rewrite (find_on _ _ (ue s) _ (fun e => has_tag (xtag c) e && matches_preds ps (snd e))).
    + destruct (find _ l); reflexivity.
    + intros e _. rewrite tag_ue. destruct (has_tag (xtag c) e) eqn:H; auto. cbn [andb ue snd]. unfold has_tag in H. apply String.eqb_eq in H.
      rewrite (us_ok s (snd e) cs) by congruence. apply match_un. intros k v kc Ik. apply (RO p ps k v kc); auto.
      unfold puts_by. rewrite T, U, K. destruct I as [-> | ->]; destruct (op_of c); congruence.
Qed.

Lemma place_ue : forall cs c e l, schema_child s (xtag c) = Ok cs -> sty cs = TLeafList \/ sty cs = TList -> RefOK cs c -> op_of c <> OpDelete -> op_of c <> OpRemove ->
  place_new cs (us s c) (ue s e) (map (ue s) l) = on_ok (option_map (map (ue s))) (place_new cs c e l).
Proof.
  intros cs c e l C T RO O1 O2. unfold place_new. rewrite us_get, us_tag. destruct (s_user (si cs)) eqn:U.
  2: { cbn [on_ok option_map]. rewrite ins_last_on by (apply tag_ue). reflexivity. }
  destruct (get_attr insert_tag c) as [v |] eqn:I.
  2: { cbn [on_ok option_map]. rewrite ins_last_on by (apply tag_ue). reflexivity. }
  assert (RF : v = "before" \/ v = "after" -> ref_sibling (sty cs) (us s c) (map (ue s) l) = ref_sibling (sty cs) c l).
  { intro V. apply ref_ue; auto. rewrite I. destruct V; subst; auto. }
  destruct (String.eqb v "first") eqn:E1; [apply String.eqb_eq in E1; subst v; cbn [on_ok option_map]; rewrite ins_before_on by (apply tag_ue); reflexivity |].
  destruct (String.eqb v "last") eqn:E2; [apply String.eqb_eq in E2; subst v; cbn [on_ok option_map]; rewrite ins_last_on by (apply tag_ue); reflexivity |].
  destruct (String.eqb v "before") eqn:E3.
  { apply String.eqb_eq in E3. subst v. rewrite RF by auto. destruct (ref_sibling (sty cs) c l); cbn [bind on_ok option_map]; auto. rewrite ins_before_on by (apply uid_ue). reflexivity. }
  destruct (String.eqb v "after") eqn:E4.
  { apply String.eqb_eq in E4. subst v. rewrite RF by auto. destruct (ref_sibling (sty cs) c l); cbn [bind on_ok option_map]; auto. rewrite ins_after_on by (apply uid_ue). reflexivity. }
  apply String.eqb_neq in E1, E2, E3, E4.
  repeat match goal with |- context [match ?x with _ => _ end] => destruct x; try (exfalso; congruence); try reflexivity end.
Qed.

Lemma move_ue : forall cs c u x l, schema_child s (xtag c) = Ok cs -> sty cs = TLeafList \/ sty cs = TList -> RefOK cs c -> op_of c <> OpDelete -> op_of c <> OpRemove ->
  move_peer cs (us s c) (u, us s x) (map (ue s) l) = on_ok (map (ue s)) (move_peer cs c (u, x) l).
Proof.
  intros cs c u x l C T RO O1 O2. unfold move_peer. rewrite us_get, us_tag. cbn [fst]. change (u, us s x) with (ue s (u, x)). rewrite del_ue, <- map_rev.
  destruct (s_user (si cs)) eqn:U; [| reflexivity].
  destruct (get_attr insert_tag c) as [v |] eqn:I; [| reflexivity].
  assert (RF : v = "before" \/ v = "after" -> ref_sibling (sty cs) (us s c) (map (ue s) l) = ref_sibling (sty cs) c l).
  { intro V. apply ref_ue; auto. rewrite I. destruct V; subst; auto. }
  destruct (String.eqb v "first") eqn:E1.
  { apply String.eqb_eq in E1; subst v. rewrite (find_on _ _ (ue s) _ (has_tag (xtag c))) by (intros; apply tag_ue). destruct (find (has_tag (xtag c)) l) as [e0 |]; cbn [option_map]; auto.
    rewrite uid_ue. destruct (has_uid u e0); auto. rewrite ins_before_on by (apply tag_ue). reflexivity. }
  destruct (String.eqb v "last") eqn:E2.
  { apply String.eqb_eq in E2; subst v. rewrite (find_on _ _ (ue s) _ (has_tag (xtag c))) by (intros; apply tag_ue). destruct (find (has_tag (xtag c)) (rev l)) as [e0 |]; cbn [option_map]; auto.
    rewrite uid_ue. destruct (has_uid u e0); auto. rewrite ins_last_on by (apply tag_ue). reflexivity. }
  destruct (String.eqb v "before") eqn:E3.
  { apply String.eqb_eq in E3. subst v. rewrite RF by auto. destruct (ref_sibling (sty cs) c l) as [w |]; cbn [bind on_ok]; auto. destruct (uid_eqb w u); auto. rewrite ins_before_on by (apply uid_ue). reflexivity. }
  destruct (String.eqb v "after") eqn:E4.
  { apply String.eqb_eq in E4. subst v. rewrite RF by auto. destruct (ref_sibling (sty cs) c l) as [w |]; cbn [bind on_ok]; auto. destruct (uid_eqb w u); auto. rewrite ins_after_on by (apply uid_ue). reflexivity. }
  apply String.eqb_neq in E1, E2, E3, E4.
  repeat match goal with |- context [match ?x with _ => _ end] => destruct x; try (exfalso; congruence); try reflexivity end.
Qed.
End AT.

Lemma del_attrib_un : forall x s, del_attrib (unspaced s x) = unspaced s (del_attrib x).
Proof.
  intro x. induction x as [t tx a ks IH] using xml_ind'. intro s. rewrite un_eq. cbn [del_attrib]. rewrite un_eq. f_equal. rewrite !map_map. apply map_ext_in. intros c Ic.
  rewrite Forall_forall in IH. unfold us. assert (T : xtag (del_attrib c) = xtag c) by (destruct c; reflexivity). rewrite T. destruct (schema_child s (xtag c)); auto.
Qed.
Lemma del_attrib_us : forall s c, del_attrib (us s c) = us s (del_attrib c).
Proof. intros s c. unfold us. assert (T : xtag (del_attrib c) = xtag c) by (destruct c; reflexivity). rewrite T. destruct (schema_child s (xtag c)); auto. apply del_attrib_un. Qed.
Lemma copies_un : forall cs c, key_copies cs (unspaced cs c) = on_ok (map (us cs)) (key_copies cs c).
Proof.
  intros cs c. unfold key_copies. rewrite un_kids. rewrite <- (map_id (s_keys (si cs))) at 1. apply mapM_on. intros k _. rewrite find_kid_us.
  destruct (find_kid k (xkids c)); cbn [option_map on_ok]; auto. rewrite del_attrib_us. reflexivity.
Qed.

Definition RecOK (rec : snode -> xml -> xml -> res xml) (c : xml) : Prop :=
  forall cs x, wfs cs = true -> KeyRefs cs c -> rec cs (unspaced cs x) (unspaced cs c) = on_ok (unspaced cs) (rec cs x c).
Definition TagOK (rec : snode -> xml -> xml -> res xml) : Prop := forall cs x c e, rec cs x c = Ok e -> xtag e = xtag x.

Section SUM.
Variable s : snode.
Variable rec : snode -> xml -> xml -> res xml.
Hypothesis WS : wfs s = true.
Hypothesis TO : TagOK rec.

Lemma new_ue : forall l u c, RecOK rec c -> (forall cs, schema_child s (xtag c) = Ok cs -> RefOK cs c /\ KeyRefs cs c) ->
  add_new rec s (map (ue s) l) (ue s (u, c)) = on_ok (map (ue s)) (add_new rec s l (u, c)).
Proof.
  intros l u c RC H. unfold add_new. cbn [ue fst snd]. rewrite us_op, us_tag.
  assert (G : op_of c <> OpDelete -> op_of c <> OpRemove -> forall op, op_of c = op ->
    (let! cs := schema_child s (xtag c) in
      match sty cs with
      | TLeaf => Ok (map (ue s) l ++ [(u, del_attrib (us s c))])
      | TLeafList => let! r := place_new cs (us s c) (u, del_attrib (us s c)) (map (ue s) l) in match r with Some l' => Ok l' | None => Ok (map (ue s) l) end
      | TContainer => match op with OpMerge => let! e := rec cs (Elem (xtag c) None [] []) (us s c) in Ok (map (ue s) l ++ [(u, e)]) | _ => Ok (map (ue s) l ++ [(u, del_attrib (us s c))]) end
      | TList => match op with
          | OpMerge => let! ks := key_copies cs (us s c) in let e0 := Elem (xtag c) None [] ks in let! r := place_new cs (us s c) (u, e0) (map (ue s) l) in
              match r with None => Err ModelMissing | Some l' => let! e := rec cs e0 (us s c) in Ok (upd_uid u e l') end
          | _ => let! r := place_new cs (us s c) (u, del_attrib (us s c)) (map (ue s) l) in match r with Some l' => Ok l' | None => Ok (map (ue s) l) end
          end
      | _ => Ok (map (ue s) l)
      end) = on_ok (map (ue s))
    (let! cs := schema_child s (xtag c) in
      match sty cs with
      | TLeaf => Ok (l ++ [(u, del_attrib c)])
      | TLeafList => let! r := place_new cs c (u, del_attrib c) l in match r with Some l' => Ok l' | None => Ok l end
      | TContainer => match op with OpMerge => let! e := rec cs (Elem (xtag c) None [] []) c in Ok (l ++ [(u, e)]) | _ => Ok (l ++ [(u, del_attrib c)]) end
      | TList => match op with
          | OpMerge => let! ks := key_copies cs c in let e0 := Elem (xtag c) None [] ks in let! r := place_new cs c (u, e0) l in
              match r with None => Err ModelMissing | Some l' => let! e := rec cs e0 c in Ok (upd_uid u e l') end
          | _ => let! r := place_new cs c (u, del_attrib c) l in match r with Some l' => Ok l' | None => Ok l end
          end
      | _ => Ok l
      end)).
  { intros O1 O2 op OP. destruct (schema_child s (xtag c)) as [cs |] eqn:C; cbn [bind on_ok]; auto. destruct (H cs eq_refl) as (RO & KR). assert (WC := wfs_child s _ cs WS C).
    assert (PL : sty cs = TLeafList \/ sty cs = TList -> forall x, place_new cs (us s c) (u, us s x) (map (ue s) l) = on_ok (option_map (map (ue s))) (place_new cs c (u, x) l))
      by (intros T x; apply (place_ue s cs c (u, x) l C T RO O1 O2)).
    assert (PL1 : sty cs = TLeafList \/ sty cs = TList -> (let! r := place_new cs (us s c) (u, us s (del_attrib c)) (map (ue s) l) in match r with Some l' => Ok l' | None => Ok (map (ue s) l) end) =
      on_ok (map (ue s)) (let! r := place_new cs c (u, del_attrib c) l in match r with Some l' => Ok l' | None => Ok l end)).
    { intro T. rewrite (PL T). destruct (place_new cs c (u, del_attrib c) l) as [[l' |] |]; reflexivity. }
    rewrite !del_attrib_us in *. destruct (sty cs) eqn:T; auto.
    - cbn [on_ok]. rewrite app_ue. reflexivity.
    - assert (AP : Ok (map (ue s) l ++ [(u, us s (del_attrib c))]) = on_ok (map (ue s)) (Ok (l ++ [(u, del_attrib c)]))) by (cbn [on_ok]; rewrite app_ue; reflexivity).
      destruct op; auto. assert (R := RC cs (Elem (xtag c) None [] []) WC KR). rewrite un_eq, T in R. cbn [map] in R. rewrite (us_ok s c cs C), R.
      destruct (rec cs (Elem (xtag c) None [] []) c) as [e |] eqn:RE; cbn [bind on_ok]; auto. assert (C' : schema_child s (xtag e) = Ok cs) by (rewrite (TO _ _ _ _ RE); exact C).
      rewrite <- (us_ok s e cs C'), app_ue. reflexivity.
    - destruct op; auto. rewrite (us_ok s c cs C) at 1. rewrite copies_un. destruct (key_copies cs c) as [ks |]; cbn [bind on_ok]; auto.
      assert (E0 : us s (Elem (xtag c) None [] ks) = Elem (xtag c) None [] (map (us cs) ks)) by (rewrite (us_ok s (Elem (xtag c) None [] ks) cs C), un_eq, T; reflexivity).
      rewrite <- E0, PL by auto. destruct (place_new cs c (u, Elem (xtag c) None [] ks) l) as [[l' |] |]; cbn [bind on_ok option_map]; auto.
      assert (R := RC cs (Elem (xtag c) None [] ks) WC KR). rewrite (us_ok s (Elem (xtag c) None [] ks) cs C), (us_ok s c cs C), R.
      destruct (rec cs (Elem (xtag c) None [] ks) c) as [e |] eqn:RE; cbn [bind on_ok]; auto. assert (C' : schema_child s (xtag e) = Ok cs) by (rewrite (TO _ _ _ _ RE); exact C).
      rewrite <- (us_ok s e cs C'), upd_ue. reflexivity. }
  destruct (op_of c) eqn:O; auto; [apply (G ltac:(discriminate) ltac:(discriminate) OpMerge eq_refl) | apply (G ltac:(discriminate) ltac:(discriminate) OpCreate eq_refl) | apply (G ltac:(discriminate) ltac:(discriminate) OpReplace eq_refl)].
Qed.

Lemma peer_ue : forall l u x c, xtag c = xtag x -> RecOK rec c -> (forall cs, schema_child s (xtag c) = Ok cs -> RefOK cs c /\ KeyRefs cs c) ->
  add_peer rec s (map (ue s) l) (up s (u, x, c)) = on_ok (map (ue s)) (add_peer rec s l (u, x, c)).
Proof.
  intros l u x c TG RC H. unfold add_peer. cbn [up fst snd]. rewrite us_op, us_tag. destruct (schema_child s (xtag x)) as [cs |] eqn:C; cbn [bind on_ok]; auto.
  assert (CC : schema_child s (xtag c) = Ok cs) by congruence. destruct (H cs CC) as (RO & KR). assert (WC := wfs_child s _ cs WS C).
  assert (R : rec cs (us s x) (us s c) = on_ok (us s) (rec cs x c)).
  { rewrite (us_ok s x cs C), (us_ok s c cs CC), (RC cs x WC KR). destruct (rec cs x c) as [e |] eqn:RE; cbn [on_ok]; auto. rewrite (us_ok s e cs); auto. rewrite (TO _ _ _ _ RE). exact C. }
  assert (DL : Ok (del_uid u (map (ue s) l)) = on_ok (map (ue s)) (Ok (del_uid u l))) by (cbn [on_ok]; rewrite del_ue; reflexivity).
  destruct (sty cs) eqn:T; auto.
  - assert (UP : Ok (upd_uid u (set_text (xtext (us s c)) (us s x)) (map (ue s) l)) = on_ok (map (ue s)) (Ok (upd_uid u (set_text (xtext c) x) l))).
    { rewrite (us_leaf s c cs CC) by congruence. assert (E : set_text (xtext c) (us s x) = us s (set_text (xtext c) x)).
      { assert (CX : schema_child s (xtag (set_text (xtext c) x)) = Ok cs) by (destruct x; exact C). rewrite (us_ok s x cs C), (us_ok s _ cs CX). destruct x as [t tx a k]. cbn [set_text]. rewrite !un_eq, T. reflexivity. }
      rewrite E. cbn [on_ok]. rewrite upd_ue. reflexivity. }
    destruct (op_of c); auto.
  - assert (MV : op_of c <> OpDelete -> op_of c <> OpRemove -> move_peer cs (us s c) (u, us s x) (map (ue s) l) = on_ok (map (ue s)) (move_peer cs c (u, x) l)) by (intros; apply move_ue; auto).
    destruct (op_of c) eqn:O; auto; apply MV; discriminate.
  - rewrite del_attrib_us, del_ue, (upd_ue s u (del_attrib c) l).
    assert (NK : forall y, (match xkids (us s y) with [] => true | _ => false end) = (match xkids y with [] => true | _ => false end)).
    { intro y. unfold us. destruct (schema_child s (xtag y)); auto. apply us_kids_nil. }
    rewrite NK. destruct (op_of c); auto; try solve [destruct (np_container cs && _); reflexivity].
    rewrite R. destruct (rec cs x c) as [e |]; cbn [bind on_ok]; auto. specialize (NK e). rewrite (upd_ue s u e l). destruct (xkids (us s e)), (xkids e); try discriminate; destruct (np_container cs); reflexivity.
  - assert (MV : op_of c <> OpDelete -> op_of c <> OpRemove -> move_peer cs (us s c) (u, us s x) (map (ue s) l) = on_ok (map (ue s)) (move_peer cs c (u, x) l)) by (intros; apply move_ue; auto).
    rewrite del_attrib_us. destruct (op_of c) eqn:O; auto; rewrite MV by discriminate; (destruct (move_peer cs c (u, x) l) as [l' |]; cbn [bind on_ok]; auto).
    + rewrite R. destruct (rec cs x c) as [e |]; cbn [bind on_ok]; auto. rewrite (upd_ue s u e l'). reflexivity.
    + rewrite upd_ue. reflexivity.
Qed.
End SUM.

Lemma add_tag : forall f, TagOK (node_add f).
Proof.
  intros f cs x c e H. destruct f; cbn [node_add] in H; [discriminate |]. apply bind_ok in H. destruct H as (g & _ & H). apply bind_ok in H. destruct H as (l0 & _ & H).
  apply bind_ok in H. destruct H as (l1 & _ & H). apply bind_ok in H. destruct H as (l2 & _ & H). assert (X : e = set_kids (map snd l2) x) by congruence. subst. destruct x; reflexivity.
Qed.

Lemma add_un : forall f s y x, wfs s = true -> KeyRefs s y -> node_add f s (unspaced s x) (unspaced s y) = on_ok (unspaced s) (node_add f s x y).
Proof.
  intro f. induction f as [| f IH]; intros s y x W' KR; [reflexivity |]. cbn [node_add]. rewrite !un_kids, group_us, index_us by auto. inversion KR as [s0 y0 K1 K2]; subst.
  destruct (index_kids s (xkids x)) as [lx |] eqn:X; [| unfold group_kids, pair_children; rewrite X; reflexivity].
  destruct (index_kids s (xkids y)) as [ly |] eqn:Y; [| unfold group_kids, pair_children; rewrite X, Y; reflexivity].
  apply index_ok in X, Y. rewrite (group_ok s _ _ _ _ X Y). cbn [on_ok bind ug in_2_not_1 in_1_and_2 in_1_not_2].
  assert (KY : forall u c, In (u, c) ly -> In c (xkids y)) by (intros u c I; apply (Index_kid s (xkids y) ly u c Y I)).
  assert (PC : forall c, In c (xkids y) -> forall cs, schema_child s (xtag c) = Ok cs -> RefOK cs c /\ KeyRefs cs c).
  { intros c Ic cs C. split; [| apply (K2 c cs Ic C)]. intros p ps k v kc. apply (K1 c cs p ps k v kc Ic C). }
  rewrite (fold_on _ _ _ _ (map (ue s)) (ue s) (add_new (node_add f) s)).
  2: { intros l [u c] I. unfold only_in in I. apply filter_In in I. destruct I as (I & _). apply new_ue; auto.
       - apply add_tag.
       - intros cs z Wc Kc. apply IH; auto.
       - apply PC. apply (KY u c I). }
  apply bind_on. intros l1 _.
  rewrite (fold_on _ _ _ _ (map (ue s)) (up s) (add_peer (node_add f) s)).
  2: { intros l [[u a] c] I. apply both_in_In in I. destruct I as (I1 & I2). apply (Index_assoc s _ ly u c Y) in I2. apply peer_ue; auto.
       - apply add_tag.
       - apply (Index_tag s _ lx u a X) in I1. apply (Index_tag s _ ly u c Y) in I2. congruence.
       - intros cs z Wc Kc. apply IH; auto.
       - apply PC. apply (KY u c I2). }
  apply bind_on. intros l2 _. cbn [on_ok]. f_equal. destruct x as [t tx a k]. cbn [set_kids]. rewrite un_eq. cbn [unspaced set_kids]. f_equal.
  rewrite !map_map. reflexivity.
Qed.
Theorem sum_un : forall s x y, wfs s = true -> KeyRefs s y -> nc_add s (unspaced s x) (unspaced s y) = on_ok (unspaced s) (nc_add s x y).
Proof. intros s x y W' K. unfold nc_add. rewrite height_un. apply add_un; auto. Qed.
