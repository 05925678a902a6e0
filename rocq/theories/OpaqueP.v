(** Opaque nodes: deltas and sums against OpaqueSpec.v. *)
From Coq Require Import String Ascii List Bool Arith ZArith Lia.
From Verif Require Import Base BaseP XmlM CalcM CalcP NetconfM ConfigM DataSpec DataP CompareP ListP EditP OrderEditP AlikePropsP DeltaSpec AddP ConfigSpec OpaqueSpec OpsP DefaultP.
Import ListNotations.
Open Scope string_scope.
Open Scope list_scope.

(** ** Reading opaque nodes as leaves *)
Definition lty (t : stype) : stype := match t with TOther => TLeaf | _ => t end.
Definition lce (c : centry) : centry := CEntry (ce_pos c) (ce_case c) (as_leaves (ce_node c)).
Definition rmap {A B} (f : A -> B) (r : res A) : res B := match r with Ok a => Ok (f a) | Err e => Err e end.

Lemma si_lf : forall s, si (as_leaves s) = leaf_info (si s).
Proof. intros [i ks]. reflexivity. Qed.
Lemma skids_lf : forall s, skids (as_leaves s) = map as_leaves (skids s).
Proof. intros [i ks]. reflexivity. Qed.
Lemma sty_lf : forall s, sty (as_leaves s) = lty (sty s).
Proof. intros [i ks]. unfold sty. simpl. unfold leaf_info. destruct (s_type i) eqn:E; simpl; auto. Qed.
Lemma stag_lf : forall s, stag (as_leaves s) = stag s.
Proof. intros [i ks]. unfold stag. simpl. unfold leaf_info. destruct (s_type i); reflexivity. Qed.
Lemma keys_lf : forall s, s_keys (si (as_leaves s)) = s_keys (si s).
Proof. intros [i ks]. simpl. unfold leaf_info. destruct (s_type i); reflexivity. Qed.
Lemma user_lf : forall s, s_user (si (as_leaves s)) = s_user (si s).
Proof. intros [i ks]. simpl. unfold leaf_info. destruct (s_type i); reflexivity. Qed.
Lemma iskey_lf : forall s, s_is_key (si (as_leaves s)) = s_is_key (si s).
Proof. intros [i ks]. simpl. unfold leaf_info. destruct (s_type i); reflexivity. Qed.
Lemma presence_lf : forall s, s_presence (si (as_leaves s)) = s_presence (si s).
Proof. intros [i ks]. simpl. unfold leaf_info. destruct (s_type i); reflexivity. Qed.
Lemma choice_lf : forall s, is_choice_or_case (sty (as_leaves s)) = is_choice_or_case (sty s).
Proof. intro s. rewrite sty_lf. destruct (sty s); reflexivity. Qed.
Lemma case_lf : forall s, stype_eqb (sty (as_leaves s)) TCase = stype_eqb (sty s) TCase.
Proof. intro s. rewrite sty_lf. destruct (sty s); reflexivity. Qed.

Lemma flat_node_lf : forall s pos inc, flat_node pos inc (as_leaves s) = map lce (flat_node pos inc s).
Proof.
  intro s. induction s as [i ks IH] using snode_ind'. intros pos inc. rewrite !flat_node_eq, choice_lf, case_lf, skids_lf.
  destruct (is_choice_or_case (sty (SNode i ks))); [| reflexivity]. cbn [skids]. generalize 0. generalize (stype_eqb (sty (SNode i ks)) TCase).
  induction ks as [| c r IHr]; intros b n; [reflexivity |]. inversion IH; subst. cbn [map flat_go]. rewrite H1, IHr by auto. rewrite map_app. reflexivity.
Qed.
Lemma flat_lf : forall s, flat (as_leaves s) = map lce (flat s).
Proof.
  intro s. unfold flat. rewrite skids_lf, !flat_list_go. generalize 0. induction (skids s) as [| c r IH]; intro n; [reflexivity |].
  cbn [map flat_go]. rewrite flat_node_lf, IH, map_app. reflexivity.
Qed.
Lemma filter_lce : forall t l, filter (fun c => String.eqb (stag (ce_node c)) t) (map lce l) = map lce (filter (fun c => String.eqb (stag (ce_node c)) t) l).
Proof.
  intros t l. induction l as [| c r IH]; [reflexivity |]. cbn [map filter]. change (ce_node (lce c)) with (as_leaves (ce_node c)). rewrite stag_lf.
  destruct (String.eqb (stag (ce_node c)) t); cbn [map]; rewrite IH; reflexivity.
Qed.
Lemma entry_lf : forall s t, schema_entry (as_leaves s) t = rmap lce (schema_entry s t).
Proof.
  intros s t. unfold schema_entry. rewrite flat_lf, filter_lce. destruct (filter _ (flat s)) as [| c [| d r]]; cbn [map rmap]; auto.
  rewrite sty_lf. destruct (sty s); reflexivity.
Qed.
Lemma child_lf : forall s t, schema_child (as_leaves s) t = rmap as_leaves (schema_child s t).
Proof. intros s t. unfold schema_child. rewrite entry_lf. destruct (schema_entry s t); reflexivity. Qed.
Lemma parse_lf : forall s x, parse_text (as_leaves s) x = parse_text s x.
Proof. intros s x. unfold parse_text. rewrite sty_lf. destruct (sty s); reflexivity. Qed.
Lemma tuple_lf : forall s x, key_tuple (as_leaves s) x = key_tuple s x.
Proof. intros s x. unfold key_tuple. rewrite keys_lf. apply mapM_ext. intros k _. destruct (find_one_child k x); simpl; auto. rewrite parse_lf. reflexivity. Qed.
Lemma uid_lf : forall s x, uid_of (as_leaves s) x = uid_of s x.
Proof.
  intros s x. unfold uid_of. rewrite child_lf. destruct (schema_child s (xtag x)) as [cs |]; cbn [rmap bind]; auto.
  rewrite sty_lf, parse_lf, tuple_lf. destruct (sty cs); reflexivity.
Qed.
Lemma index_lf : forall s l, index_kids (as_leaves s) l = index_kids s l.
Proof.
  intros s l. unfold index_kids. generalize (@nil uid). induction l as [| c r IH]; intro seen; [reflexivity |].
  cbn [index_from]. rewrite uid_lf. destruct (uid_of s c); cbn [bind]; auto. destruct (mem uid_eqb a seen); auto. rewrite IH. reflexivity.
Qed.
Lemma group_lf : forall s l1 l2, group_kids (as_leaves s) l1 l2 = group_kids s l1 l2.
Proof. intros s l1 l2. unfold group_kids, pair_children. rewrite !index_lf. reflexivity. Qed.
Lemma same_lf : forall s x y, same_text (as_leaves s) x y = same_text s x y.
Proof. intros s x y. unfold same_text. rewrite sty_lf, !parse_lf. destruct (xtext x), (xtext y), (sty s); reflexivity. Qed.
Lemma seq_lf : forall s, is_user_seq (as_leaves s) = is_user_seq s.
Proof. intro s. unfold is_user_seq. rewrite user_lf, sty_lf. destruct (sty s); reflexivity. Qed.

Lemma le_lf : forall x s y, node_le (as_leaves s) x y = node_le s x y.
Proof.
  intro x. induction x as [t tx at_ ks IH] using xml_ind'. intros s y. cbn [node_le].
  destruct (negb (String.eqb t (xtag y))); auto. rewrite same_lf. destruct (same_text s (Elem t tx at_ ks) y) as [st |]; cbn [bind]; auto.
  destruct (negb st); auto. destruct (negb (attrs_sub at_ (xattrs y))); auto. rewrite !index_lf.
  destruct (index_kids s ks) as [ones |]; cbn [bind]; auto. destruct (index_kids s (xkids y)) as [twos |]; cbn [bind]; auto. clear ones.
  generalize (@nil uid). induction ks as [| c r IHr]; intro done; [reflexivity |]. inversion IH; subst.
  rewrite uid_lf. destruct (uid_of s c) as [u |]; cbn [bind]; auto. destruct (assoc uid_eqb u twos) as [c' |]; auto.
  rewrite child_lf. destruct (schema_child s (xtag c)) as [cs |]; cbn [rmap bind]; auto. rewrite seq_lf.
  match goal with |- (if negb ?o then _ else _) = _ => destruct (negb o) end; auto. rewrite H1. destruct (node_le cs c c') as [b |]; cbn [bind]; auto.
  destruct b; auto.
Qed.
Lemma eq_lf : forall s x y, node_eq (as_leaves s) x y = node_eq s x y.
Proof. intros s x y. unfold node_eq. rewrite !le_lf. reflexivity. Qed.

Lemma np_lf : forall s, np_container (as_leaves s) = np_container s.
Proof. intro s. unfold np_container. rewrite sty_lf, presence_lf. destruct (sty s); reflexivity. Qed.


Lemma default_lf_n : forall z s, ssize s < z -> forall pos, default_pos pos (as_leaves s) = default_pos pos s.
Proof.
  induction z as [| z IH]; intros s Z pos; [lia |]. rewrite !default_pos_eq, skids_lf.
  assert (L : forall c, In c (skids s) -> ssize c < z). { intros c Hc. apply In_nth_error in Hc. destruct Hc as (j & Hj). apply ssize_kid in Hj. lia. }
  clear Z. generalize 0. induction (skids s) as [| c r IHr]; intro n; [reflexivity |]. cbn [map dp_go].
  change (dp_item pos n (as_leaves c) ++ dp_go pos (S n) (map as_leaves r) = dp_item pos n c ++ dp_go pos (S n) r).
  rewrite IHr by (intros d Hd; apply L; right; exact Hd). f_equal. assert (ZC : ssize c < z) by (apply L; left; auto). clear L IHr.
  unfold dp_item. rewrite sty_lf, presence_lf, skids_lf, IH by auto. rewrite si_lf. unfold leaf_info. fold (sty c). destruct (sty c) eqn:T; cbn [lty s_default]; auto.
  destruct (s_default (si c)) as [d |]; auto.
  assert (L : forall k, In k (skids c) -> ssize k < z). { intros k Hk. apply In_nth_error in Hk. destruct Hk as (j & Hj). apply ssize_kid in Hj. lia. }
  generalize 0. induction (skids c) as [| k q IHq]; intro m; [reflexivity |]. cbn [map case_go].
  change (map as_leaves (k :: q)) with (as_leaves k :: map as_leaves q). cbn [case_go]. rewrite stag_lf. destruct (String.eqb (stag k) d).
  - rewrite IH by (apply L; left; auto). reflexivity.
  - apply IHq. intros d' Hd. apply L. right. exact Hd.
Qed.
Lemma default_lf : forall s pos, default_pos pos (as_leaves s) = default_pos pos s.
Proof. intros s pos. apply (default_lf_n (S (ssize s))). lia. Qed.

Lemma create_lf : forall x s, set_create (as_leaves s) x = set_create s x.
Proof.
  intro x. induction x as [t tx at_ ks IH] using xml_ind'. intro s. cbn [set_create]. rewrite np_lf. destruct (np_container s); auto. rewrite default_lf. f_equal.
  induction ks as [| c r IHr]; [reflexivity |]. inversion IH; subst. rewrite entry_lf. destruct (schema_entry s (xtag c)) as [ce |]; cbn [rmap bind]; auto.
  rewrite IHr by auto. cbn [lce ce_pos ce_node]. rewrite H1. reflexivity.
Qed.
Lemma delkeys_lf : forall s x, del_keys (as_leaves s) x = del_keys s x.
Proof. intros s x. unfold del_keys. rewrite keys_lf. reflexivity. Qed.
Lemma delkids_lf : forall x s, del_kids (as_leaves s) x = del_kids s x.
Proof.
  intro x. induction x as [t tx at_ ks IH] using xml_ind'. intro s. cbn [del_kids].
  induction ks as [| c r IHr]; [reflexivity |]. inversion IH; subst. rewrite child_lf. destruct (schema_child s (xtag c)) as [cs |]; cbn [rmap bind]; auto.
  rewrite IHr by auto. rewrite np_lf, delkeys_lf, H1, sty_lf. destruct (sty cs); reflexivity.
Qed.
Lemma mkdel_lf : forall o s x, mk_del o (as_leaves s) x = mk_del o s x.
Proof. intros o s x. unfold mk_del. rewrite np_lf, delkeys_lf, delkids_lf, sty_lf. destruct (sty s); reflexivity. Qed.
Lemma obu_lf : forall s m, obu_add (as_leaves s) m = obu_add s m.
Proof. intros s m. unfold obu_add. rewrite seq_lf, stag_lf, keys_lf, sty_lf. destruct (is_user_seq s); auto. destruct (assoc String.eqb (stag s) m); auto. destruct (sty s); reflexivity. Qed.
Lemma strip_lf : forall s x, strip_to_keys (as_leaves s) x = strip_to_keys s x.
Proof.
  intros s x. unfold strip_to_keys. f_equal. apply mapM_ext. intros c _. rewrite child_lf. destruct (schema_child s (xtag c)); cbn [rmap bind]; auto.
  rewrite iskey_lf. reflexivity.
Qed.
Lemma lltags_lf : forall s l, leaf_list_tags (as_leaves s) l = leaf_list_tags s l.
Proof.
  intros s l. unfold leaf_list_tags. f_equal. apply mapM_ext. intros c _. rewrite child_lf. destruct (schema_child s (xtag c)); cbn [rmap bind]; auto.
  rewrite sty_lf. destruct (sty a); reflexivity.
Qed.
Lemma lists_lf : forall s l1 l2, leaf_lists_differ (as_leaves s) l1 l2 = leaf_lists_differ s l1 l2.
Proof.
  intros s l1 l2. unfold leaf_lists_differ. rewrite !lltags_lf. destruct (leaf_list_tags s l1); cbn [bind]; auto. destruct (leaf_list_tags s l2); cbn [bind]; auto.
  f_equal. apply mapM_ext. intros t _. unfold same_leaf_list. rewrite child_lf. destruct (schema_child s t) as [cs |]; cbn [rmap bind]; auto. rewrite user_lf.
  rewrite !(map_ext _ _ (parse_lf cs)). reflexivity.
Qed.
Lemma mark_lf : forall o s x, mark_create o (as_leaves s) x = mark_create o s x.
Proof. intros o s x. unfold mark_create. rewrite create_lf. reflexivity. Qed.
Lemma self_lf : forall o s st p, sub_only_self o (as_leaves s) st p = sub_only_self o s st p.
Proof.
  intros o s st [u c]. unfold sub_only_self. rewrite entry_lf. destruct (schema_entry s (xtag c)) as [ce |]; cbn [rmap bind]; auto.
  change (ce_node (lce ce)) with (as_leaves (ce_node ce)). rewrite mark_lf, mkdel_lf, obu_lf. reflexivity.
Qed.
Lemma other_lf : forall o s st p, sub_only_other o (as_leaves s) st p = sub_only_other o s st p.
Proof.
  intros o s st [u c]. unfold sub_only_other. rewrite entry_lf. destruct (schema_entry s (xtag c)) as [ce |]; cbn [rmap bind]; auto.
  change (ce_node (lce ce)) with (as_leaves (ce_node ce)). rewrite mark_lf, mkdel_lf, obu_lf. reflexivity.
Qed.
Lemma rself_lf : forall s st p, repl_only_self (as_leaves s) st p = repl_only_self s st p.
Proof.
  intros s st [u c]. unfold repl_only_self. rewrite child_lf. destruct (schema_child s (xtag c)) as [cs |]; cbn [rmap bind]; auto. rewrite obu_lf. reflexivity.
Qed.
Lemma rother_lf : forall o s st p, repl_only_other o (as_leaves s) st p = repl_only_other o s st p.
Proof.
  intros o s st [u c]. unfold repl_only_other. rewrite child_lf. destruct (schema_child s (xtag c)) as [cs |]; cbn [rmap bind]; auto. rewrite mkdel_lf. reflexivity.
Qed.

(** ** Same outcome, or ModelError *)
Definition R {A} (x y : res A) : Prop := x = y \/ x = Err ModelError.
Lemma R_bind : forall A B (x y : res A) (f g : A -> res B), R x y -> (forall a, x = Ok a -> R (f a) (g a)) -> R (bind x f) (bind y g).
Proof. intros A B x y f g [-> | ->] H; [| right; reflexivity]. destruct y; cbn [bind]; [apply H; auto | left; reflexivity]. Qed.
Lemma R_fold : forall A B (f g : A -> B -> res A) l, (forall a b, In b l -> R (f a b) (g a b)) -> forall a, R (foldM f a l) (foldM g a l).
Proof.
  intros A B f g l. induction l as [| b r IH]; intros H a; cbn [foldM]; [left; reflexivity |]. apply R_bind; [apply H; left; auto |]. intros a' _. apply IH. intros; apply H; right; auto.
Qed.
Lemma R_refl : forall A (x : res A), R x x.
Proof. left; reflexivity. Qed.

Lemma both_R : forall o s st p (rec rec' : snode -> xml -> xml -> res (xml * xml)), (forall cs a b, R (rec cs a b) (rec' (as_leaves cs) a b)) ->
  R (sub_both o rec s st p) (sub_both o rec' (as_leaves s) st p).
Proof.
  intros o s st [[u a] b] rec rec' H. unfold sub_both. rewrite child_lf. destruct (schema_child s (xtag a)) as [cs |]; cbn [rmap bind]; [| apply R_refl].
  rewrite same_lf, eq_lf, iskey_lf, user_lf, obu_lf, !strip_lf, sty_lf. destruct (sty cs); cbn [lty]; try apply R_refl.
  - destruct (node_eq cs a b) as [[|] |]; cbn [bind]; try apply R_refl. apply R_bind; [apply H | intros; apply R_refl].
  - destruct (node_eq cs a b) as [[|] |]; cbn [bind]; try apply R_refl. apply R_bind; [apply H | intros; apply R_refl].
  - right. reflexivity.
Qed.
Lemma rboth_R : forall s st p, R (repl_both s st p) (repl_both (as_leaves s) st p).
Proof.
  intros s st [[u a] b]. unfold repl_both. rewrite child_lf. destruct (schema_child s (xtag a)) as [cs |]; cbn [rmap bind]; [| apply R_refl].
  rewrite same_lf, eq_lf, iskey_lf, user_lf, obu_lf, sty_lf. destruct (sty cs); cbn [lty]; try apply R_refl. right. reflexivity.
Qed.
Lemma replace_R : forall o s a b, R (config_replace o s a b) (config_replace o (as_leaves s) a b).
Proof.
  intros o s a b. unfold config_replace. rewrite group_lf, index_lf. apply R_bind; [apply R_refl |]. intros g _. apply R_bind; [apply R_refl |]. intros l0 _.
  apply R_bind; [apply R_fold; intros; rewrite rself_lf; apply R_refl |]. intros st1 _. apply R_bind; [apply R_fold; intros; rewrite rother_lf; apply R_refl |]. intros st2 _.
  apply R_bind; [apply R_fold; intros; apply rboth_R |]. intros st3 _. apply R_refl.
Qed.
Lemma sub_R : forall f o s d a b, R (node_sub f o s d a b) (node_sub f o (as_leaves s) d a b).
Proof.
  induction f as [| f IH]; intros o s d a b; cbn [node_sub]; [apply R_refl |].
  rewrite group_lf, !index_lf, lists_lf. apply R_bind; [apply R_refl |]. intros [|] _; [apply R_refl |]. apply R_bind; [apply R_refl |]. intros g _.
  apply R_bind; [apply R_refl |]. intros l1 _. apply R_bind; [apply R_refl |]. intros l2 _.
  apply R_bind; [apply R_fold; intros; rewrite self_lf; apply R_refl |]. intros st1 _. apply R_bind; [apply R_fold; intros; rewrite other_lf; apply R_refl |]. intros st2 _.
  apply R_bind; [| intros; apply R_refl]. apply R_fold. intros st p _. apply both_R. intros cs x y. destruct (o_type o); try apply IH.
  destruct (Z.eqb (o_depth o) (d + 1)); [| apply IH]. apply R_bind; [apply replace_R | intros; apply R_refl].
Qed.
Lemma delta_R : forall o s a b, R (delta_nc s (Delta a b o)) (delta_nc (as_leaves s) (Delta a b o)).
Proof.
  intros o s a b. unfold delta_nc, nc_sub. cbn [d_opts d_dst d_src]. apply R_bind; [| intros; apply R_refl].
  destruct (o_type o); try (apply R_bind; [apply sub_R | intros; apply R_refl]). destruct (Z.eqb (o_depth o) 0); [apply replace_R |].
  apply R_bind; [apply sub_R | intros; apply R_refl].
Qed.

(** ** Exactly where *)
Lemma Index_lf : forall s l es, Index (as_leaves s) l es <-> Index s l es.
Proof. intros s l es. rewrite <- !index_ok, index_lf. reflexivity. Qed.
Lemma kid_lf : forall s x c, valid (as_leaves s) x = true -> In c (xkids x) -> exists cs, schema_child s (xtag c) = Ok cs /\ valid (as_leaves cs) c = true.
Proof.
  intros s x c V H. destruct (valid_inv _ x V) as (_ & _ & K). destruct (K c H) as (cl & E & V'). rewrite child_lf in E.
  destruct (schema_child s (xtag c)) as [cs |]; [| discriminate]. cbn [rmap] in E. assert (X : as_leaves cs = cl) by congruence. subst cl. eauto.
Qed.
Lemma eq_iff : forall cs a b, valid (as_leaves cs) a = true -> valid (as_leaves cs) b = true -> xtag a = xtag b ->
  exists e, node_eq cs a b = Ok e /\ (e = true <-> SameData (as_leaves cs) a b).
Proof.
  intros cs a b VA VB T. destruct (cmp_eq_iff (as_leaves cs) a b VA VB T) as (e & H & I). exists e. split; auto. rewrite <- eq_lf. exact H.
Qed.

(** The peers of two valid nodes. *)
Lemma peers_In : forall s a b g u x y, group_kids s (xkids a) (xkids b) = Ok g -> In (u, x, y) (in_1_and_2 g) ->
  In x (xkids a) /\ In y (xkids b) /\ xtag x = xtag y /\ uid_of s x = Ok u /\ uid_of s y = Ok u.
Proof.
  intros s a b g u x y G H. destruct (group_inv s _ _ g G) as (la & lb & IA & IB & ->). cbn [in_1_and_2] in H. apply both_in_In in H. destruct H as (H1 & H2).
  apply (Index_assoc s _ lb u y IB) in H2. assert (T1 := Index_tag s _ la u x IA H1). assert (T2 := Index_tag s _ lb u y IB H2).
  split; [apply (Index_kid s _ la u x IA H1) |]. split; [apply (Index_kid s _ lb u y IB H2) |]. split; [congruence |].
  split; [apply (Index_uid s _ la u x IA H1) | apply (Index_uid s _ lb u y IB H2)].
Qed.

(** [P], or the same outcome. *)
Definition Or {A} (P : Prop) (x y : res A) : Prop := P \/ x = y.
Lemma bind_same : forall P A B (x y : res A) (f g : A -> res B), Or P x y -> (forall a, y = Ok a -> Or P (f a) (g a)) -> Or P (bind x f) (bind y g).
Proof. intros P A B x y f g [H | ->] G; [left; exact H |]. destruct y; cbn [bind]; [apply G; auto | right; reflexivity]. Qed.
Lemma fold_same : forall P A B (f g : A -> B -> res A) l, (forall a b, In b l -> Or P (f a b) (g a b)) -> forall a, Or P (foldM f a l) (foldM g a l).
Proof.
  intros P A B f g l. induction l as [| b r IH]; intros H a; cbn [foldM]; [right; auto |]. apply bind_same; [apply H; left; auto |]. intros a' _. apply IH. intros; apply H; right; auto.
Qed.
Lemma Or_refl : forall P A (x : res A), Or P x x.
Proof. right; reflexivity. Qed.
Local Hint Resolve Or_refl : core.

Lemma replace_apart : forall o s a b, Or (Meets s a b) (config_replace o s a b) (config_replace o (as_leaves s) a b).
Proof.
  intros o s a b. unfold config_replace. rewrite group_lf, index_lf. apply bind_same; auto. intros g G. apply bind_same; auto. intros l0 _.
  apply bind_same; [apply fold_same; intros; rewrite rself_lf; auto |]. intros st1 _. apply bind_same; [apply fold_same; intros; rewrite rother_lf; auto |]. intros st2 _.
  apply bind_same; auto. apply fold_same. intros st [[u x] y] H. destruct (peers_In s a b g u x y G H) as (HX & HY & HT & _).
  unfold repl_both. rewrite child_lf. destruct (schema_child s (xtag x)) as [cs |] eqn:C; cbn [rmap bind]; auto.
  rewrite same_lf, eq_lf, iskey_lf, user_lf, obu_lf, sty_lf. destruct (sty cs) eqn:T; cbn [lty]; auto. left.
  apply (me_here s a b x y HX HY HT). exists cs. split; auto. apply schema_child_Defines. exact C.
Qed.

Lemma sub_apart : forall f o s d a b, valid (as_leaves s) a = true -> valid (as_leaves s) b = true ->
  Or (Meets s a b) (node_sub f o s d a b) (node_sub f o (as_leaves s) d a b).
Proof.
  induction f as [| f IH]; intros o s d a b VA VB; cbn [node_sub]; auto.
  rewrite group_lf, !index_lf, lists_lf. apply bind_same; auto. intros [|] _; auto. apply bind_same; auto. intros g G.
  apply bind_same; auto. intros l1 _. apply bind_same; auto. intros l2 _.
  apply bind_same; [apply fold_same; intros; rewrite self_lf; auto |]. intros st1 _. apply bind_same; [apply fold_same; intros; rewrite other_lf; auto |]. intros st2 _.
  apply bind_same; auto. apply fold_same. intros st [[u x] y] H. destruct (peers_In s a b g u x y G H) as (HX & HY & HT & UX & UY).
  unfold sub_both. rewrite child_lf. destruct (kid_lf s a x VA HX) as (cs & C & VX). destruct (kid_lf s b y VB HY) as (cs' & C' & VY).
  rewrite <- HT in C'. assert (E : cs' = cs) by congruence. subst cs'. rewrite C. cbn [rmap bind].
  rewrite same_lf, eq_lf, iskey_lf, user_lf, obu_lf, !strip_lf, sty_lf. assert (D := schema_child_Defines s _ cs C).
  destruct (eq_iff cs x y VX VY HT) as (e & Q & QI). rewrite Q. cbn [bind].
  assert (M : forall A (v w : res A), sty cs = TContainer \/ sty cs = TList -> e = false -> Or (Meets cs x y) v w -> Or (Meets s a b) v w).
  { intros A v w K -> [MM | ->]; auto. left. apply (me_down s a b x y cs u HX HY HT D K); auto.
    - apply (Ident_uid s x cs u C UX).
    - apply (Ident_uid s y cs u); auto. rewrite <- HT. exact C.
    - intro S'. apply QI in S'. discriminate. }
  destruct (sty cs) eqn:T; cbn [lty]; auto.
  - destruct e; auto. apply bind_same; auto. apply M; auto. destruct (o_type o); auto. destruct (Z.eqb (o_depth o) (d + 1)); auto. apply bind_same; auto. apply replace_apart.
  - destruct e; auto. apply bind_same; auto. apply M; auto. destruct (o_type o); auto. destruct (Z.eqb (o_depth o) (d + 1)); auto. apply bind_same; auto. apply replace_apart.
  - left. apply (me_here s a b x y HX HY HT). exists cs. auto.
Qed.

Lemma foldM_not_ok : forall A B (f : A -> B -> res A) b l, (forall a r, f a b <> Ok r) -> In b l -> forall a r, foldM f a l <> Ok r.
Proof.
  intros A B f b l N. induction l as [| c l IH]; intros H a r; [destruct H |]. cbn [foldM]. intro E. apply bind_ok in E. destruct E as (a' & E1 & E2).
  destruct H as [-> | H]; [apply (N a a' E1) | apply (IH H a' r E2)].
Qed.

Lemma sub_meet : forall s a b, Meets s a b -> forall f o d r, valid (as_leaves s) a = true -> valid (as_leaves s) b = true ->
  o_type o <> DReplace -> o_replace o = PRMerge -> node_sub f o s d a b <> Ok r.
Proof.
  intros s a b M. induction M as [s a b x y HX HY HT (cs & D & TY) | s a b x y cs u HX HY HT D K IX IY NS M IH]; intros f o d r VA VB O1 O2 E.
  - destruct f as [| f]; [discriminate |]. cbn [node_sub] in E. rewrite O2 in E. cbn [bind] in E.
    apply bind_ok in E. destruct E as (g & G & E). apply bind_ok in E. destruct E as (l1 & _ & E). apply bind_ok in E. destruct E as (l2 & _ & E).
    apply bind_ok in E. destruct E as (st1 & _ & E). apply bind_ok in E. destruct E as (st2 & _ & E). apply bind_ok in E. destruct E as (st3 & E & _).
    destruct (kid_lf s a x VA HX) as (cs' & C & VX). assert (Q := Defines_schema_child s _ cs' cs C D). subst cs'.
    assert (CY : schema_child s (xtag y) = Ok cs) by (rewrite <- HT; exact C).
    assert (UX : uid_of s x = Ok (xtag x, KNone)). { unfold uid_of. rewrite C. cbn [bind]. rewrite TY. reflexivity. }
    assert (UY : uid_of s y = Ok (xtag x, KNone)). { unfold uid_of. rewrite CY. cbn [bind]. rewrite TY, HT. reflexivity. }
    destruct (group_inv s _ _ g G) as (la & lb & IA & IB & ->). cbn [in_1_and_2] in E.
    refine (foldM_not_ok _ _ _ ((xtag x, KNone), x, y) _ _ _ _ _ E).
    + intros st r'. unfold sub_both. rewrite C. cbn [bind]. rewrite TY. discriminate.
    + apply both_in_In. destruct (Index_In s _ la x IA HX) as (u & HU). destruct (Index_In s _ lb y IB HY) as (v & HV).
      assert (u = (xtag x, KNone)) by (assert (Z := Index_uid s _ la u x IA HU); congruence). assert (v = (xtag x, KNone)) by (assert (Z := Index_uid s _ lb v y IB HV); congruence).
      subst. split; auto. apply (Index_assoc s _ lb _ y IB). exact HV.
  - destruct f as [| f]; [discriminate |]. cbn [node_sub] in E. rewrite O2 in E. cbn [bind] in E.
    apply bind_ok in E. destruct E as (g & G & E). apply bind_ok in E. destruct E as (l1 & _ & E). apply bind_ok in E. destruct E as (l2 & _ & E).
    apply bind_ok in E. destruct E as (st1 & _ & E). apply bind_ok in E. destruct E as (st2 & _ & E). apply bind_ok in E. destruct E as (st3 & E & _).
    destruct (kid_lf s a x VA HX) as (cs' & C & VX). assert (Q := Defines_schema_child s _ cs' cs C D). subst cs'.
    assert (CY : schema_child s (xtag y) = Ok cs) by (rewrite <- HT; exact C).
    destruct (kid_lf s b y VB HY) as (cs' & C' & VY). assert (Q : cs' = cs) by congruence. subst cs'.
    destruct (group_inv s _ _ g G) as (la & lb & IA & IB & ->). cbn [in_1_and_2] in E.
    refine (foldM_not_ok _ _ _ (u, x, y) _ _ _ _ _ E).
    + intros st r'. unfold sub_both. rewrite C. cbn [bind]. destruct (eq_iff cs x y VX VY HT) as (e & Q & QI). rewrite Q. cbn [bind].
      destruct e; [exfalso; apply NS, QI; reflexivity |]. destruct K as [K | K]; rewrite K; intro F; apply bind_ok in F; destruct F as (p & F & _);
        (destruct (o_type o) eqn:OT; [| | congruence]; apply (IH f o (d + 1)%Z p VX VY); auto; congruence).
    + apply both_in_In. destruct (Index_In s _ la x IA HX) as (u1 & HU). destruct (Index_In s _ lb y IB HY) as (u2 & HV).
      assert (u1 = u) by (apply (uid_Ident s x cs u u1 C (Index_uid s _ la u1 x IA HU) IX)). assert (u2 = u) by (apply (uid_Ident s y cs u u2 CY (Index_uid s _ lb u2 y IB HV) IY)).
      subst. split; auto. apply (Index_assoc s _ lb _ y IB). exact HV.
Qed.

Lemma Meets_sym : forall s a b, Meets s a b -> Meets s b a.
Proof.
  intros s a b M. induction M as [s a b x y HX HY HT O | s a b x y cs u HX HY HT D K IX IY NS M IH].
  - apply (me_here s b a y x); auto. rewrite <- HT. exact O.
  - apply (me_down s b a y x cs u); auto. { rewrite <- HT. exact D. } intro S'. apply NS. apply SameData_sym. exact S'.
Qed.

Lemma delta_or : forall o s a b, valid (as_leaves s) a = true -> valid (as_leaves s) b = true ->
  Meets s a b \/ delta_nc s (Delta a b o) = delta_nc (as_leaves s) (Delta a b o).
Proof.
  intros o s a b VA VB. assert (G : Or (Meets s b a) (delta_nc s (Delta a b o)) (delta_nc (as_leaves s) (Delta a b o))).
  { unfold delta_nc, nc_sub. cbn [d_opts d_dst d_src].
    apply bind_same; auto. destruct (o_type o); try (apply bind_same; [apply sub_apart; auto | auto]).
    destruct (Z.eqb (o_depth o) 0); [apply replace_apart; auto | apply bind_same; [apply sub_apart; auto | auto]]. }
  destruct G as [G | G]; auto. left. apply Meets_sym. exact G.
Qed.

Theorem delta_meet : forall o s a b d, valid (as_leaves s) a = true -> valid (as_leaves s) b = true -> Meets s a b ->
  o_type o <> DReplace -> o_replace o = PRMerge -> delta_nc s (Delta a b o) <> Ok d.
Proof.
  intros o s a b d VA VB M O1 O2 E. apply Meets_sym in M. unfold delta_nc, nc_sub in E. cbn [d_opts d_dst d_src] in E. apply bind_ok in E. destruct E as (e & E & _).
  assert (X : exists p, node_sub (height b) o s 0 b a = Ok p).
  { destruct (o_type o); [| | congruence]; apply bind_ok in E; destruct E as (p & E & _); eauto. }
  destruct X as (p & X). exact (sub_meet s b a M (height b) o 0%Z p VB VA O1 O2 X).
Qed.

Theorem delta_outcome : forall o s a b, wfs (as_leaves s) = true -> IsConfig (as_leaves s) a -> IsConfig (as_leaves s) b ->
  texted (as_leaves s) a = true -> texted (as_leaves s) b = true ->
  (exists d, delta_nc (as_leaves s) (Delta a b o) = Ok d /\
    (delta_nc s (Delta a b o) = Ok d \/ delta_nc s (Delta a b o) = Err ModelError) /\
    (~ Meets s a b -> delta_nc s (Delta a b o) = Ok d)) /\
  (o_type o <> DReplace -> o_replace o = PRMerge -> (delta_nc s (Delta a b o) = Err ModelError <-> Meets s a b)).
Proof.
  intros o s a b W' CA CB TA TB. assert (VA := proj1 CA). assert (VB := proj1 CB).
  assert (T : exists d, delta_nc (as_leaves s) (Delta a b o) = Ok d).
  { destruct (delta_total o (as_leaves s) a b W' CA CB) as [T | (_ & [T | T])]; [exact T | congruence | congruence]. }
  destruct T as (d & T). assert (OR := delta_or o s a b VA VB). assert (RR := delta_R o s a b). unfold R in RR. rewrite T in OR, RR. split.
  - exists d. split; auto. split; auto. intro N. destruct OR as [M | E]; [contradiction | exact E].
  - intros O1 O2. split.
    + intro E. destruct OR as [M | E']; [exact M | congruence].
    + intro M. destruct RR as [E | E]; [| exact E]. exfalso. exact (delta_meet o s a b d VA VB M O1 O2 E).
Qed.

(** ** Sums *)
Section SUM.
Variable s : snode.
Variable t : string.
Variable ot : snode.
Hypothesis OD : Defines s t ot.
Hypothesis OT : sty ot = TOther.

Lemma at_t : forall cs, schema_child s t = Ok cs -> sty cs = TOther.
Proof. intros cs C. rewrite <- (Defines_schema_child s t cs ot C OD). exact OT. Qed.

Lemma new_part : forall f l u c l', fst u = xtag c -> Tagged l -> add_new (node_add f) s l (u, c) = Ok l' -> Tagged l' /\ part t l' = part t l.
Proof.
  intros f l u c l' U G H. destruct (new_keeps t f s l u c l' H U G) as (G' & K). split; auto. destruct (String.eqb (fst u) t) eqn:E; auto.
  apply String.eqb_eq in E. rewrite U in E. unfold add_new in H. rewrite E in H.
  destruct (op_of c); try discriminate; try (assert (X : l' = l) by congruence; subst; reflexivity).
  all: apply bind_ok in H; destruct H as (cs & C & H); rewrite (at_t cs C) in H; assert (X : l' = l) by congruence; subst; reflexivity.
Qed.
Lemma peer_part : forall f l u x c l', fst u = xtag c -> xtag x = xtag c -> Tagged l -> add_peer (node_add f) s l (u, x, c) = Ok l' -> Tagged l' /\ part t l' = part t l.
Proof.
  intros f l u x c l' U X G H. destruct (peer_keeps t f s l u x c l' H U X G) as (G' & K). split; auto. destruct (String.eqb (fst u) t) eqn:E; auto.
  apply String.eqb_eq in E. unfold add_peer in H. rewrite X, <- U, E in H. apply bind_ok in H. destruct H as (cs & C & H). rewrite (at_t cs C) in H.
  assert (Y : l' = l) by congruence. subst. reflexivity.
Qed.

Lemma part_kids : forall l, Tagged l -> map snd (part t l) = filter (fun c => String.eqb (xtag c) t) (map snd l).
Proof.
  intros l G. unfold part. induction G as [| [[a b] c] r H G IH]; auto. cbn [fst snd] in H. unfold tagof in *. cbn [filter map fst snd]. rewrite H.
  destruct (String.eqb a t); cbn [map snd]; rewrite IH; reflexivity.
Qed.

Lemma sum_part : forall f x y r, node_add f s x y = Ok r ->
  filter (fun c => String.eqb (xtag c) t) (xkids r) = filter (fun c => String.eqb (xtag c) t) (xkids x).
Proof.
  intros [| f] x y r H; [discriminate |]. cbn [node_add] in H. apply bind_ok in H. destruct H as (g & G & H). apply bind_ok in H. destruct H as (l0 & L0 & H).
  apply bind_ok in H. destruct H as (l1 & H1 & H). apply bind_ok in H. destruct H as (l2 & H2 & H). assert (X : r = set_kids (map snd l2) x) by congruence. subst r. clear H.
  assert (PE : forall u a b, In (u, a, b) (in_1_and_2 g) -> fst u = xtag b /\ xtag a = xtag b).
  { intros u a b I. destruct (peers_In s x y g u a b G I) as (_ & _ & T & U & _). apply uid_tag in U. split; congruence. }
  destruct (group_inv s _ _ g G) as (la & lb & IA & IB & ->). cbn [in_2_not_1 in_1_and_2] in *. apply index_ok in L0.
  assert (NE : forall u b, In (u, b) (only_in lb la) -> fst u = xtag b).
  { intros u b I. apply only_in_In in I. apply (Index_tag s (xkids y) lb); tauto. }
  assert (Q0 : Tagged l0 /\ part t l0 = part t l0) by (split; auto; apply (Index_Tagged s (xkids x)); exact L0).
  assert (Q1 : Tagged l1 /\ part t l1 = part t l0).
  { refine (foldM_inv_ok (add_new (node_add f) s) (fun _ l => Tagged l /\ part t l = part t l0) _ l0 l1 Q0 _ H1).
    intros done [u c] rest l l' E (T & P) HS. rewrite <- P. apply (new_part f l u c l'); auto. apply NE. rewrite E. apply in_or_app. right. left. reflexivity. }
  assert (Q2 : Tagged l2 /\ part t l2 = part t l0).
  { refine (foldM_inv_ok (add_peer (node_add f) s) (fun _ l => Tagged l /\ part t l = part t l0) _ l1 l2 Q1 _ H2).
    intros done [[u a] c] rest l l' E (T & P) HS. rewrite <- P. destruct (PE u a c) as (E1 & E2); [rewrite E; apply in_or_app; right; left; reflexivity |]. apply (peer_part f l u a c l'); auto. }
  replace (xkids (set_kids (map snd l2) x)) with (map snd l2) by (destruct x; reflexivity). rewrite <- part_kids by tauto. rewrite (proj2 Q2), part_kids by tauto.
  rewrite (proj1 L0). reflexivity.
Qed.
End SUM.

Theorem sum_opaque : forall s x y r t, nc_add s x y = Ok r -> Opaque s t ->
  filter (fun c => String.eqb (xtag c) t) (xkids r) = filter (fun c => String.eqb (xtag c) t) (xkids x).
Proof. intros s x y r t H (ot & D & O). exact (sum_part s t ot D O (height y) x y r H). Qed.
