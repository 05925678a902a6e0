(** Layout in containers: deltas against LayoutSpec.v. *)
From Coq Require Import String Ascii List Bool Arith ZArith Lia.
From Verif Require Import Base BaseP XmlM CalcM CalcP NetconfM ConfigM DataSpec DataP DeltaSpec NameP WorkP LayoutSpec LayoutP.
From Verif Require AlikeMarkP.
Import ListNotations.
Open Scope string_scope.
Open Scope list_scope.

Lemma set_un : forall n v s x, set_attr n v (unspaced s x) = unspaced s (set_attr n v x).
Proof. intros n v s [t tx a k]. reflexivity. Qed.
Lemma set_tag' : forall n v x, xtag (set_attr n v x) = xtag x.
Proof. intros n v [t tx a k]. reflexivity. Qed.
Lemma pop_tag' : forall n x, xtag (pop_attr n x) = xtag x.
Proof. intros n [t tx a k]. reflexivity. Qed.
Lemma set_us : forall n v s c, set_attr n v (us s c) = us s (set_attr n v c).
Proof. intros n v s c. unfold us. rewrite set_tag'. destruct (schema_child s (xtag c)); auto. apply set_un. Qed.
Lemma pop_us : forall n s c, pop_attr n (us s c) = us s (pop_attr n c).
Proof. intros n s c. unfold us. rewrite pop_tag'. destruct (schema_child s (xtag c)); auto. destruct c; reflexivity. Qed.

Lemma create_un : forall x s, set_create s (unspaced s x) = on_ok (unspaced s) (set_create s x).
Proof.
  intro x. induction x as [t tx a ks IH] using xml_ind'. intro s. rewrite un_eq. cbn [set_create]. destruct (np_container s) eqn:N.
  2: { cbn [on_ok]. change (Elem t (match sty s with TContainer => None | _ => tx end) a (map (us s) ks)) with (unspaced s (Elem t tx a ks)). rewrite set_un. reflexivity. }
  assert (G : forall dp, (fix go (l : list xml) : res (list xml) := match l with [] => Ok [] | c :: r => let! ce := schema_entry s (xtag c) in
        let! c' := if mem pos_eqb (ce_pos ce) dp then Ok c else set_create (ce_node ce) c in let! r' := go r in Ok (c' :: r') end) (map (us s) ks) =
      on_ok (map (us s)) ((fix go (l : list xml) : res (list xml) := match l with [] => Ok [] | c :: r => let! ce := schema_entry s (xtag c) in
        let! c' := if mem pos_eqb (ce_pos ce) dp then Ok c else set_create (ce_node ce) c in let! r' := go r in Ok (c' :: r') end) ks)).
  { intro dp. induction ks as [| c r IHr]; [reflexivity |]. inversion IH; subst. cbn [map]. rewrite us_tag. destruct (schema_entry s (xtag c)) as [ce |] eqn:E; cbn [bind on_ok]; auto.
    assert (C : schema_child s (xtag c) = Ok (ce_node ce)) by (apply schema_child_entry; eauto).
    assert (X : (if mem pos_eqb (ce_pos ce) dp then Ok (us s c) else set_create (ce_node ce) (us s c)) = on_ok (us s) (if mem pos_eqb (ce_pos ce) dp then Ok c else set_create (ce_node ce) c)).
    { destruct (mem pos_eqb (ce_pos ce) dp); auto. rewrite (us_ok s c _ C), H1. destruct (set_create (ce_node ce) c) as [c' |] eqn:SC; cbn [on_ok]; auto.
      apply AlikeMarkP.set_create_tag in SC. rewrite (us_ok s c' (ce_node ce)) by congruence. reflexivity. }
    rewrite X. destruct (if mem pos_eqb (ce_pos ce) dp then Ok c else set_create (ce_node ce) c); cbn [bind on_ok]; auto. rewrite (IHr H2).
    match goal with |- context [on_ok (map (us s)) ?g] => destruct g as [r' |] end; reflexivity. }
  rewrite G. match goal with |- context [on_ok (map (us s)) ?g] => destruct g as [r' |] end; reflexivity.
Qed.

Lemma key_elem : forall cs k tx, wfs cs = true -> sty cs = TList -> In k (s_keys (si cs)) -> us cs (Elem k tx [] []) = Elem k tx [] [].
Proof. intros cs k tx W' T K. apply (key_text cs k (Elem k tx [] []) W' T K eq_refl). reflexivity. Qed.
Lemma del_keys_un : forall cs x, wfs cs = true -> sty cs = TList -> del_keys cs (unspaced cs x) = on_ok (map (us cs)) (del_keys cs x).
Proof.
  intros cs x W' T. unfold del_keys. rewrite un_kids. rewrite <- (map_id (s_keys (si cs))) at 1. apply mapM_on. intros k K. rewrite find_kid_us.
  destruct (find_kid k (xkids x)) as [kn |] eqn:F; cbn [option_map on_ok]; auto. apply find_kid_tag in F. rewrite key_elem by auto. rewrite (proj1 (key_text cs k kn W' T K F)). reflexivity.
Qed.
Lemma del_kids_un : forall x s, wfs s = true -> del_kids s (unspaced s x) = on_ok (map (us s)) (del_kids s x).
Proof.
  intro x. induction x as [t tx a ks IH] using xml_ind'. intros s W'. rewrite un_eq. cbn [del_kids]. induction ks as [| c r IHr]; [reflexivity |]. inversion IH; subst. cbn [map].
  rewrite us_tag. destruct (schema_child s (xtag c)) as [cs |] eqn:C; cbn [bind on_ok]; auto. assert (WC := wfs_child s _ cs W' C).
  match goal with |- bind ?d1 ?k1 = on_ok _ (bind ?d2 ?k2) => assert (X : d1 = on_ok (us s) d2) end.
  { rewrite (us_ok s c cs C).
    assert (L : forall at_ kk, us s (Elem (xtag c) None at_ kk) = Elem (xtag c) None at_ (map (us cs) kk)) by (intros at_ kk; rewrite (us_ok s (Elem (xtag c) None at_ kk) cs C), un_eq; destruct (sty cs); reflexivity).
    assert (D : (if np_container cs then let! kk := del_kids cs (unspaced cs c) in Ok (Elem (xtag c) None [] kk) else Ok (Elem (xtag c) None [(operation_tag, "delete")] [])) =
      on_ok (us s) (if np_container cs then let! kk := del_kids cs c in Ok (Elem (xtag c) None [] kk) else Ok (Elem (xtag c) None [(operation_tag, "delete")] []))).
    { destruct (np_container cs); [rewrite H1 by auto; destruct (del_kids cs c); cbn [bind on_ok]; auto; rewrite L; reflexivity | cbn [on_ok]; rewrite L; reflexivity]. }
    destruct (sty cs) eqn:T; auto.
    - cbn [on_ok]. rewrite (us_ok s (Elem (xtag c) (xtext c) [(operation_tag, "delete")] []) cs C), un_eq, T, un_text by congruence. reflexivity.
    - rewrite del_keys_un by auto. destruct (del_keys cs c); cbn [bind on_ok]; auto. rewrite L. reflexivity. }
  rewrite X. apply bind_on. intros d _. rewrite (IHr H2). apply bind_on. intros r' _. reflexivity.
Qed.
Lemma mk_del_us : forall o s c cs, wfs s = true -> schema_child s (xtag c) = Ok cs -> mk_del o cs (us s c) = on_ok (us s) (mk_del o cs c).
Proof.
  intros o s c cs W' C. unfold mk_del. rewrite us_tag. assert (WC := wfs_child s _ cs W' C). rewrite (us_ok s c cs C).
  assert (L : forall at_ kk, us s (Elem (xtag c) None at_ kk) = Elem (xtag c) None at_ (map (us cs) kk)) by (intros at_ kk; rewrite (us_ok s (Elem (xtag c) None at_ kk) cs C), un_eq; destruct (sty cs); reflexivity).
  assert (D : forall b : bool, (if b then let! kk := del_kids cs (unspaced cs c) in Ok (Elem (xtag c) None [] kk) else Ok (Elem (xtag c) None [(operation_tag, del_op o)] [])) =
      on_ok (us s) (if b then let! kk := del_kids cs c in Ok (Elem (xtag c) None [] kk) else Ok (Elem (xtag c) None [(operation_tag, del_op o)] []))).
  { intros [|]; [rewrite del_kids_un by auto; destruct (del_kids cs c); cbn [bind on_ok]; auto; rewrite L; reflexivity | cbn [on_ok]; rewrite L; reflexivity]. }
  destruct (sty cs) eqn:T; auto.
  - cbn [on_ok]. rewrite (us_ok s (Elem (xtag c) (xtext c) [(operation_tag, del_op o)] []) cs C), un_eq, T, un_text by congruence. reflexivity.
  - rewrite del_keys_un by auto. destruct (del_keys cs c); cbn [bind on_ok]; auto. rewrite L. reflexivity.
Qed.
Lemma mark_us : forall o s c cs, schema_child s (xtag c) = Ok cs -> mark_create o cs (us s c) = on_ok (us s) (mark_create o cs c).
Proof.
  intros o s c cs C. unfold mark_create. destruct (o_create o); cbn [on_ok]; auto; [| rewrite set_us; reflexivity].
  rewrite (us_ok s c cs C), create_un. destruct (set_create cs c) as [c' |] eqn:E; cbn [on_ok]; auto. apply AlikeMarkP.set_create_tag in E. rewrite (us_ok s c' cs) by congruence. reflexivity.
Qed.

(** ** Working lists *)
Definition uw (s : snode) (w : went) : went := W (w_orig w) (w_uid w) (us s (w_xml w)).
Lemma w_tag_uw : forall s t w, w_tag t (uw s w) = w_tag t w.
Proof. intros s t w. unfold w_tag, uw. cbn [w_xml]. rewrite us_tag. reflexivity. Qed.
Lemma w_upd_uw : forall s u x l, w_upd u (us s x) (map (uw s) l) = map (uw s) (w_upd u x l).
Proof. intros s u x l. unfold w_upd. rewrite !map_map. apply map_ext. intro w. cbn [uw w_uid w_orig]. destruct (uid_eqb u (w_uid w)); reflexivity. Qed.
Lemma w_del_uw : forall s u l, w_del u (map (uw s) l) = map (uw s) (w_del u l).
Proof. intros s u l. unfold w_del. induction l as [| w r IH]; [reflexivity |]. cbn [map filter uw w_uid]. destruct (negb (uid_eqb u (w_uid w))); cbn [map]; rewrite IH; reflexivity. Qed.
Lemma w_init_uw : forall s l, w_init (map (ue s) l) = map (uw s) (w_init l).
Proof. intros s l. unfold w_init. rewrite !map_map. reflexivity. Qed.
Lemma w_ins_uw : forall s t u d l, ins_after_last (w_tag t) (W false u (us s d)) (map (uw s) l) = map (uw s) (ins_after_last (w_tag t) (W false u d) l).
Proof. intros s t u d l. change (W false u (us s d)) with (uw s (W false u d)). apply ins_last_on. apply w_tag_uw. Qed.
Lemma w_xml_uw : forall s l, map w_xml (map (uw s) l) = map (us s) (map w_xml l).
Proof. intros s l. rewrite !map_map. reflexivity. Qed.

Lemma pred_un : forall cs p keys, wfs cs = true -> sty cs = TList -> (forall k, In k keys -> In k (s_keys (si cs))) -> pred_string keys (unspaced cs p) = pred_string keys p.
Proof.
  intros cs p keys W' T. induction keys as [| k r IH]; intro K; [reflexivity |]. cbn [pred_string]. rewrite un_kids, find_kid_us. destruct (find_kid k (xkids p)) as [kn |] eqn:F; cbn [option_map]; auto.
  rewrite IH by (intros; apply K; right; auto). apply find_kid_tag in F. rewrite (proj1 (key_text cs k kn W' T (K k (or_introl eq_refl)) F)). reflexivity.
Qed.

Lemma seq_uw : forall s t cs, wfs s = true -> schema_child s t = Ok cs -> is_user_seq cs = true ->
  forall l prev, (forall p, prev = Some p -> xtag p = t) ->
  seq_attrs t (kind_of cs) (option_map (us s) prev) (map (uw s) l) = on_ok (map (uw s)) (seq_attrs t (kind_of cs) prev l).
Proof.
  intros s t cs W' C U l. assert (WC := wfs_child s _ cs W' C). induction l as [| w r IH]; intros prev HP; [reflexivity |]. cbn [map seq_attrs]. rewrite w_tag_uw. cbn [uw w_orig w_xml w_uid].
  destruct (w_orig w && w_tag t w) eqn:E.
  2: { rewrite IH by exact HP. apply bind_on. intros r' _. reflexivity. }
  apply andb_true_iff in E. destruct E as (_ & E). unfold w_tag in E. apply String.eqb_eq in E.
  match goal with |- bind ?d1 ?k1 = on_ok _ (bind ?d2 ?k2) => assert (X : d1 = on_ok (us s) d2) end.
  { destruct prev as [p |]; cbn [option_map on_ok]; [| rewrite set_us; reflexivity]. assert (TP := HP p eq_refl). assert (CP : schema_child s (xtag p) = Ok cs) by congruence.
    unfold kind_of. unfold is_user_seq in U. destruct (s_user (si cs)); [| discriminate]. destruct (sty cs) eqn:T; try discriminate.
    - rewrite (us_leaf s p cs CP) by congruence. destruct (xtext p); cbn [on_ok]; auto. rewrite !set_us. reflexivity.
    - rewrite (us_ok s p cs CP), pred_un by auto. destruct (pred_string (s_keys (si cs)) p); cbn [bind on_ok]; auto. rewrite !set_us. reflexivity. }
  rewrite X. apply bind_on. intros x' _. assert (I2 := IH (Some (w_xml w))). cbn [option_map] in I2. rewrite I2 by congruence. apply bind_on. intros r' _. reflexivity.
Qed.
Lemma all_uw : forall s m l, wfs s = true -> ObuOK s m -> all_seq_attrs m (map (uw s) l) = on_ok (map (uw s)) (all_seq_attrs m l).
Proof.
  intros s m l W' H. unfold all_seq_attrs. rewrite <- (map_id m) at 1. apply fold_on. intros l' [t k] I. cbn [fst snd]. destruct (H t k I) as (cs & C & U & ->).
  apply (seq_uw s t cs W' C U l' None). discriminate.
Qed.

(** ** The loops of get_config_replace and node_sub *)
Definition ur (s : snode) (st : rstate) : rstate := RState (map (uw s) (r_self st)) (r_obu st).
Definition ut (s : snode) (st : sstate) : sstate := SState (map (uw s) (ss_self st)) (map (uw s) (ss_other st)) (ss_obu st) (ss_cho st).
Definition u2 (s : snode) (p : xml * xml) : xml * xml := (unspaced s (fst p), unspaced s (snd p)).

Section STEPS.
Variable o : opts.
Variable s : snode.
Hypothesis WS : wfs s = true.

Lemma ros_u : forall st p, repl_only_self s (ur s st) (ue s p) = on_ok (ur s) (repl_only_self s st p).
Proof.
  intros st [u c]. unfold repl_only_self. cbn [ue fst snd]. rewrite us_tag. destruct (schema_child s (xtag c)) as [cs |] eqn:C; cbn [bind on_ok]; auto.
  rewrite set_us. unfold ur. cbn [r_self r_obu]. rewrite w_upd_uw. reflexivity.
Qed.
Lemma roo_u : forall st p, repl_only_other o s (ur s st) (ue s p) = on_ok (ur s) (repl_only_other o s st p).
Proof.
  intros st [u c]. unfold repl_only_other. cbn [ue fst snd]. rewrite us_tag. destruct (schema_child s (xtag c)) as [cs |] eqn:C; cbn [bind on_ok]; auto.
  rewrite (mk_del_us o s c cs WS C). apply bind_on. intros d _. unfold ur. cbn [on_ok r_self r_obu]. rewrite w_ins_uw. reflexivity.
Qed.
Lemma rb_u : forall st u a b, xtag b = xtag a -> repl_both s (ur s st) (up s (u, a, b)) = on_ok (ur s) (repl_both s st (u, a, b)).
Proof.
  intros st u a b TG. unfold repl_both. cbn [up fst snd]. cbv zeta. rewrite us_tag. destruct (schema_child s (xtag a)) as [cs |] eqn:C; cbn [bind on_ok]; auto.
  assert (CB : schema_child s (xtag b) = Ok cs) by congruence. assert (WC := wfs_child s _ cs WS C). unfold ur. cbn [r_self r_obu].
  assert (EQ : node_eq cs (set_attr operation_tag "replace" (us s a)) (set_attr operation_tag "replace" (us s b)) = node_eq cs (set_attr operation_tag "replace" a) (set_attr operation_tag "replace" b)).
  { rewrite (us_ok s a cs C), (us_ok s b cs CB), !set_un. apply eq_un. exact WC. }
  assert (ST : same_text cs (us s a) (us s b) = same_text cs a b) by (rewrite (us_ok s a cs C), (us_ok s b cs CB); apply same_un).
  rewrite EQ, ST, !set_us, pop_us, !w_upd_uw, w_del_uw. clear EQ ST. destruct (sty cs); auto.
  - destruct (same_text cs a b) as [e |]; cbn [bind on_ok]; auto. destruct e, (s_is_key (si cs)); reflexivity.
  - destruct (s_user (si cs)); reflexivity.
  - destruct (node_eq cs _ _) as [e |]; cbn [bind on_ok]; auto. destruct e; reflexivity.
  - destruct (node_eq cs _ _) as [e |]; cbn [bind on_ok]; auto. destruct (e && negb (s_user (si cs))); reflexivity.
Qed.

Lemma sos_u : forall st p, sub_only_self o s (ut s st) (ue s p) = on_ok (ut s) (sub_only_self o s st p).
Proof.
  intros st [u c]. unfold sub_only_self. cbn [ue fst snd]. cbv zeta. rewrite us_tag. destruct (schema_entry s (xtag c)) as [ce |] eqn:E; cbn [bind on_ok]; auto.
  assert (C : schema_child s (xtag c) = Ok (ce_node ce)) by (apply schema_child_entry; eauto). rewrite (mark_us o s c _ C), (mk_del_us o s c _ WS C), set_us.
  assert (X : match o_type o with DReplace => Ok (us s (set_attr operation_tag "replace" c)) | _ => on_ok (us s) (mark_create o (ce_node ce) c) end =
    on_ok (us s) match o_type o with DReplace => Ok (set_attr operation_tag "replace" c) | _ => mark_create o (ce_node ce) c end) by (destruct (o_type o); reflexivity).
  rewrite X. apply bind_on. intros c' _. apply bind_on. intros d _. unfold ut. cbn [on_ok ss_self ss_other ss_obu ss_cho]. rewrite w_ins_uw, w_upd_uw. reflexivity.
Qed.
Lemma soo_u : forall st p, sub_only_other o s (ut s st) (ue s p) = on_ok (ut s) (sub_only_other o s st p).
Proof.
  intros st [u c]. unfold sub_only_other. cbn [ue fst snd]. cbv zeta. rewrite us_tag. destruct (schema_entry s (xtag c)) as [ce |] eqn:E; cbn [bind on_ok]; auto.
  assert (C : schema_child s (xtag c) = Ok (ce_node ce)) by (apply schema_child_entry; eauto). rewrite (mark_us o s c _ C), (mk_del_us o s c _ WS C).
  apply bind_on. intros c' _. apply bind_on. intros d _. unfold ut. cbn [on_ok ss_self ss_other ss_obu ss_cho].
  rewrite (existsb_on _ (uw s)) by (apply w_tag_uw). rewrite w_ins_uw, w_upd_uw. destruct (existsb (w_tag (xtag c)) (ss_self st) || case_allows ce (ss_cho st)); reflexivity.
Qed.

Lemma strip_un : forall cs x, strip_to_keys cs (unspaced cs x) = on_ok (unspaced cs) (strip_to_keys cs x).
Proof.
  intros cs x. unfold strip_to_keys. rewrite un_kids.
  rewrite (mapM_on _ _ _ _ (map (us cs)) (us cs) (fun c => let! kc := schema_child cs (xtag c) in Ok (if s_is_key (si kc) then [c] else []))).
  2: { intros c _. rewrite us_tag. destruct (schema_child cs (xtag c)) as [kc |]; cbn [bind on_ok]; auto. destruct (s_is_key (si kc)); reflexivity. }
  apply bind_on. intros ks _. cbn [on_ok]. rewrite <- concat_map. destruct x as [t tx a k]. reflexivity.
Qed.
Lemma strip_tag : forall cs x y, strip_to_keys cs x = Ok y -> xtag y = xtag x.
Proof. intros cs x y H. unfold strip_to_keys in H. apply bind_ok in H. destruct H as (ks & _ & H). assert (X : y = set_kids (concat ks) x) by congruence. subst. destruct x; reflexivity. Qed.

Lemma sb_u : forall rec st u a b, xtag b = xtag a ->
  (forall cs, wfs cs = true -> rec cs (unspaced cs a) (unspaced cs b) = on_ok (u2 cs) (rec cs a b)) ->
  (forall cs p, rec cs a b = Ok p -> xtag (fst p) = xtag a /\ xtag (snd p) = xtag b) ->
  sub_both o rec s (ut s st) (up s (u, a, b)) = on_ok (ut s) (sub_both o rec s st (u, a, b)).
Proof.
  intros rec st u a b TG RC RT. unfold sub_both. cbn [up fst snd]. cbv zeta. rewrite us_tag. destruct (schema_child s (xtag a)) as [cs |] eqn:C; cbn [bind on_ok]; auto.
  assert (CB : schema_child s (xtag b) = Ok cs) by congruence. assert (WC := wfs_child s _ cs WS C). unfold ut at 1 2 3 4 5 6 7 8 9 10. cbn [ss_self ss_other ss_obu ss_cho].
  assert (EQ : node_eq cs (us s a) (us s b) = node_eq cs a b) by (rewrite (us_ok s a cs C), (us_ok s b cs CB); apply eq_un; exact WC).
  assert (ST : same_text cs (us s a) (us s b) = same_text cs a b) by (rewrite (us_ok s a cs C), (us_ok s b cs CB); apply same_un).
  assert (PUT : forall (m : obu), forall x y, Ok (SState (w_upd u (us s x) (map (uw s) (ss_self st))) (w_upd u (us s y) (map (uw s) (ss_other st))) m (ss_cho st)) =
    on_ok (ut s) (Ok (SState (w_upd u x (ss_self st)) (w_upd u y (ss_other st)) m (ss_cho st)))) by (intros m x y; unfold ut; cbn [on_ok ss_self ss_other ss_obu ss_cho]; rewrite !w_upd_uw; reflexivity).
  assert (DROP : forall (m : obu), Ok (SState (w_del u (map (uw s) (ss_self st))) (w_del u (map (uw s) (ss_other st))) m (ss_cho st)) =
    on_ok (ut s) (Ok (SState (w_del u (ss_self st)) (w_del u (ss_other st)) m (ss_cho st)))) by (intro m; unfold ut; cbn [on_ok ss_self ss_other ss_obu ss_cho]; rewrite !w_del_uw; reflexivity).
  assert (REC : forall m : obu, (let! ab := rec cs (us s a) (us s b) in Ok (SState (w_upd u (fst ab) (map (uw s) (ss_self st))) (w_upd u (snd ab) (map (uw s) (ss_other st))) m (ss_cho st))) =
    on_ok (ut s) (let! ab := rec cs a b in Ok (SState (w_upd u (fst ab) (ss_self st)) (w_upd u (snd ab) (ss_other st)) m (ss_cho st)))).
  { intro m. rewrite (us_ok s a cs C), (us_ok s b cs CB), (RC cs WC). apply bind_on. intros [x y] E. destruct (RT cs _ E) as (T1 & T2). cbn [fst snd u2] in *.
    rewrite <- (us_ok s x cs) by congruence. rewrite <- (us_ok s y cs) by congruence. apply PUT. }
  rewrite EQ, ST. clear EQ ST. destruct (sty cs); auto.
  - destruct (same_text cs a b) as [e |]; cbn [bind on_ok]; auto. destruct e; [destruct (s_is_key (si cs)); [reflexivity | apply DROP] |]. destruct (o_replace o); [reflexivity |]. rewrite !set_us. apply PUT.
  - destruct (s_user (si cs)); [apply PUT | apply DROP].
  - destruct (node_eq cs a b) as [e |]; cbn [bind on_ok]; auto. destruct e; [apply DROP | apply REC].
  - destruct (node_eq cs a b) as [e |]; cbn [bind on_ok]; auto. destruct e; [| apply REC]. destruct (s_user (si cs)); [| apply DROP].
    rewrite (us_ok s a cs C), (us_ok s b cs CB), !strip_un. apply bind_on. intros a' E1. apply bind_on. intros b' E2. apply strip_tag in E1, E2.
    rewrite <- (us_ok s a' cs) by congruence. rewrite <- (us_ok s b' cs) by congruence. apply PUT.
Qed.

(** What the loops record of user-ordered siblings *)
Lemma ros_ob : forall st p st', repl_only_self s st p = Ok st' -> ObuOK s (r_obu st) -> ObuOK s (r_obu st').
Proof.
  intros st [u c] st' H OB. unfold repl_only_self in H. apply bind_ok in H. destruct H as (cs & C & H). assert (X := f_equal (fun r => match r with Ok a => r_obu a | _ => [] end) H). cbn [r_obu] in X. rewrite <- X. apply (ObuOK_add s (xtag c) cs); auto.
Qed.
Lemma roo_ob : forall st p st', repl_only_other o s st p = Ok st' -> ObuOK s (r_obu st) -> ObuOK s (r_obu st').
Proof.
  intros st [u c] st' H OB. unfold repl_only_other in H. apply bind_ok in H. destruct H as (cs & C & H). apply bind_ok in H. destruct H as (d & _ & H).
  assert (X := f_equal (fun r => match r with Ok a => r_obu a | _ => [] end) H). cbn [r_obu] in X. rewrite <- X. exact OB.
Qed.
Lemma rb_ob : forall st p st', repl_both s st p = Ok st' -> ObuOK s (r_obu st) -> ObuOK s (r_obu st').
Proof.
  intros st [[u a] b] st' H OB. unfold repl_both in H. cbv zeta in H. apply bind_ok in H. destruct H as (cs & C & H). assert (OA := ObuOK_add s _ cs _ OB C).
  assert (G : forall l m, Ok (RState l m) = Ok st' -> ObuOK s m -> ObuOK s (r_obu st')) by (intros l m E M; assert (X : st' = RState l m) by congruence; subst; exact M).
  destruct (sty cs); try discriminate; try (apply bind_ok in H; destruct H as (e & _ & H));
    repeat match goal with H : context [if ?x then _ else _] |- _ => destruct x end; try solve [apply (G _ _ H); auto].
Qed.
Lemma sos_ob : forall st p st', sub_only_self o s st p = Ok st' -> ObuOK s (ss_obu st) -> ObuOK s (ss_obu st').
Proof.
  intros st [u c] st' H OB. unfold sub_only_self in H. cbv zeta in H. apply bind_ok in H. destruct H as (ce & C & H). apply bind_ok in H. destruct H as (c' & _ & H). apply bind_ok in H. destruct H as (d & _ & H).
  assert (X := f_equal (fun r => match r with Ok a => ss_obu a | _ => [] end) H). cbn [ss_obu] in X. rewrite <- X. apply (ObuOK_add s (xtag c)); auto. apply schema_child_entry. eauto.
Qed.
Lemma soo_ob : forall st p st', sub_only_other o s st p = Ok st' -> ObuOK s (ss_obu st) -> ObuOK s (ss_obu st').
Proof.
  intros st [u c] st' H OB. unfold sub_only_other in H. cbv zeta in H. apply bind_ok in H. destruct H as (ce & C & H). apply bind_ok in H. destruct H as (c' & _ & H). apply bind_ok in H. destruct H as (d & _ & H).
  assert (X := f_equal (fun r => match r with Ok a => ss_obu a | _ => [] end) H). cbn [ss_obu] in X. rewrite <- X. apply (ObuOK_add s (xtag c)); auto. apply schema_child_entry. eauto.
Qed.
Lemma sb_ob : forall rec st p st', sub_both o rec s st p = Ok st' -> ObuOK s (ss_obu st) -> ObuOK s (ss_obu st').
Proof.
  intros rec st [[u a] b] st' H OB. unfold sub_both in H. cbv zeta in H. apply bind_ok in H. destruct H as (cs & C & H). assert (OA := ObuOK_add s _ cs _ OB C).
  assert (G : forall l k m n, Ok (SState l k m n) = Ok st' -> ObuOK s m -> ObuOK s (ss_obu st')) by (intros l k m n E M; assert (X : st' = SState l k m n) by congruence; subst; exact M).
  destruct (sty cs); try discriminate; try (apply bind_ok in H; destruct H as (e & _ & H));
    repeat match goal with H : context [if ?x then _ else _] |- _ => destruct x end; try solve [apply (G _ _ _ _ H); auto]; try solve [assert (st' = st) by congruence; subst; exact OB].
  - apply bind_ok in H. destruct H as (ab & _ & H). apply (G _ _ _ _ H); auto.
  - apply bind_ok in H. destruct H as (a' & _ & H). apply bind_ok in H. destruct H as (b' & _ & H). apply (G _ _ _ _ H); auto.
  - apply bind_ok in H. destruct H as (ab & _ & H). apply (G _ _ _ _ H); auto.
Qed.
End STEPS.

Lemma fold_keeps : forall A B (f : A -> B -> res A) (P : A -> Prop), (forall a b a', f a b = Ok a' -> P a -> P a') -> forall l a a', foldM f a l = Ok a' -> P a -> P a'.
Proof.
  intros A B f P H l. induction l as [| b r IH]; intros a a' E Pa; cbn [foldM] in E; [congruence |]. apply bind_ok in E. destruct E as (a1 & E1 & E). apply (IH a1 a' E). apply (H a b a1 E1 Pa).
Qed.

Lemma kids_un : forall s ls x, set_kids (map (us s) ls) (unspaced s x) = unspaced s (set_kids ls x).
Proof. intros s ls [t tx a k]. reflexivity. Qed.

Lemma replace_un : forall o s a b, wfs s = true -> config_replace o s (unspaced s a) (unspaced s b) = on_ok (unspaced s) (config_replace o s a b).
Proof.
  intros o s a b W'. unfold config_replace. rewrite !un_kids, group_us, index_us by auto.
  destruct (index_kids s (xkids a)) as [la |] eqn:X; [| unfold group_kids, pair_children; rewrite X; reflexivity].
  destruct (index_kids s (xkids b)) as [lb |] eqn:Y; [| unfold group_kids, pair_children; rewrite X, Y; reflexivity].
  apply index_ok in X, Y. rewrite (group_ok s _ _ _ _ X Y). cbn [on_ok bind ug in_2_not_1 in_1_and_2 in_1_not_2]. rewrite w_init_uw.
  change (RState (map (uw s) (w_init la)) []) with (ur s (RState (w_init la) [])).
  rewrite (fold_on _ _ _ _ (ur s) (ue s) (repl_only_self s)) by (intros; apply ros_u). apply bind_on. intros st1 E1.
  rewrite (fold_on _ _ _ _ (ur s) (ue s) (repl_only_other o s)) by (intros; apply roo_u; exact W'). apply bind_on. intros st2 E2.
  rewrite (fold_on _ _ _ _ (ur s) (up s) (repl_both s)).
  2: { intros st [[u x] y] I. apply both_in_In in I. destruct I as (I1 & I2). apply (Index_assoc s _ lb u y Y) in I2. apply rb_u; auto.
       apply (Index_tag s _ la u x X) in I1. apply (Index_tag s _ lb u y Y) in I2. congruence. }
  apply bind_on. intros st3 E3. assert (OB : ObuOK s (r_obu st3)).
  { apply (fold_keeps _ _ _ (fun st => ObuOK s (r_obu st)) (rb_ob s) _ _ _ E3). apply (fold_keeps _ _ _ (fun st => ObuOK s (r_obu st)) (roo_ob o s) _ _ _ E2).
    apply (fold_keeps _ _ _ (fun st => ObuOK s (r_obu st)) (ros_ob s) _ _ _ E1). intros t k []. }
  cbn [ur r_self r_obu]. rewrite all_uw by auto. apply bind_on. intros l _. cbn [on_ok]. rewrite w_xml_uw, kids_un. reflexivity.
Qed.

Lemma differ_us : forall s l1 l2, leaf_lists_differ s (map (us s) l1) (map (us s) l2) = leaf_lists_differ s l1 l2.
Proof.
  intros s l1 l2. unfold leaf_lists_differ.
  assert (T : forall l, leaf_list_tags s (map (us s) l) = leaf_list_tags s l).
  { intro l. unfold leaf_list_tags. f_equal. induction l as [| c r IH]; [reflexivity |]. cbn [map mapM]. rewrite us_tag, IH. reflexivity. }
  rewrite !T. destruct (leaf_list_tags s l1) as [t1 |] eqn:T1; cbn [bind]; auto. destruct (leaf_list_tags s l2) as [t2 |]; cbn [bind]; auto. f_equal. apply mapM_ext. intros t It.
  unfold same_leaf_list. destruct (schema_child s t) as [cs |] eqn:C; cbn [bind]; auto.
  assert (V : forall l, map (parse_text cs) (kids_tagged t (map (us s) l)) = map (parse_text cs) (kids_tagged t l)).
  { intro l. rewrite kids_tagged_us, map_map. apply map_ext_in. intros d D. unfold kids_tagged in D. apply filter_In in D. destruct D as (_ & D). apply String.eqb_eq in D.
    rewrite (us_ok s d cs) by congruence. apply parse_un. }
  rewrite !V. reflexivity.
Qed.

Lemma replace_tag : forall o s a b r, config_replace o s a b = Ok r -> xtag r = xtag a.
Proof.
  intros o s a b r H. unfold config_replace in H. do 6 (apply bind_ok in H; destruct H as (? & _ & H)). match type of H with Ok ?y = _ => assert (X : r = y) by congruence end. subst. destruct a; reflexivity.
Qed.
Lemma sub_tag : forall f o s d a b p, node_sub f o s d a b = Ok p -> xtag (fst p) = xtag a /\ xtag (snd p) = xtag b.
Proof.
  intros f o s d a b p H. destruct f; cbn [node_sub] in H; [discriminate |]. cbv zeta in H. apply bind_ok in H. destruct H as (df & _ & H). destruct df.
  - match type of H with Ok ?y = _ => assert (X : p = y) by congruence end. subst. cbn [fst snd]. rewrite !set_tag'. auto.
  - do 8 (apply bind_ok in H; destruct H as (? & _ & H)). match type of H with Ok ?y = _ => assert (X : p = y) by congruence end. subst. cbn [fst snd]. destruct a, b; auto.
Qed.

Lemma sub_un : forall f o s d a b, wfs s = true -> node_sub f o s d (unspaced s a) (unspaced s b) = on_ok (u2 s) (node_sub f o s d a b).
Proof.
  intro f. induction f as [| f IH]; intros o s d a b W'; [reflexivity |]. cbn [node_sub]. cbv zeta. rewrite !un_kids, differ_us, group_us, !index_us by auto.
  match goal with |- bind ?x _ = on_ok _ (bind ?x _) => destruct x as [df |] end; cbn [bind on_ok]; auto.
  destruct df. { cbn [on_ok u2 fst snd]. unfold u2. cbn [fst snd]. rewrite !set_un. reflexivity. }
  destruct (index_kids s (xkids a)) as [la |] eqn:X; [| unfold group_kids, pair_children; rewrite X; reflexivity].
  destruct (index_kids s (xkids b)) as [lb |] eqn:Y; [| unfold group_kids, pair_children; rewrite X, Y; reflexivity].
  apply index_ok in X, Y. rewrite (group_ok s _ _ _ _ X Y). cbn [on_ok bind ug in_2_not_1 in_1_and_2 in_1_not_2]. rewrite !w_init_uw.
  change (SState (map (uw s) (w_init la)) (map (uw s) (w_init lb)) [] []) with (ut s (SState (w_init la) (w_init lb) [] [])).
  rewrite (fold_on _ _ _ _ (ut s) (ue s) (sub_only_self o s)) by (intros; apply sos_u; exact W'). apply bind_on. intros st1 E1.
  rewrite (fold_on _ _ _ _ (ut s) (ue s) (sub_only_other o s)) by (intros; apply soo_u; exact W'). apply bind_on. intros st2 E2.
  set (rec := fun cs x y => match o_type o with
      | DReplace => if Z.eqb (o_depth o) (d + 1) then let! a' := config_replace o cs x y in Ok (a', y) else node_sub f o cs (d + 1) x y
      | _ => node_sub f o cs (d + 1) x y end).
  assert (RC : forall cs x y, wfs cs = true -> rec cs (unspaced cs x) (unspaced cs y) = on_ok (u2 cs) (rec cs x y)).
  { intros cs x y Wc. unfold rec. destruct (o_type o); try apply (IH o cs (d + 1)%Z x y Wc). destruct (Z.eqb (o_depth o) (d + 1)); [| apply (IH o cs (d + 1)%Z x y Wc)].
    rewrite replace_un by exact Wc. apply bind_on. intros a' _. reflexivity. }
  assert (RT : forall cs x y p, rec cs x y = Ok p -> xtag (fst p) = xtag x /\ xtag (snd p) = xtag y).
  { intros cs x y p H. unfold rec in H. destruct (o_type o); try apply (sub_tag _ _ _ _ _ _ _ H). destruct (Z.eqb (o_depth o) (d + 1)); [| apply (sub_tag _ _ _ _ _ _ _ H)].
    apply bind_ok in H. destruct H as (a' & E & H). apply replace_tag in E. assert (Q : p = (a', y)) by congruence. subst. auto. }
  rewrite (fold_on _ _ _ _ (ut s) (up s) (sub_both o rec s)).
  2: { intros st [[u x] y] I. apply both_in_In in I. destruct I as (I1 & I2). apply (Index_assoc s _ lb u y Y) in I2. apply sb_u; auto.
       - apply (Index_tag s _ la u x X) in I1. apply (Index_tag s _ lb u y Y) in I2. congruence.
       - intros cs p. apply RT. }
  apply bind_on. intros st3 E3. assert (OB : ObuOK s (ss_obu st3)).
  { apply (fold_keeps _ _ _ (fun st => ObuOK s (ss_obu st)) (sb_ob o s rec) _ _ _ E3). apply (fold_keeps _ _ _ (fun st => ObuOK s (ss_obu st)) (soo_ob o s) _ _ _ E2).
    apply (fold_keeps _ _ _ (fun st => ObuOK s (ss_obu st)) (sos_ob o s) _ _ _ E1). intros t k []. }
  cbn [ut ss_self ss_other ss_obu]. rewrite !all_uw by auto. apply bind_on. intros ls _. apply bind_on. intros lo _. cbn [on_ok]. unfold u2. cbn [fst snd]. rewrite !w_xml_uw, !kids_un. reflexivity.
Qed.

Lemma depth_un : forall x d s, mark_depth d (unspaced s x) = unspaced s (mark_depth d x).
Proof.
  intro x. induction x as [t tx a ks IH] using xml_ind'. intros d s. rewrite un_eq. cbn [mark_depth].
  assert (K : map (mark_depth (d - 1)) (map (us s) ks) = map (us s) (map (mark_depth (d - 1)) ks)).
  { rewrite !map_map. apply map_ext_in. intros c Ic. rewrite Forall_forall in IH. unfold us.
    assert (T : xtag (mark_depth (d - 1) c) = xtag c) by (destruct c as [ct ctx ca ck]; cbn [mark_depth]; destruct (Z.eqb (d - 1) 0); reflexivity). rewrite T.
    destruct (schema_child s (xtag c)); auto. }
  rewrite K. destruct (Z.eqb d 0); reflexivity.
Qed.

Theorem delta_un : forall o s a b, wfs s = true -> nc_sub o s (unspaced s a) (unspaced s b) = on_ok (unspaced s) (nc_sub o s a b).
Proof.
  intros o s a b W'. unfold nc_sub. rewrite height_un, sub_un, replace_un by auto.
  assert (F : (let! p := on_ok (u2 s) (node_sub (height a) o s 0 a b) in Ok (fst p)) = on_ok (unspaced s) (let! p := node_sub (height a) o s 0 a b in Ok (fst p))) by (apply bind_on; reflexivity).
  rewrite F. destruct (o_type o).
  - apply bind_on. reflexivity.
  - apply bind_on. intros d _. cbn [on_ok]. rewrite depth_un. reflexivity.
  - assert (G : (if Z.eqb (o_depth o) 0 then on_ok (unspaced s) (config_replace o s a b) else on_ok (unspaced s) (let! p := node_sub (height a) o s 0 a b in Ok (fst p))) =
      on_ok (unspaced s) (if Z.eqb (o_depth o) 0 then config_replace o s a b else let! p := node_sub (height a) o s 0 a b in Ok (fst p))) by (destruct (Z.eqb (o_depth o) 0); reflexivity).
    rewrite G. apply bind_on. reflexivity.
Qed.
