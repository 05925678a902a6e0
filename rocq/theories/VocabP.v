(** Proofs for C93: the attributes of deltas. *)
From Coq Require Import String Ascii List Bool Arith ZArith Lia.
From Verif Require Import Base BaseP XmlM CalcM CalcP NetconfM ConfigM ListP DataSpec DataP DeltaSpec ConfigSpec EditSpec EditP EditSemP EditPropsP
  OrderEditP TrimP PlainP WorkP PruneSpec PruneP FilterP VocabSpec.
From Verif Require KnownP LiveP RoundP.
Import ListNotations.
Open Scope string_scope.
Open Scope list_scope.

Section O.
Variable o : opts.

Definition OpPart (a : list (string * string)) : Prop := a = [] \/ exists v, a = [(operation_tag, v)] /\ Asked o v.
Definition InsPart (cs : snode) (i : list (string * string)) : Prop :=
  i = [] \/ (is_user_seq cs = true /\ (i = [(insert_tag, "first")] \/
    exists v, i = [(insert_tag, "after"); (match sty cs with TList => key_tag | _ => value_tag end, v)])).
Definition Loc (cs : snode) (a : list (string * string)) : Prop :=
  exists p i, a = p ++ i /\ OpPart p /\ InsPart cs i /\ (i <> [] -> p <> [(operation_tag, del_op o)]).

Lemma asked_del : Asked o (del_op o).
Proof. unfold Asked, del_op. destruct (o_delete o); auto 6. Qed.

Lemma del_word : forall v, Asked o v -> v = "delete" \/ v = "remove" -> v = del_op o.
Proof. intros v H D. unfold del_op. destruct H as [[-> _] | [[-> _] | [[-> ->] | [-> ->]]]]; auto; destruct D; discriminate. Qed.

Lemma loc_op : forall cs a, OpPart a -> Loc cs a.
Proof. intros cs a H. exists a, []. rewrite app_nil_r. split; auto. split; auto. split; [left; auto | congruence]. Qed.

Definition VA (s : snode) (x : xml) : Prop :=
  forall sm m sn n, Within s x sm m -> In n (xkids m) -> Defines sm (xtag n) sn -> Loc sn (xattrs n).
Definition Deep (s : snode) (c : xml) : Prop := forall cs, Defines s (xtag c) cs -> VA cs c.
Definition Good (s : snode) (c : xml) : Prop := forall cs, Defines s (xtag c) cs -> Loc cs (xattrs c) /\ VA cs c.

Lemma VA_iff : forall s x, VA s x <-> forall c, In c (xkids x) -> Good s c.
Proof.
  intros s x. split.
  - intros H c I cs D. split.
    + apply (H s x cs c); auto. constructor.
    + intros sm m sn n W I' D'. apply (H sm m sn n); auto. apply (wi_down s x c cs); auto.
  - intros H sm m sn n W I D. inversion W as [? ? E1 E2 | ? ? c cs ? ? Ic Dc W' E1 E2]; subst.
    + destruct (H n I sn D) as (X & _). exact X.
    + destruct (H c Ic cs Dc) as (_ & X). apply (X sm m sn n); auto.
Qed.

Lemma VA_kids : forall s x y, (forall c, In c (xkids y) -> In c (xkids x)) -> VA s x -> VA s y.
Proof. intros s x y K H. rewrite VA_iff in *. auto. Qed.
Lemma VA_none : forall s t tx a, VA s (Elem t tx a []).
Proof. intros s t tx a. apply VA_iff. intros c []. Qed.
Lemma VA_set_kids : forall s l x, (forall c, In c l -> Good s c) -> VA s (set_kids l x).
Proof. intros s l x H. apply VA_iff. destruct x. auto. Qed.

Definition clean (x : xml) : Prop := all_attrs x = [].
Lemma clean_kid : forall x c, clean x -> In c (xkids x) -> clean c.
Proof.
  intros x c H I. unfold clean in *. destruct (all_attrs c) as [| a l] eqn:E; auto. assert (X : In a (all_attrs x)) by (apply (attrs_kids a c); auto; rewrite E; left; auto).
  rewrite H in X. destruct X.
Qed.
Lemma clean_attrs : forall x, clean x -> xattrs x = [].
Proof. intros x H. unfold clean in H. rewrite all_attrs_eq in H. apply app_eq_nil in H. tauto. Qed.
Lemma clean_VA : forall x s, clean x -> VA s x.
Proof.
  intro x. induction x as [x IH] using xml_ind'. intros s H. apply VA_iff. intros c I cs D. split.
  - rewrite (clean_attrs c (clean_kid x c H I)). apply loc_op. left. auto.
  - apply IH; auto. apply (clean_kid x); auto.
Qed.
Lemma clean_Good : forall s x, clean x -> Good s x.
Proof. intros s x H cs D. split; [rewrite clean_attrs by auto; apply loc_op; left; auto | apply clean_VA; auto]. Qed.
Lemma Good_none : forall s t tx, Good s (Elem t tx [] []).
Proof. intros s t tx. apply clean_Good. reflexivity. Qed.

(** ** Pieces *)
Lemma del_keys_Good : forall cs c ks, del_keys cs c = Ok ks -> forall k, In k ks -> Good cs k.
Proof.
  intros cs c ks H k I. destruct (LiveP.mapM_In _ _ _ _ H I) as (t & _ & E). destruct (find_kid t (xkids c)) as [kn |]; [| discriminate].
  assert (X : k = Elem t (xtext kn) [] []) by congruence. subst k. apply Good_none.
Qed.

Lemma op_one : forall v, Asked o v -> OpPart [(operation_tag, v)].
Proof. intros v H. right. eauto. Qed.

Lemma Good_elem : forall s cs t tx a kk, schema_child s t = Ok cs -> OpPart a -> (forall k, In k kk -> Good cs k) -> Good s (Elem t tx a kk).
Proof.
  intros s cs t tx a kk Es A K cs' D. cbn [xtag xattrs] in *. rewrite (Defines_schema_child _ _ _ _ Es D) in *. split; [apply loc_op; auto |]. apply VA_iff. auto.
Qed.

Lemma del_kids_Good : o_delete o = PDDelete -> forall x s ks, del_kids s x = Ok ks -> forall k, In k ks -> Good s k.
Proof.
  intros OD x. induction x as [x IH] using xml_ind'. intros s ks H k I. rewrite LiveP.del_kids_mapM in H.
  destruct (LiveP.mapM_In _ _ _ _ H I) as (c & Ic & E). unfold LiveP.del_kid in E. apply bind_ok in E. destruct E as (cs & Es & E).
  assert (AD : OpPart [(operation_tag, "delete")]) by (apply op_one; unfold Asked; auto 6).
  assert (A0 : OpPart []) by (left; auto).
  assert (R : (if np_container cs then let! kk := del_kids cs c in Ok (Elem (xtag c) None [] kk)
               else Ok (Elem (xtag c) None [(operation_tag, "delete")] [])) = Ok k -> Good s k).
  { intro X. destruct (np_container cs).
    - apply bind_ok in X. destruct X as (kk & X1 & X2). assert (Y : k = Elem (xtag c) None [] kk) by congruence. subst k.
      apply (Good_elem s cs); auto. exact (IH c Ic cs kk X1).
    - assert (Y : k = Elem (xtag c) None [(operation_tag, "delete")] []) by congruence. subst k. apply (Good_elem s cs); auto. intros k []. }
  destruct (sty cs); auto.
  - assert (Y : k = Elem (xtag c) (xtext c) [(operation_tag, "delete")] []) by congruence. subst k. apply (Good_elem s cs); auto. intros k [].
  - apply bind_ok in E. destruct E as (kk & X1 & X2). assert (Y : k = Elem (xtag c) None [(operation_tag, "delete")] kk) by congruence. subst k.
    apply (Good_elem s cs); auto. exact (del_keys_Good cs c kk X1).
Qed.

(** An entry of the working list before insert attributes are set *)
Definition Pre (s : snode) (orig : bool) (x : xml) : Prop :=
  OpPart (xattrs x) /\ (orig = true -> xattrs x <> [(operation_tag, del_op o)]) /\ Deep s x.

Lemma mk_del_Pre : forall s cs c d, schema_child s (xtag c) = Ok cs -> mk_del o cs c = Ok d -> Pre s false d.
Proof.
  intros s cs c d Es E.
  assert (P : forall kk a tx, OpPart a -> (forall k, In k kk -> Good cs k) -> Pre s false (Elem (xtag c) tx a kk)).
  { intros kk a tx A K. split; [auto |]. split; [discriminate |]. intros cs' D. apply (Good_elem s cs (xtag c) tx a kk); auto. }
  assert (AD : OpPart [(operation_tag, del_op o)]) by (apply op_one, asked_del). assert (A0 : OpPart []) by (left; auto).
  unfold mk_del in E.
  assert (R : (if np_container cs && (match o_delete o with PDDelete => true | _ => false end)
         then let! kk := del_kids cs c in Ok (Elem (xtag c) None [] kk)
         else Ok (Elem (xtag c) None [(operation_tag, del_op o)] [])) = Ok d -> Pre s false d).
  { intro X. destruct (np_container cs && _) eqn:B.
    - apply bind_ok in X. destruct X as (kk & X1 & X2). assert (Y : d = Elem (xtag c) None [] kk) by congruence. subst d. apply P; auto.
      apply andb_prop in B. destruct B as [_ B]. apply (del_kids_Good ltac:(destruct (o_delete o); [auto | discriminate]) c cs kk X1).
    - assert (Y : d = Elem (xtag c) None [(operation_tag, del_op o)] []) by congruence. subst d. apply P; auto. intros k []. }
  destruct (sty cs); auto.
  - assert (Y : d = Elem (xtag c) (xtext c) [(operation_tag, del_op o)] []) by congruence. subst d. apply P; auto. intros k [].
  - apply bind_ok in E. destruct E as (kk & X1 & X2). assert (Y : d = Elem (xtag c) None [(operation_tag, del_op o)] kk) by congruence. subst d.
    apply P; auto. exact (del_keys_Good cs c kk X1).
Qed.

Lemma not_del : forall v, v = "create" \/ v = "replace" -> [(operation_tag, v)] <> [(operation_tag, del_op o)].
Proof. intros v H E. assert (X : v = del_op o) by congruence. unfold del_op in X. destruct (o_delete o); destruct H; subst; discriminate. Qed.

Lemma Pre_clean : forall s b x, clean x -> Pre s b x.
Proof. intros s b x H. unfold Pre. rewrite (clean_attrs x H). split; [left; auto |]. split; [discriminate |]. intros cs D. apply clean_VA. auto. Qed.

Lemma Pre_set : forall s b x v, clean x -> Asked o v -> v = "create" \/ v = "replace" -> Pre s b (set_attr operation_tag v x).
Proof.
  intros s b x v H A V. assert (E : xattrs (set_attr operation_tag v x) = [(operation_tag, v)]) by (destruct x as [t tx a k]; pose proof (clean_attrs _ H) as X; cbn in X; subst; reflexivity).
  unfold Pre. rewrite E. split; [right; eauto |]. split; [intros _; apply not_del; auto |]. intros cs D. apply (VA_kids cs x); [destruct x; auto | apply clean_VA; auto].
Qed.

Lemma set_create_Pre : o_create o = PCCreate -> forall x s y, clean x -> set_create s x = Ok y ->
  xtag y = xtag x /\ VA s y /\ (xattrs y = [] \/ xattrs y = [(operation_tag, "create")]).
Proof.
  intros OC x. induction x as [x IH] using xml_ind'. intros s y C H. rewrite LiveP.set_create_mapM in H. destruct (np_container s).
  - apply bind_ok in H. destruct H as (ks & H & E). assert (Y : y = set_kids ks x) by congruence. subst y. clear E.
    destruct (set_kids_parts ks x) as (E1 & _ & E2 & _). split; auto. rewrite E2, (clean_attrs x C). split; auto.
    apply VA_set_kids. intros c I. destruct (LiveP.mapM_In _ _ _ _ H I) as (c0 & I0 & E). unfold LiveP.create_kid in E.
    apply bind_ok in E. destruct E as (ce & Es & E). pose proof (clean_kid x c0 C I0) as C0.
    destruct (mem pos_eqb (ce_pos ce) (default_pos [] s)); [assert (X : c = c0) by congruence; subst; apply clean_Good; auto |].
    apply LiveP.schema_entry_child in Es. destruct (IH c0 I0 _ _ C0 E) as (T1 & T2 & T3). intros cs D. rewrite T1 in D.
    rewrite (Defines_schema_child _ _ _ _ Es D). split; auto. apply loc_op. destruct T3 as [-> | ->]; [left; auto | apply op_one; unfold Asked; auto].
  - assert (Y : y = set_attr operation_tag "create" x) by congruence. subst y.
    destruct x as [t tx a k]. pose proof (clean_attrs _ C) as X. cbn [xattrs] in X. subst a. split; auto. split; [| right; reflexivity].
    apply (VA_kids s (Elem t tx [] k)); auto. apply clean_VA. auto.
Qed.

Lemma mark_create_Pre : forall s cs c d b, schema_child s (xtag c) = Ok cs -> clean c -> mark_create o cs c = Ok d -> Pre s b d /\ xtag d = xtag c.
Proof.
  intros s cs c d b Es C H. unfold mark_create in H. destruct (o_create o) eqn:OC.
  - assert (Y : d = c) by congruence. subst d. split; auto. apply Pre_clean; auto.
  - destruct (set_create_Pre OC c cs d C H) as (T1 & T2 & T3). split; auto. split; [destruct T3 as [-> | ->]; [left; auto | apply op_one; unfold Asked; auto] |].
    split; [intros _; destruct T3 as [-> | ->]; [discriminate | apply not_del; auto] |]. intros cs' D. rewrite T1 in D. rewrite (Defines_schema_child _ _ _ _ Es D). auto.
  - assert (Y : d = set_attr operation_tag "replace" c) by congruence. subst d. split; [apply Pre_set; auto; unfold Asked; auto 6 | destruct c; auto].
Qed.

(** ** Working lists *)
Definition PreW (s : snode) (l : list went) : Prop := Forall (fun w => Pre s (w_orig w) (w_xml w)) l.
Lemma PreW_upd : forall s u x l, PreW s l -> (forall b, Pre s b x) -> PreW s (w_upd u x l).
Proof. intros s u x l H G. unfold PreW, w_upd in *. apply Forall_map. rewrite Forall_forall in *. intros w I. destruct (uid_eqb u (w_uid w)); cbn [w_xml w_orig]; auto. Qed.
Lemma PreW_del : forall s u l, PreW s l -> PreW s (w_del u l).
Proof. intros s u l H. apply filter_Forall. auto. Qed.
Lemma PreW_ins : forall s p u x l, PreW s l -> Pre s false x -> PreW s (ins_after_last p (W false u x) l).
Proof. intros s p u x l H G. apply (Ins_Forall _ _ _ _ (ins_after_last_Ins p (W false u x) l) H). exact G. Qed.
Lemma PreW_init : forall s x l, Index s (xkids x) l -> clean x -> PreW s (w_init l).
Proof.
  intros s x l (E & _) C. unfold PreW, w_init. apply Forall_map. apply Forall_forall. intros e I. cbn [w_orig w_xml]. apply Pre_clean.
  apply (clean_kid x); auto. rewrite <- E. apply in_map. auto.
Qed.

(** Insert attributes *)
Definition Post (s : snode) (done : list string) (w : went) : Prop :=
  Deep s (w_xml w) /\ (In (xtag (w_xml w)) done -> forall cs, Defines s (xtag (w_xml w)) cs -> Loc cs (xattrs (w_xml w))) /\
  (~ In (xtag (w_xml w)) done -> Pre s (w_orig w) (w_xml w)).

Lemma ins_first : forall p, OpPart p -> dset String.eqb insert_tag "first" p = p ++ [(insert_tag, "first")].
Proof. intros p [-> | (v & -> & _)]; reflexivity. Qed.
Lemma ins_after : forall p n v, OpPart p -> n = value_tag \/ n = key_tag ->
  dset String.eqb n v (dset String.eqb insert_tag "after" p) = p ++ [(insert_tag, "after"); (n, v)].
Proof. intros p n v [-> | (w & -> & _)] [-> | ->]; reflexivity. Qed.

Lemma seq_Post : forall s t k cs done, ~ In t done -> schema_child s t = Ok cs -> is_user_seq cs = true -> k = kind_of cs ->
  forall l p l', seq_attrs t k p l = Ok l' -> Forall (Post s done) l -> Forall (Post s (t :: done)) l'.
Proof.
  intros s t k cs done ND Es U Ek l. induction l as [| w r IH]; intros p l' H G; cbn [seq_attrs] in H.
  - assert (X : l' = []) by congruence. subst. constructor.
  - inversion G as [| ? ? Gw Gr]; subst. destruct Gw as (G1 & G2 & G3). destruct (w_orig w && w_tag t w) eqn:B.
    + apply andb_prop in B. destruct B as [B1 B2]. unfold w_tag in B2. apply String.eqb_eq in B2. rewrite B2 in G2, G3.
      destruct (G3 ND) as (P1 & P2 & _). specialize (P2 B1). rewrite B1 in *.
      apply bind_ok in H. destruct H as (x' & Hx & H). apply bind_ok in H. destruct H as (r' & Hr & H).
      assert (X : l' = W true (w_uid w) x' :: r') by congruence. subst l'. clear H. constructor; [| exact (IH _ _ Hr Gr)].
      assert (SH : xtag x' = t /\ xkids x' = xkids (w_xml w) /\ exists i, xattrs x' = xattrs (w_xml w) ++ i /\ InsPart cs i).
      { destruct (w_xml w) as [t0 tx0 a0 k0]. cbn [xtag xattrs xkids] in *. subst t0. destruct p as [p |].
        - unfold kind_of in Hx. destruct (sty cs) eqn:T.
          all: try (destruct (xtext p) as [v |]; [| discriminate]; assert (X : x' = set_attr value_tag v (set_attr insert_tag "after" (Elem t tx0 a0 k0))) by congruence;
            subst x'; cbn [set_attr xtag xkids xattrs]; split; [auto |]; split; [auto |]; rewrite ins_after by auto; eexists; split; [reflexivity |];
            right; split; [auto |]; right; rewrite T; eauto).
          apply bind_ok in Hx. destruct Hx as (v & _ & Hx). assert (X : x' = set_attr key_tag v (set_attr insert_tag "after" (Elem t tx0 a0 k0))) by congruence.
          subst x'. cbn [set_attr xtag xkids xattrs]. split; [auto |]. split; [auto |]. rewrite ins_after by auto. eexists. split; [reflexivity |].
          right. split; [auto |]. right. rewrite T. eauto.
        - assert (X : x' = set_attr insert_tag "first" (Elem t tx0 a0 k0)) by congruence. subst x'. cbn [set_attr xtag xkids xattrs].
          split; [auto |]. split; [auto |]. rewrite ins_first by auto. eexists. split; [reflexivity |]. right. auto. }
      destruct SH as (E1 & E2 & i & E3 & E4). split; [| split]; cbn [w_xml w_orig].
      * intros cs' D. rewrite E1 in D. apply (VA_kids cs' (w_xml w)); [rewrite E2; auto |]. apply G1. rewrite B2. auto.
      * rewrite E1. intros _ cs' D. rewrite (Defines_schema_child _ _ _ _ Es D). rewrite E3. exists (xattrs (w_xml w)), i. auto.
      * rewrite E1. intro N. exfalso. apply N. left. auto.
    + apply bind_ok in H. destruct H as (r' & Hr & H). assert (X : l' = w :: r') by congruence. subst l'. clear H.
      constructor; [| exact (IH _ _ Hr Gr)]. split; auto. split.
      * intros I cs' D. destruct (String.eqb_spec (xtag (w_xml w)) t) as [E | E].
        -- assert (NI : ~ In (xtag (w_xml w)) done) by (rewrite E; auto). destruct (G3 NI) as (P1 & _). apply loc_op. auto.
        -- destruct I as [I | I]; [congruence | auto].
      * intro N. apply G3. intro X. apply N. right. auto.
Qed.

Lemma all_seq_Good : forall s m l l', ObuOK s m -> NoDup (map fst m) -> all_seq_attrs m l = Ok l' -> PreW s l -> Forall (fun w => Good s (w_xml w)) l'.
Proof.
  intros s m l l' OK ND H P.
  assert (G : forall m done l l', ObuOK s m -> NoDup (map fst m) -> (forall t, In t (map fst m) -> ~ In t done) ->
            foldM (fun l p => seq_attrs (fst p) (snd p) None l) l m = Ok l' -> Forall (Post s done) l -> exists done', Forall (Post s done') l').
  { clear. induction m as [| [t k] m IH]; intros done l l' OK ND NI H G; cbn [foldM] in H.
    - exists done. assert (X : l' = l) by congruence. subst. auto.
    - apply bind_ok in H. destruct H as (l1 & H1 & H). cbn [fst snd map] in *. inversion ND as [| ? ? N1 N2]; subst.
      destruct (OK t k (or_introl eq_refl)) as (cs & Es & U & Ek).
      apply (IH (t :: done) l1 l'); auto.
      + intros t' k' I. apply OK. right. auto.
      + intros t' I [E | X]; [subst; contradiction |]. apply (NI t'); auto. right. auto.
      + apply (seq_Post s t k cs done) with (l := l) (p := None); auto. apply NI. left. auto. }
  destruct (G m [] l l' OK ND ltac:(intros; intros []) H) as (done & F).
  { apply Forall_forall. intros w I. unfold PreW in P. rewrite Forall_forall in P. specialize (P w I). split; [apply P |]. split; [intros [] | auto]. }
  apply Forall_forall. intros w I. rewrite Forall_forall in F. destruct (F w I) as (F1 & F2 & F3). intros cs D. split; [| auto].
  destruct (in_dec string_dec (xtag (w_xml w)) done) as [Y | Y]; [auto |]. destruct (F3 Y) as (P1 & _). apply loc_op. auto.
Qed.

Lemma obu_NoDup : forall cs m, NoDup (map fst m) -> NoDup (map fst (obu_add cs m)).
Proof.
  intros cs m H. unfold obu_add. destruct (is_user_seq cs); auto. destruct (assoc String.eqb (stag cs) m) eqn:E; auto. rewrite map_app. cbn [map fst].
  assert (N : ~ In (stag cs) (map fst m)).
  { clear - E. induction m as [| [k v] m IH]; cbn in *; auto. destruct (String.eqb_spec (stag cs) k) as [X | X]; [discriminate |]. intros [Y | Y]; [congruence | exact (IH E Y)]. }
  clear E. induction m as [| p m IH]; cbn in *; [constructor; auto; constructor |]. inversion H; subst. constructor; [| apply IH; auto].
  intro X. apply in_app_or in X. destruct X as [X | [X | []]]; auto.
Qed.

Definition OB (s : snode) (m : obu) : Prop := ObuOK s m /\ NoDup (map fst m).
Lemma OB_add : forall s t cs m, OB s m -> schema_child s t = Ok cs -> OB s (obu_add cs m).
Proof. intros s t cs m [H1 H2] E. split; [apply (ObuOK_add s t); auto | apply obu_NoDup; auto]. Qed.
Lemma OB_nil : forall s, OB s [].
Proof. intro s. split; [intros t k [] | constructor]. Qed.

Lemma seq_VA : forall s m l l' x, OB s m -> all_seq_attrs m l = Ok l' -> PreW s l -> VA s (set_kids (map w_xml l') x).
Proof.
  intros s m l l' x [H1 H2] H P. apply VA_set_kids. intros c I. apply in_map_iff in I. destruct I as (w & <- & I).
  pose proof (all_seq_Good s m l l' H1 H2 H P) as F. rewrite Forall_forall in F. auto.
Qed.

Lemma config_replace_VA : forall s a b r, o_type o = DReplace -> config_replace o s a b = Ok r -> clean a -> clean b ->
  xtag r = xtag a /\ xattrs r = [] /\ VA s r.
Proof.
  intros s a b r OT H Ca Cb. unfold config_replace in H.
  apply bind_ok in H. destruct H as (g & Hg & H). apply bind_ok in H. destruct H as (l0 & H0 & H).
  apply bind_ok in H. destruct H as (st1 & H1 & H). apply bind_ok in H. destruct H as (st2 & H2 & H). apply bind_ok in H. destruct H as (st3 & H3 & H).
  apply bind_ok in H. destruct H as (l & Hl & H). assert (X : r = set_kids (map w_xml l) a) by congruence. subst r. clear H.
  destruct (set_kids_parts (map w_xml l) a) as (E1 & _ & E2 & _). split; auto. split; [rewrite E2; apply clean_attrs; auto |].
  apply group_inv in Hg. destruct Hg as (la & lb & Ia & Ib & ->). cbn [in_1_and_2 in_2_not_1 in_1_not_2] in *. apply index_ok in H0.
  assert (l0 = la) by (eapply LiveP.Index_fun; eauto). subst l0.
  assert (Ka : forall u c, In (u, c) la -> clean c) by (intros u c I; apply (clean_kid a); auto; destruct Ia as (E & _); rewrite <- E; apply (in_map snd _ _ I)).
  assert (Kb : forall u c, In (u, c) lb -> clean c) by (intros u c I; apply (clean_kid b); auto; destruct Ib as (E & _); rewrite <- E; apply (in_map snd _ _ I)).
  assert (AR : Asked o "replace") by (unfold Asked; auto 8).
  set (P := fun st => PreW s (r_self st) /\ OB s (r_obu st)).
  assert (G1 : P st1).
  { assert (G0 : P (RState (w_init la) [])) by (split; [apply (PreW_init s a); auto | apply OB_nil]).
    apply (foldM_inv_ok (repl_only_self s) (fun _ st => P st) _ _ _ G0) in H1; auto.
    intros done0 [u c] r0 s0 s1 E [G G'] X. assert (I : In (u, c) (only_in la lb)) by (rewrite E; apply in_or_app; right; left; auto). apply only_in_In in I.
    unfold repl_only_self in X. apply bind_ok in X. destruct X as (cs & Es & X). 
    assert (Y : s1 = RState (w_upd u (set_attr operation_tag "replace" c) (r_self s0)) (obu_add cs (r_obu s0))) by congruence. subst s1. split; cbn [r_self r_obu].
    - apply PreW_upd; auto. intro bb. apply Pre_set; auto. apply (Ka u). tauto.
    - apply (OB_add s (xtag c)); auto. }
  assert (G2 : P st2).
  { apply (foldM_inv_ok (repl_only_other o s) (fun _ st => P st) _ _ _ G1) in H2; auto.
    intros done0 [u c] r0 s0 s1 E [G G'] X. unfold repl_only_other in X. apply bind_ok in X. destruct X as (cs & Es & X). apply bind_ok in X. destruct X as (d & Hd & X).
    assert (Y : s1 = RState (ins_after_last (w_tag (xtag c)) (W false u d) (r_self s0)) (r_obu s0)) by congruence. subst s1. split; cbn [r_self r_obu]; auto.
    apply PreW_ins; auto. apply (mk_del_Pre s cs c); auto. }
  assert (G3 : P st3).
  { apply (foldM_inv_ok (repl_both s) (fun _ st => P st) _ _ _ G2) in H3; auto.
    intros done0 [[u x] y] r0 s0 s1 E [G G'] X. assert (I : In (u, x, y) (both_in la lb)) by (rewrite E; apply in_or_app; right; left; auto).
    destruct (LiveP.both_tags _ _ _ _ _ _ _ _ Ia Ib I) as (I1 & I2 & Et). pose proof (Ka _ _ I1) as Cx.
    assert (GK : PreW s (w_upd u (set_attr operation_tag "replace" x) (r_self s0))) by (apply PreW_upd; auto; intro bb; apply Pre_set; auto).
    assert (GD : PreW s (w_del u (r_self s0))) by (apply PreW_del; auto).
    assert (GP : PreW s (w_upd u (pop_attr operation_tag (set_attr operation_tag "replace" x)) (r_self s0))).
    { apply PreW_upd; auto. intro bb. assert (Y : pop_attr operation_tag (set_attr operation_tag "replace" x) = x).
      { destruct x as [t tx a0 k]. pose proof (clean_attrs _ Cx) as Z. cbn [xattrs] in Z. subst a0. reflexivity. }
      rewrite Y. apply Pre_clean. auto. }
    assert (FIN : forall q m, PreW s q -> OB s m -> Ok (RState q m) = Ok s1 -> P s1) by (intros q m Q1 Q2 Y; assert (Z : s1 = RState q m) by congruence; subst s1; split; auto).
    unfold repl_both in X. cbv zeta in X. apply bind_ok in X. destruct X as (cs & Es & X). pose proof (OB_add s (xtag x) cs _ G' Es) as OA. destruct (sty cs); try discriminate.
    - apply bind_ok in X. destruct X as (sm & _ & X). destruct sm; [destruct (s_is_key (si cs)) |]; refine (FIN _ _ _ _ X); assumption.
    - destruct (s_user (si cs)); refine (FIN _ _ _ _ X); assumption.
    - apply bind_ok in X. destruct X as (e & _ & X). destruct e; refine (FIN _ _ _ _ X); assumption.
    - apply bind_ok in X. destruct X as (e & _ & X). destruct (e && negb (s_user (si cs))); refine (FIN _ _ _ _ X); assumption. }
  destruct G3 as [G3 G4]. apply (seq_VA s (r_obu st3) (r_self st3)); auto.
Qed.

(** Attributes of a node that [node_sub] returns *)
Definition RootA (a : list (string * string)) : Prop := a = [] \/ (a = [(operation_tag, "replace")] /\ Asked o "replace").
Lemma Pre_root : forall s cs t x b, schema_child s t = Ok cs -> xtag x = t -> RootA (xattrs x) -> VA cs x -> Pre s b x.
Proof.
  intros s cs t x b Es T R V. split; [destruct R as [-> | [-> R]]; [left; auto | apply op_one; auto] |].
  split; [intros _; destruct R as [-> | [-> R]]; [discriminate | apply not_del; auto] |]. intros cs' D. rewrite T in D. rewrite (Defines_schema_child _ _ _ _ Es D). auto.
Qed.

Lemma strip_clean : forall s x y, strip_to_keys s x = Ok y -> clean x -> clean y.
Proof.
  intros s x y H C. unfold strip_to_keys in H. apply bind_ok in H. destruct H as (ks & H & E). assert (X : y = set_kids (concat ks) x) by congruence. subst y.
  unfold clean. rewrite all_attrs_eq. destruct (set_kids_parts (concat ks) x) as (_ & _ & E1 & E2). rewrite E1, E2, (clean_attrs x C). cbn [app].
  destruct (flat_map all_attrs (concat ks)) as [| at0 l] eqn:F; auto. assert (I : In at0 (flat_map all_attrs (concat ks))) by (rewrite F; left; auto).
  apply in_flat_map in I. destruct I as (c & I1 & I2). apply in_concat in I1. destruct I1 as (l1 & I1 & I3). destruct (LiveP.mapM_In _ _ _ _ H I1) as (c0 & I0 & E0).
  apply bind_ok in E0. destruct E0 as (cs & _ & E0). assert (X : l1 = (if s_is_key (si cs) then [c0] else [])) by congruence. subst l1.
  destruct (s_is_key (si cs)); [| destruct I3]. destruct I3 as [I3 | []]. subst c0. pose proof (clean_kid x c C I0) as Cc. unfold clean in Cc. rewrite Cc in I2. destruct I2.
Qed.
Lemma strip_tag : forall s x y, strip_to_keys s x = Ok y -> xtag y = xtag x.
Proof.
  intros s x y H. unfold strip_to_keys in H. apply bind_ok in H. destruct H as (ks & H & E). assert (X : y = set_kids (concat ks) x) by congruence. subst y. destruct x; auto.
Qed.

Theorem node_sub_VA : forall f s dp a b r, node_sub f o s dp a b = Ok r -> clean a -> clean b ->
  (xtag (fst r) = xtag a /\ RootA (xattrs (fst r)) /\ VA s (fst r)) /\ (xtag (snd r) = xtag b /\ RootA (xattrs (snd r)) /\ VA s (snd r)).
Proof.
  intro f. induction f as [| f IH]; intros s dp a b r H Ca Cb; [discriminate |]. cbn [node_sub] in H.
  apply bind_ok in H. destruct H as (df & Hdf & H). destruct df.
  { assert (X : r = (set_attr operation_tag "replace" a, set_attr operation_tag "replace" b)) by congruence. subst r. cbn [fst snd].
    assert (AR : Asked o "replace") by (unfold Asked; destruct (o_replace o); [discriminate | auto 8]).
    assert (G : forall x, clean x -> xtag (set_attr operation_tag "replace" x) = xtag x /\ RootA (xattrs (set_attr operation_tag "replace" x)) /\ VA s (set_attr operation_tag "replace" x)).
    { intros [t tx a0 k] C. pose proof (clean_attrs _ C) as Z. cbn [xattrs] in Z. subst a0. split; auto. split; [right; split; [reflexivity | auto] |].
      apply (VA_kids s (Elem t tx [] k)); auto. apply clean_VA. auto. }
    split; apply G; auto. }
  clear Hdf. apply bind_ok in H. destruct H as (g & Hg & H). apply bind_ok in H. destruct H as (l1 & Hl1 & H). apply bind_ok in H. destruct H as (l2 & Hl2 & H).
  cbv zeta in H. apply bind_ok in H. destruct H as (st1 & H1 & H). apply bind_ok in H. destruct H as (st2 & H2 & H). apply bind_ok in H. destruct H as (st3 & H3 & H).
  apply bind_ok in H. destruct H as (ls & Hls & H). apply bind_ok in H. destruct H as (lo & Hlo & H).
  assert (X : r = (set_kids (map w_xml ls) a, set_kids (map w_xml lo) b)) by congruence. subst r. clear H. cbn [fst snd].
  apply group_inv in Hg. destruct Hg as (la & lb & Ia & Ib & ->). cbn [in_1_and_2 in_2_not_1 in_1_not_2] in *.
  apply index_ok in Hl1. apply index_ok in Hl2.
  assert (l1 = la) by (eapply LiveP.Index_fun; eauto). assert (l2 = lb) by (eapply LiveP.Index_fun; eauto). subst l1 l2.
  assert (Ka : forall u c, In (u, c) la -> clean c) by (intros u c I; apply (clean_kid a); auto; destruct Ia as (E & _); rewrite <- E; apply (in_map snd _ _ I)).
  assert (Kb : forall u c, In (u, c) lb -> clean c) by (intros u c I; apply (clean_kid b); auto; destruct Ib as (E & _); rewrite <- E; apply (in_map snd _ _ I)).
  set (P := fun st => PreW s (ss_self st) /\ PreW s (ss_other st) /\ OB s (ss_obu st)).
  assert (G0 : P (SState (w_init la) (w_init lb) [] [])) by (split; [apply (PreW_init s a); auto |]; split; [apply (PreW_init s b); auto | apply OB_nil]).
  assert (G1 : P st1).
  { apply (foldM_inv_ok (sub_only_self o s) (fun _ st => P st) _ _ _ G0) in H1; auto.
    intros done0 [u c] r0 s0 s1 E (G & G' & G'') X. assert (I : In (u, c) (only_in la lb)) by (rewrite E; apply in_or_app; right; left; auto). apply only_in_In in I.
    pose proof (Ka _ _ (proj1 I)) as Cc.
    unfold sub_only_self in X. apply bind_ok in X. destruct X as (ce & Es & X). cbv zeta in X. apply LiveP.schema_entry_child in Es.
    apply bind_ok in X. destruct X as (c' & Hc & X). apply bind_ok in X. destruct X as (d & Hd & X). injection X as <-. split; [| split]; cbn [ss_self ss_other ss_obu].
    - apply PreW_upd; auto. intro bb. destruct (o_type o) eqn:OT; try solve [apply (mark_create_Pre s (ce_node ce) c); auto].
      assert (Y : c' = set_attr operation_tag "replace" c) by congruence. subst c'. apply Pre_set; auto. unfold Asked. auto 8.
    - apply PreW_ins; auto. apply (mk_del_Pre s (ce_node ce) c); auto.
    - apply (OB_add s (xtag c)); auto. }
  assert (G2 : P st2).
  { apply (foldM_inv_ok (sub_only_other o s) (fun _ st => P st) _ _ _ G1) in H2; auto.
    intros done0 [u c] r0 s0 s1 E (G & G' & G'') X. assert (I : In (u, c) (only_in lb la)) by (rewrite E; apply in_or_app; right; left; auto). apply only_in_In in I.
    pose proof (Kb _ _ (proj1 I)) as Cc.
    unfold sub_only_other in X. apply bind_ok in X. destruct X as (ce & Es & X). cbv zeta in X. apply LiveP.schema_entry_child in Es.
    apply bind_ok in X. destruct X as (c' & Hc & X). apply bind_ok in X. destruct X as (d & Hd & X). injection X as <-. split; [| split]; cbn [ss_self ss_other ss_obu].
    - destruct (existsb (w_tag (xtag c)) (ss_self s0) || case_allows ce (ss_cho s0)); auto. apply PreW_ins; auto. apply (mk_del_Pre s (ce_node ce) c); auto.
    - apply PreW_upd; auto. intro bb. apply (mark_create_Pre s (ce_node ce) c); auto.
    - apply (OB_add s (xtag c)); auto. }
  assert (G3 : P st3).
  { match type of H3 with foldM (sub_both o ?rc s) _ _ = _ => set (rec := rc) in H3 end.
    assert (RN : forall cs x y ab, rec cs x y = Ok ab -> clean x -> clean y ->
      (xtag (fst ab) = xtag x /\ RootA (xattrs (fst ab)) /\ VA cs (fst ab)) /\ (xtag (snd ab) = xtag y /\ RootA (xattrs (snd ab)) /\ VA cs (snd ab))).
    { intros cs x y ab X Cx Cy. unfold rec in X. destruct (o_type o) eqn:OT; try exact (IH _ _ _ _ _ X Cx Cy).
      destruct (Z.eqb (o_depth o) (dp + 1)); [| exact (IH _ _ _ _ _ X Cx Cy)]. apply bind_ok in X. destruct X as (a' & X & Y).
      assert (Z : ab = (a', y)) by congruence. subst ab. cbn [fst snd].
      destruct (config_replace_VA _ _ _ _ OT X Cx Cy) as (T1 & T2 & T3). split; [split; [auto |]; split; [left; auto | auto] |].
      split; auto. split; [left; apply clean_attrs; auto | apply clean_VA; auto]. }
    apply (foldM_inv_ok (sub_both o rec s) (fun _ st => P st) _ _ _ G2) in H3; auto. clearbody rec.
    intros done0 [[u x] y] r0 s0 s1 E (G & G' & G'') X. assert (I : In (u, x, y) (both_in la lb)) by (rewrite E; apply in_or_app; right; left; auto).
    destruct (LiveP.both_tags _ _ _ _ _ _ _ _ Ia Ib I) as (I1 & I2 & Et). pose proof (Ka _ _ I1) as Cx. pose proof (Kb _ _ I2) as Cy.
    unfold sub_both in X. apply bind_ok in X. destruct X as (cs & Es & X). cbv zeta in X.
    assert (Es' : schema_child s (xtag y) = Ok cs) by congruence. pose proof (OB_add s (xtag x) cs _ G'' Es) as OA.
    assert (DR : forall m, OB s m -> Ok (SState (w_del u (ss_self s0)) (w_del u (ss_other s0)) m (ss_cho s0)) = Ok s1 -> P s1).
    { intros m OM Y. injection Y as <-. split; [apply PreW_del; auto |]. split; [apply PreW_del; auto | auto]. }
    assert (PU : forall x' y' m, (forall bb, Pre s bb x') -> (forall bb, Pre s bb y') -> OB s m ->
                 Ok (SState (w_upd u x' (ss_self s0)) (w_upd u y' (ss_other s0)) m (ss_cho s0)) = Ok s1 -> P s1).
    { intros x' y' m G1' G2' OM Y. injection Y as <-. split; [apply PreW_upd; auto |]. split; [apply PreW_upd; auto | auto]. }
    assert (SAME : Ok s0 = Ok s1 -> P s1) by (intro Y; injection Y as <-; split; auto).
    assert (GR : forall ab m, OB s m -> rec cs x y = Ok ab -> Ok (SState (w_upd u (fst ab) (ss_self s0)) (w_upd u (snd ab) (ss_other s0)) m (ss_cho s0)) = Ok s1 -> P s1).
    { intros ab m OM R Y. destruct (RN _ _ _ _ R Cx Cy) as ((T1 & T2 & T3) & (T4 & T5 & T6)).
      refine (PU _ _ _ _ _ OM Y); intro bb; [apply (Pre_root s cs (xtag x)) | apply (Pre_root s cs (xtag y))]; auto. }
    destruct (sty cs); try discriminate.
    - apply bind_ok in X. destruct X as (sm & _ & X). destruct sm; [destruct (s_is_key (si cs)); eauto |]. destruct (o_replace o) eqn:OR; auto.
      assert (AR : Asked o "replace") by (unfold Asked; auto 8). refine (PU _ _ _ _ _ G'' X); intro bb; apply Pre_set; auto.
    - destruct (s_user (si cs)); [refine (PU _ _ _ _ _ OA X); intro bb; apply Pre_clean; auto | eauto].
    - apply bind_ok in X. destruct X as (e & _ & X). destruct e; [eauto |]. apply bind_ok in X. destruct X as (ab & R & X). exact (GR _ _ G'' R X).
    - apply bind_ok in X. destruct X as (e & _ & X). destruct e; [| apply bind_ok in X; destruct X as (ab & R & X); exact (GR _ _ OA R X)].
      destruct (s_user (si cs)); [| eauto]. apply bind_ok in X. destruct X as (x' & X1 & X). apply bind_ok in X. destruct X as (y' & X2 & X).
      refine (PU _ _ _ _ _ OA X); intro bb; apply Pre_clean; [apply (strip_clean cs x) | apply (strip_clean cs y)]; auto. }
  destruct G3 as (G3 & G4 & G5). destruct (set_kids_parts (map w_xml ls) a) as (E1 & _ & E2 & _). destruct (set_kids_parts (map w_xml lo) b) as (E3 & _ & E4 & _).
  rewrite E1, E2, E3, E4, (clean_attrs a Ca), (clean_attrs b Cb). split; (split; [auto |]; split; [left; auto |]); eapply seq_VA; eauto.
Qed.

(** From the shape to the specification *)
Lemma loc_Marks : forall cs a, Loc cs a -> Marks o cs a.
Proof.
  intros cs a (p & i & -> & OP & IP & ND).
  assert (UO : is_user_seq cs = true -> UserOrdered cs) by (intro U; unfold is_user_seq in U; apply andb_prop in U; destruct U as [U1 U]; unfold UserOrdered; destruct (sty cs); try discriminate U; auto).
  assert (O1 : forall n v, In (n, v) p -> n = nc_operation /\ Asked o v /\ p = [(operation_tag, v)]).
  { intros n v I. destruct OP as [-> | (w & -> & A)]; [destruct I |]. destruct I as [E | []]. injection E as <- <-. auto. }
  assert (I1 : forall n v, In (n, v) i -> UserOrdered cs /\ ((n = yang_insert /\ (v = "first" \/ v = "after")) \/
              (n = match sty cs with TList => yang_key | _ => yang_value end /\ In (yang_insert, "after") i))).
  { intros n v I. destruct IP as [-> | (U & [-> | (w & ->)])]; [destruct I | |]; (split; [auto |]).
    - destruct I as [E | []]. injection E as <- <-. auto.
    - destruct I as [E | [E | []]]; injection E as <- <-; [left; auto | right; split; [destruct (sty cs); reflexivity | left; reflexivity]]. }
  split.
  - assert (NP : forall x, NoDup (map fst p) /\ (In x (map fst p) -> x = operation_tag)).
    { intro x. destruct OP as [-> | (w & -> & A)]; cbn; split; try (repeat constructor; auto); try tauto; intros [E | []]; auto. }
    destruct IP as [-> | (U & [-> | (w & ->)])]; rewrite map_app; cbn [map fst].
    + rewrite app_nil_r. apply (NP "").
    + destruct OP as [-> | (w & -> & A)]; cbn; repeat constructor; cbn; intuition discriminate.
    + destruct (sty cs); destruct OP as [-> | (w' & -> & A)]; cbn; repeat constructor; cbn; intuition discriminate.
  - intros n v I. apply in_app_or in I. destruct I as [I | I]; [left; apply (O1 n v); auto |]. destruct (I1 n v I) as (_ & [[-> _] | [-> _]]); auto. destruct (sty cs); auto.
  - intros v I. apply in_app_or in I. destruct I as [I | I]; [apply (O1 nc_operation v); auto |]. destruct (I1 _ v I) as (_ & [[X _] | [X _]]); [discriminate | destruct (sty cs); discriminate].
  - intros v I. apply in_app_or in I. destruct I as [I | I]; [destruct (O1 _ v I) as (X & _); discriminate |].
    destruct (I1 _ v I) as (U & [[_ X] | [X _]]); [auto | destruct (sty cs); discriminate].
  - intros v w I J. apply in_app_or in J. destruct J as [J | J]; [| destruct (I1 _ w J) as (_ & [[X _] | [X _]]); [discriminate | destruct (sty cs); discriminate]].
    apply in_app_or in I. destruct I as [I | I]; [destruct (O1 _ v I) as (X & _); discriminate |]. destruct (O1 _ w J) as (_ & A & Ep).
    assert (NI : i <> []) by (intro X; subst; destruct I). specialize (ND NI). split; intro X; apply ND; rewrite Ep; f_equal; f_equal; apply del_word; auto.
  - intro I. apply in_app_or in I. destruct I as [I | I]; [destruct (O1 _ _ I) as (X & _); discriminate |].
    destruct IP as [-> | (U & [-> | (w & ->)])]; [destruct I | destruct I as [E | []]; discriminate |].
    exists w. apply in_or_app. right. right. left. destruct (sty cs); reflexivity.
  - intros v I. apply in_app_or in I. destruct I as [I | I]; [destruct (O1 _ _ I) as (X & _); discriminate |].
    destruct (I1 _ v I) as ((_ & U) & [[X _] | [X A]]); [discriminate |]. split; [destruct U as [U | U]; auto; rewrite U in X; discriminate | apply in_or_app; auto].
  - intros v I. apply in_app_or in I. destruct I as [I | I]; [destruct (O1 _ _ I) as (X & _); discriminate |].
    destruct (I1 _ v I) as ((_ & U) & [[X _] | [X A]]); [discriminate |]. split; [destruct U as [U | U]; auto; rewrite U in X; discriminate | apply in_or_app; auto].
Qed.
End O.

Lemma VA_At : forall o s d, VA o s d -> Loc o s (xattrs d) -> forall p s' n, At s d p s' n -> Loc o s' (xattrs n).
Proof.
  intros o s d V R p s' n A. induction A as [s x | s x c cs u q s' n I D _ A IH]; auto. rewrite VA_iff in V. destruct (V c I cs D) as [V1 V2]. auto.
Qed.

Lemma root_Loc : forall o s a, RootA o a -> Loc o s a.
Proof. intros o s a [-> | [-> R]]; apply loc_op; [left; auto | apply op_one; auto]. Qed.

Theorem delta_marks : forall o s a b d, o_type o <> DMinimumReplace -> IsConfig s a -> IsConfig s b -> delta_nc s (Delta a b o) = Ok d ->
  forall p s' n, At s d p s' n -> Marks o s' (xattrs n).
Proof.
  intros o s a b d OT (Va & _) (Vb & _) H p s' n A. unfold delta_nc in H. cbn [d_src d_dst d_opts] in H.
  assert (Ca : clean a) by (apply (valid_attrs a s); auto). assert (Cb : clean b) by (apply (valid_attrs b s); auto). apply loc_Marks.
  unfold nc_sub in H. apply bind_ok in H. destruct H as (d1 & Hd & H).
  assert (E : d = d1) by (destruct (o_type o); congruence). subst d1. clear H.
  assert (NS : (let! p := node_sub (height b) o s 0 b a in Ok (fst p)) = Ok d -> Loc o s' (xattrs n)).
  { intro X. apply bind_ok in X. destruct X as (r & X1 & X2). destruct (node_sub_VA o _ _ _ _ _ _ X1 Cb Ca) as ((_ & R & V) & _).
    assert (E : d = fst r) by congruence. rewrite <- E in *. apply (VA_At o s d V (root_Loc o s _ R) p). auto. }
  destruct (o_type o) eqn:OT'; auto. destruct (Z.eqb (o_depth o) 0); auto.
  destruct (config_replace_VA o _ _ _ _ OT' Hd Cb Ca) as (_ & R & V). apply (VA_At o s d V) with (p := p); auto. apply root_Loc. left. auto.
Qed.

(** With diff_type='minimum-replace' the nodes at one depth get one attribute more. *)
Lemma dset_fresh : forall (k v : string) a, (forall w, ~ In (k, w) a) -> dset String.eqb k v a = a ++ [(k, v)].
Proof.
  intros k v a. induction a as [| [k' v'] a IH]; intro H; cbn [dset app]; auto.
  destruct (String.eqb k k') eqn:E; [apply String.eqb_eq in E; subst k'; destruct (H v'); left; auto |].
  f_equal. apply IH. intros w I. apply (H w). right. auto.
Qed.

Lemma VA_mark : forall o p s x d s' n, VA o s x -> Loc o s (xattrs x) -> At s (mark_depth d x) p s' n ->
  exists A, Loc o s' A /\ ((d = Z.of_nat (length p) /\ xattrs n = A ++ [("operation", "replace")]) \/ (d <> Z.of_nat (length p) /\ xattrs n = A)).
Proof.
  intros o p. induction p as [| u p IH]; intros s x d s' n V L A.
  - inversion A; subst. exists (xattrs x). split; auto. destruct x as [t tx a k]. cbn [mark_depth]. destruct (Z.eqb_spec d 0) as [E | E]; [left | right; auto].
    split; auto. cbn [set_attr xattrs]. apply dset_fresh. intros w I. destruct (mk_known _ _ _ (loc_Marks o _ _ L) _ _ I) as [X | [X | [X | X]]]; discriminate X.
  - inversion A as [| ? ? c cs ? ? ? ? I D _ A']; subst. rewrite RoundP.mark_kids in I. apply in_map_iff in I. destruct I as (c0 & <- & I).
    rewrite (proj1 (RoundP.mark_parts _ _)) in D. rewrite VA_iff in V. destruct (V c0 I cs D) as [V1 V2].
    destruct (IH cs c0 (d - 1)%Z s' n V2 V1 A') as (B & LB & H). exists B. split; auto. cbn [length].
    destruct H as [[H1 H2] | [H1 H2]]; [left | right]; split; auto; lia.
Qed.

Theorem delta_marks_all : forall o s a b d, IsConfig s a -> IsConfig s b -> delta_nc s (Delta a b o) = Ok d ->
  forall p s' n, At s d p s' n ->
  exists A, Marks o s' A /\
    ((o_type o = DMinimumReplace /\ Z.of_nat (length p) = (o_depth o + 1)%Z /\ xattrs n = A ++ [("operation", "replace")]) \/
     (~ (o_type o = DMinimumReplace /\ Z.of_nat (length p) = (o_depth o + 1)%Z) /\ xattrs n = A)).
Proof.
  intros o s a b d Ia Ib H p s' n A.
  assert (C : o_type o = DMinimumReplace \/ o_type o <> DMinimumReplace) by (destruct (o_type o); auto; right; discriminate).
  destruct C as [OT | OT]; [| exists (xattrs n); split; [apply (delta_marks o s a b d OT Ia Ib H p s' n A) | right; tauto]].
  destruct Ia as (Va & _). destruct Ib as (Vb & _). unfold delta_nc in H. cbn [d_src d_dst d_opts] in H.
  assert (Ca : clean a) by (apply (valid_attrs a s); auto). assert (Cb : clean b) by (apply (valid_attrs b s); auto).
  unfold nc_sub in H. rewrite OT in H. apply bind_ok in H. destruct H as (d1 & Hd & H). apply bind_ok in Hd. destruct Hd as (r & X1 & X2).
  destruct (node_sub_VA o _ _ _ _ _ _ X1 Cb Ca) as ((_ & R & V) & _). assert (E : d1 = fst r) by congruence. rewrite <- E in *.
  assert (E' : d = mark_depth (o_depth o + 1) d1) by congruence. rewrite E' in A.
  destruct (VA_mark o p s d1 _ s' n V (root_Loc o s _ R) A) as (B & LB & G). exists B. split; [apply loc_Marks; auto |].
  destruct G as [[G1 G2] | [G1 G2]]; [left; auto | right; split; auto]. intros [_ G]. apply G1. auto.
Qed.
