(** No delta marks a non-presence container with create. *)
From Coq Require Import String Ascii List Bool Arith ZArith Lia.
From Verif Require Import Base BaseP XmlM CalcM CalcP NetconfM ConfigM ListP DataSpec DataP DeltaSpec EditP OrderEditP TrimP PlainP
  PruneSpec PruneP FilterP ConfigSpec.
Import ListNotations.
Open Scope string_scope.
Open Scope list_scope.

Definition OKc (cs : snode) (c : xml) : Prop := get_attr operation_tag c = Some "create" -> np_container cs = false.
Definition NC (s : snode) (x : xml) : Prop :=
  forall sm m sn n, Within s x sm m -> In n (xkids m) -> Defines sm (xtag n) sn -> OKc sn n.
Definition Good (s : snode) (c : xml) : Prop :=
  forall cs, Defines s (xtag c) cs -> OKc cs c /\ NC cs c.

Lemma NC_iff : forall s x, NC s x <-> forall c, In c (xkids x) -> Good s c.
Proof.
  intros s x. split.
  - intros H c I cs D. split.
    + apply (H s x cs c); auto. constructor.
    + intros sm m sn n W I' D'. apply (H sm m sn n); auto. apply (wi_down s x c cs); auto.
  - intros H sm m sn n W I D. inversion W as [? ? E1 E2 | ? ? c cs ? ? Ic Dc W' E1 E2]; subst.
    + destruct (H n I sn D) as (X & _). exact X.
    + destruct (H c Ic cs Dc) as (_ & X). apply (X sm m sn n); auto.
Qed.

Lemma NC_kids : forall s x y, (forall c, In c (xkids y) -> In c (xkids x)) -> NC s x -> NC s y.
Proof. intros s x y S H. rewrite NC_iff in *. auto. Qed.

Lemma NC_none : forall s t tx a, NC s (Elem t tx a []).
Proof. intros s t tx a. apply NC_iff. intros c []. Qed.

Lemma Good_step : forall s c d, xtag d = xtag c -> (forall cs, Defines s (xtag c) cs -> OKc cs c -> OKc cs d) -> (forall cs, Defines s (xtag c) cs -> NC cs c -> NC cs d) -> Good s c -> Good s d.
Proof. intros s c d E H0 H G cs D. rewrite E in D. destruct (G cs D). split; auto. Qed.

Lemma Good_kids : forall s c d, xtag d = xtag c -> (forall cs, Defines s (xtag c) cs -> OKc cs c -> OKc cs d) -> xkids d = xkids c -> Good s c -> Good s d.
Proof. intros s c d E H0 K. apply Good_step; auto. intros cs _. apply NC_kids. rewrite K. auto. Qed.

Lemma Good_of : forall s t cs c, schema_child s t = Ok cs -> xtag c = t -> OKc cs c -> NC cs c -> Good s c.
Proof.
  intros s t cs c E Et H1 H2 cs' D. rewrite Et in D. rewrite (Defines_schema_child _ _ _ _ E D) in *. auto.
Qed.

Lemma Good_at : forall s c cs, Good s c -> schema_child s (xtag c) = Ok cs -> OKc cs c /\ NC cs c.
Proof. intros s c cs G E. apply G. apply schema_child_Defines. auto. Qed.

Lemma OKc_set_kids : forall s l x, OKc s x -> OKc s (set_kids l x).
Proof. intros s l []. auto. Qed.
Lemma NC_set_kids : forall s l x, (forall c, In c l -> Good s c) -> NC s (set_kids l x).
Proof. intros s l x H. apply NC_iff. destruct x. auto. Qed.

(** ** Pieces *)
Lemma xtag_del : forall x, xtag (del_attrib x) = xtag x.
Proof. intros []. reflexivity. Qed.

Lemma NC_del : forall x s, NC s x -> NC s (del_attrib x).
Proof.
  intro x. induction x as [x IH] using xml_ind'. intros s H. rewrite NC_iff in *. intros c I. destruct x as [t tx a ks]. cbn [del_attrib xkids] in *.
  apply in_map_iff in I. destruct I as (c0 & E & I). subst c. apply (Good_step s c0); [apply xtag_del | intros cs _ _ X; destruct c0; discriminate | auto | auto].
Qed.

Lemma Good_del : forall s c, Good s c -> Good s (del_attrib c).
Proof. intros s c. apply Good_step; [apply xtag_del | intros cs _ _ X; destruct c; discriminate |]. intros. apply NC_del. auto. Qed.

Lemma tag_set_attr : forall n v x, xtag (set_attr n v x) = xtag x /\ xkids (set_attr n v x) = xkids x.
Proof. intros n v []. auto. Qed.
Lemma tag_pop_attr : forall n x, xtag (pop_attr n x) = xtag x /\ xkids (pop_attr n x) = xkids x.
Proof. intros n []. auto. Qed.
Lemma OKc_set : forall cs n v c, String.eqb n operation_tag && String.eqb v "create" = false -> OKc cs c -> OKc cs (set_attr n v c).
Proof.
  intros cs n v c B H X. rewrite PlainP.get_set in X. rewrite String.eqb_sym in B. destruct (String.eqb operation_tag n); auto.
  assert (E : v = "create") by congruence. rewrite E in B. discriminate.
Qed.
Lemma Good_set_attr : forall s n v c, String.eqb n operation_tag && String.eqb v "create" = false -> Good s c -> Good s (set_attr n v c).
Proof. intros s n v c B. apply Good_kids; try apply tag_set_attr. intros cs _. apply OKc_set. auto. Qed.
Lemma get_pop : forall n m v x, get_attr m (pop_attr n x) = Some v -> get_attr m x = Some v.
Proof.
  intros n m v [t tx a ks]. unfold get_attr, pop_attr. cbn [xattrs]. induction a as [| [k w] a IH]; cbn [filter assoc]; auto. cbn [fst].
  destruct (String.eqb_spec n k) as [-> | E]; cbn [negb].
  - intro X. specialize (IH X). destruct (String.eqb_spec m k) as [-> | E]; auto. exfalso. clear IH. revert X.
    induction a as [| [k' w'] a IHa]; cbn [filter assoc fst]; [discriminate |]. destruct (String.eqb_spec k k') as [E | E]; cbn [negb]; auto.
    cbn [assoc]. destruct (String.eqb_spec k k'); [contradiction | auto].
  - cbn [assoc]. destruct (String.eqb m k); auto.
Qed.
Lemma Good_pop_attr : forall s n c, Good s c -> Good s (pop_attr n c).
Proof.
  intros s n c. apply Good_kids; try apply tag_pop_attr. intros cs _ H X. apply H. apply (get_pop n). exact X.
Qed.
Lemma Good_set_text : forall s t c, Good s c -> Good s (set_text t c).
Proof. intros s t []. apply Good_kids; auto. Qed.

Lemma find_kid_In : forall k l c, find_kid k l = Some c -> In c l /\ xtag c = k.
Proof. intros k l c H. apply find_some in H. destruct H as [H1 H2]. apply String.eqb_eq in H2. auto. Qed.

Lemma mapM_In : forall {A B} (f : A -> res B) l ys y, mapM f l = Ok ys -> In y ys -> exists x, In x l /\ f x = Ok y.
Proof.
  intros A B f l. induction l as [| x r IH]; intros ys y H I.
  - injection H as <-. destruct I.
  - cbn [mapM] in H. apply bind_ok in H. destruct H as (z & H1 & H). apply bind_ok in H. destruct H as (zs & H2 & H). injection H as <-.
    destruct I as [<- | I]; [exists x; split; [left; auto | auto] |]. destruct (IH zs y H2 I) as (x' & I' & E). exists x'. split; auto. right; auto.
Qed.

Lemma key_copies_Good : forall cs c ks, NC cs c -> key_copies cs c = Ok ks -> forall k, In k ks -> Good cs k.
Proof.
  intros cs c ks N H k I. destruct (mapM_In _ _ _ _ H I) as (t & _ & E).
  destruct (find_kid t (xkids c)) as [kn |] eqn:F; [| discriminate]. injection E as <-. apply Good_del. apply find_kid_In in F.
  rewrite NC_iff in N. apply N. tauto.
Qed.

Lemma del_keys_Good : forall cs c ks, NC cs c -> del_keys cs c = Ok ks -> forall k, In k ks -> Good cs k.
Proof.
  intros cs c ks N H k I. destruct (mapM_In _ _ _ _ H I) as (t & _ & E).
  destruct (find_kid t (xkids c)) as [kn |] eqn:F; [| discriminate]. injection E as <-. apply find_kid_In in F. destruct F as [F1 F2].
  rewrite NC_iff in N. apply (Good_step cs kn); auto; [intros cs0 _ _ X; discriminate |]. intros. apply NC_none.
Qed.

Definition del_kid (s : snode) (c : xml) : res xml :=
  let! cs := schema_child s (xtag c) in
  match sty cs with
  | TLeafList => Ok (Elem (xtag c) (xtext c) [(operation_tag, "delete")] [])
  | TList => let! kk := del_keys cs c in
             Ok (Elem (xtag c) None [(operation_tag, "delete")] kk)
  | _ => if np_container cs
         then let! kk := del_kids cs c in Ok (Elem (xtag c) None [] kk)
         else Ok (Elem (xtag c) None [(operation_tag, "delete")] [])
  end.

Lemma del_kids_mapM : forall s x, del_kids s x = mapM (del_kid s) (xkids x).
Proof. intros s [t tx a ks]. cbn [del_kids xkids]. induction ks as [| c r IH]; auto. cbn [mapM]. unfold del_kid at 1.
  destruct (schema_child s (xtag c)) as [cs |]; auto. cbn [bind].
  match goal with |- bind ?e _ = bind ?e _ => destruct e; auto end. cbn [bind]. rewrite IH. reflexivity.
Qed.

Lemma np_dec : forall cs, np_container cs = true -> sty cs = TContainer.
Proof. intros cs H. apply np_container_iff in H. tauto. Qed.

Lemma del_kids_Good : forall x s ks, NC s x -> del_kids s x = Ok ks -> forall k, In k ks -> Good s k.
Proof.
  intro x. induction x as [x IH] using xml_ind'. intros s ks N H k I. rewrite del_kids_mapM in H.
  destruct (mapM_In _ _ _ _ H I) as (c & Ic & E). unfold del_kid in E. apply bind_ok in E. destruct E as (cs & Es & E).
  rewrite NC_iff in N. specialize (N c Ic). destruct (Good_at _ _ _ N Es) as [N1 N2].
  assert (P : forall kk a tx, assoc String.eqb operation_tag a <> Some "create" -> (forall k, In k kk -> Good cs k) -> Good s (Elem (xtag c) tx a kk)).
  { intros kk a tx Ha Hk. apply (Good_of s (xtag c) cs); auto; [intro X; contradiction |]. apply NC_iff. auto. }
  assert (Q : (let! kk := del_kids cs c in Ok (Elem (xtag c) None [] kk)) = Ok k -> Good s k).
  { intro X. apply bind_ok in X. destruct X as (kk & X1 & X2). injection X2 as <-. apply P; [discriminate |]. exact (IH c Ic cs kk N2 X1). }
  assert (R : (if np_container cs then let! kk := del_kids cs c in Ok (Elem (xtag c) None [] kk)
               else Ok (Elem (xtag c) None [(operation_tag, "delete")] [])) = Ok k -> Good s k).
  { intro X. destruct (np_container cs); auto. injection X as <-. apply P; [discriminate |]. intros k []. }
  destruct (sty cs); auto.
  - injection E as <-. apply P; [discriminate |]. intros k [].
  - apply bind_ok in E. destruct E as (kk & X1 & X2). injection X2 as <-. apply P; [discriminate |]. exact (del_keys_Good cs c kk N2 X1).
Qed.

Lemma mk_del_Good : forall o s cs c d, schema_child s (xtag c) = Ok cs -> Good s c -> mk_del o cs c = Ok d -> Good s d /\ xtag d = xtag c.
Proof.
  intros o s cs c d Es N E. destruct (Good_at _ _ _ N Es) as [N1 N2]. unfold mk_del in E.
  assert (P : forall kk a tx, assoc String.eqb operation_tag a <> Some "create" -> (forall k, In k kk -> Good cs k) -> Good s (Elem (xtag c) tx a kk) /\ xtag (Elem (xtag c) tx a kk) = xtag c).
  { intros kk a tx Ha Hk. split; auto. apply (Good_of s (xtag c) cs); auto; [intro X; contradiction |]. apply NC_iff. auto. }
  assert (R : (if np_container cs && (match o_delete o with PDDelete => true | _ => false end)
         then let! kk := del_kids cs c in Ok (Elem (xtag c) None [] kk)
         else Ok (Elem (xtag c) None [(operation_tag, del_op o)] [])) = Ok d -> Good s d /\ xtag d = xtag c).
  { intro X. destruct (np_container cs && _).
    - apply bind_ok in X. destruct X as (kk & X1 & X2). injection X2 as <-. apply P; [unfold del_op; destruct (o_delete o); discriminate |]. exact (del_kids_Good c cs kk N2 X1).
    - injection X as <-. apply P; [unfold del_op; destruct (o_delete o); discriminate |]. intros k []. }
  destruct (sty cs); auto.
  - injection E as <-. apply P; [unfold del_op; destruct (o_delete o); discriminate |]. intros k [].
  - apply bind_ok in E. destruct E as (kk & X1 & X2). injection X2 as <-. apply P; [unfold del_op; destruct (o_delete o); discriminate |]. exact (del_keys_Good cs c kk N2 X1).
Qed.

Definition create_kid (s : snode) (c : xml) : res xml :=
  let! ce := schema_entry s (xtag c) in
  if mem pos_eqb (ce_pos ce) (default_pos [] s) then Ok c else set_create (ce_node ce) c.

Lemma set_create_mapM : forall s x, set_create s x = if np_container s then let! ks := mapM (create_kid s) (xkids x) in Ok (set_kids ks x)
  else Ok (set_attr operation_tag "create" x).
Proof.
  intros s [t tx a ks]. cbn [set_create xkids]. destruct (np_container s); [| reflexivity]. cbn [set_kids].
  match goal with |- (let! ks' := ?f ks in _) = _ => assert (G : f ks = mapM (create_kid s) ks) end.
  { induction ks as [| c r IH]; auto. cbn [mapM]. unfold create_kid at 1. destruct (schema_entry s (xtag c)) as [ce |]; auto. cbn [bind].
    destruct (if mem pos_eqb (ce_pos ce) (default_pos [] s) then Ok c else set_create (ce_node ce) c); auto. cbn [bind]. rewrite IH. reflexivity. }
  rewrite G. reflexivity.
Qed.

Lemma schema_entry_child : forall s t ce, schema_entry s t = Ok ce -> schema_child s t = Ok (ce_node ce).
Proof. intros s t ce H. unfold schema_child. rewrite H. reflexivity. Qed.

Lemma set_create_NC : forall x s y, set_create s x = Ok y -> xtag y = xtag x /\ (NC s x -> NC s y) /\ (OKc s x -> OKc s y).
Proof.
  intro x. induction x as [x IH] using xml_ind'. intros s y H. rewrite set_create_mapM in H. destruct (np_container s) eqn:NP.
  - apply bind_ok in H. destruct H as (ks & H & E). injection E as <-. destruct (set_kids_parts ks x) as (E1 & _ & E2 & _). split; [auto |].
    split; [intro N | unfold OKc, get_attr; rewrite E2; auto].
    apply NC_set_kids. intros c I. destruct (mapM_In _ _ _ _ H I) as (c0 & I0 & E). unfold create_kid in E.
    apply bind_ok in E. destruct E as (ce & Es & E). rewrite NC_iff in N. specialize (N c0 I0).
    destruct (mem pos_eqb (ce_pos ce) (default_pos [] s)); [injection E as <-; auto |].
    apply schema_entry_child in Es. destruct (IH c0 I0 _ _ E) as (T1 & T2 & T3). apply (Good_step s c0); auto; intros cs D;
      rewrite (Defines_schema_child _ _ _ _ Es D); auto.
  - injection H as <-. destruct (tag_set_attr operation_tag "create" x) as [E1 E2]. split; [auto |]. split; [apply NC_kids; rewrite E2; auto |].
    intros _ _. exact NP.
Qed.

Lemma mark_create_Good : forall o s cs c d, schema_child s (xtag c) = Ok cs -> Good s c -> mark_create o cs c = Ok d -> Good s d.
Proof.
  intros o s cs c d Es G H. unfold mark_create in H. destruct (o_create o).
  - injection H as <-. auto.
  - destruct (set_create_NC c cs d H) as (T1 & T2 & T3). apply (Good_step s c); auto; intros cs' D; rewrite (Defines_schema_child _ _ _ _ Es D); auto.
  - injection H as <-. apply Good_set_attr; [reflexivity |]. auto.
Qed.

Lemma strip_NC : forall s x y, strip_to_keys s x = Ok y -> xtag y = xtag x /\ (NC s x -> NC s y) /\ (OKc s x -> OKc s y).
Proof.
  intros s x y H. unfold strip_to_keys in H. apply bind_ok in H. destruct H as (ks & H & E). injection E as <-.
  destruct (set_kids_parts (concat ks) x) as (E1 & _ & _ & E2). split; [auto |]. split; [| apply OKc_set_kids]. apply NC_kids. rewrite E2. intros c I.
  apply in_concat in I. destruct I as (l & I1 & I2). destruct (mapM_In _ _ _ _ H I1) as (c0 & I0 & E).
  apply bind_ok in E. destruct E as (cs & _ & E). injection E as <-. destruct (s_is_key (si cs)); [| destruct I2]. destruct I2 as [<- | []]. auto.
Qed.

(** ** Lists of entries *)
Definition GoodE (s : snode) (l : list ent) : Prop := Forall (fun e => Good s (snd e)) l.
Definition GoodW (s : snode) (l : list went) : Prop := Forall (fun w => Good s (w_xml w)) l.

Lemma GoodE_Ins : forall s e l l', Ins e l l' -> GoodE s l -> Good s (snd e) -> GoodE s l'.
Proof. intros s e l l' I G H. apply (Ins_Forall _ _ _ _ I G H). Qed.
Lemma GoodE_del : forall s u l, GoodE s l -> GoodE s (del_uid u l).
Proof. intros s u l H. apply filter_Forall. auto. Qed.
Lemma GoodE_upd : forall s u x l, GoodE s l -> Good s x -> GoodE s (upd_uid u x l).
Proof. intros s u x l H G. apply upd_Forall; auto. Qed.
Lemma GoodE_snoc : forall s u x l, GoodE s l -> Good s x -> GoodE s (l ++ [(u, x)]).
Proof. intros s u x l H G. apply Forall_app. split; auto. Qed.

Lemma Index_Good : forall s x l, Index s (xkids x) l -> NC s x -> GoodE s l.
Proof.
  intros s x l (E & _) N. apply Forall_forall. intros e I. rewrite NC_iff in N. apply N. rewrite <- E. apply in_map. auto.
Qed.


Lemma uid_of_tag : forall s x u, uid_of s x = Ok u -> fst u = xtag x.
Proof.
  intros s x u H. unfold uid_of in H. apply bind_ok in H. destruct H as (cs & _ & H).
  destruct (sty cs); try (injection H as <-; reflexivity). apply bind_ok in H. destruct H as (ks & _ & H). injection H as <-. reflexivity.
Qed.

Lemma Index_tag' : forall s l es u c, Index s l es -> In (u, c) es -> fst u = xtag c.
Proof.
  intros s l es u c (_ & F & _) I. rewrite Forall_forall in F. specialize (F (u, c) I). apply uid_of_tag in F. exact F.
Qed.

Lemma both_tags : forall s l1 l2 la lb u a b, Index s l1 la -> Index s l2 lb -> In (u, a, b) (both_in la lb) -> In (u, a) la /\ In (u, b) lb /\ xtag b = xtag a.
Proof.
  intros s l1 l2 la lb u a b H1 H2 I. apply both_in_In in I. destruct I as [I1 I2]. apply (assoc_In uid_eqb uid_eqb_ok) in I2.
  split; [| split]; auto. pose proof (Index_tag' _ _ _ _ _ H1 I1). pose proof (Index_tag' _ _ _ _ _ H2 I2). congruence.
Qed.

Lemma Index_fun : forall s l la lb, Index s l la -> Index s l lb -> la = lb.
Proof. intros s l la lb H1 H2. apply index_ok in H1. apply index_ok in H2. congruence. Qed.

(** ** Subtraction *)
Lemma GoodW_init : forall s l, GoodE s l -> GoodW s (w_init l).
Proof. intros s l H. unfold GoodW, w_init. apply Forall_map. exact H. Qed.
Lemma GoodW_upd : forall s u x l, GoodW s l -> Good s x -> GoodW s (w_upd u x l).
Proof.
  intros s u x l H G. unfold GoodW, w_upd in *. apply Forall_map. rewrite Forall_forall in *. intros w I. destruct (uid_eqb u (w_uid w)); cbn [w_xml]; auto.
Qed.
Lemma GoodW_del : forall s u l, GoodW s l -> GoodW s (w_del u l).
Proof. intros s u l H. apply filter_Forall. auto. Qed.
Lemma GoodW_ins : forall s p b u x l, GoodW s l -> Good s x -> GoodW s (ins_after_last p (W b u x) l).
Proof. intros s p b u x l H G. apply (Ins_Forall _ _ _ _ (ins_after_last_Ins p (W b u x) l) H). exact G. Qed.

Lemma seq_attrs_Good : forall s t k l p l', seq_attrs t k p l = Ok l' -> GoodW s l -> GoodW s l'.
Proof.
  intros s t k l. induction l as [| w r IH]; intros p l' H G; cbn [seq_attrs] in H.
  - injection H as <-. auto.
  - inversion G as [| ? ? Gw Gr]; subst. destruct (w_orig w && w_tag t w).
    + apply bind_ok in H. destruct H as (x' & Hx & H). apply bind_ok in H. destruct H as (r' & Hr & H). injection H as <-.
      constructor; [| exact (IH _ _ Hr Gr)]. cbn [w_xml]. destruct p as [p |].
      * destruct k as [keys |].
        -- apply bind_ok in Hx. destruct Hx as (ps & _ & Hx). injection Hx as <-. do 2 (apply Good_set_attr; [reflexivity |]). auto.
        -- destruct (xtext p); [| discriminate]. injection Hx as <-. do 2 (apply Good_set_attr; [reflexivity |]). auto.
      * injection Hx as <-. apply Good_set_attr; [reflexivity |]. auto.
    + apply bind_ok in H. destruct H as (r' & Hr & H). injection H as <-. constructor; auto. exact (IH _ _ Hr Gr).
Qed.

Lemma all_seq_attrs_Good : forall s m l l', all_seq_attrs m l = Ok l' -> GoodW s l -> GoodW s l'.
Proof.
  intros s m. unfold all_seq_attrs. induction m as [| p m IH]; intros l l' H G; cbn [foldM] in H.
  - injection H as <-. auto.
  - apply bind_ok in H. destruct H as (l1 & H1 & H). apply (IH l1 l' H). exact (seq_attrs_Good _ _ _ _ _ _ H1 G).
Qed.

Lemma set_kids_W_NC : forall s l x, GoodW s l -> NC s (set_kids (map w_xml l) x).
Proof.
  intros s l x G. apply NC_set_kids. intros c I. apply in_map_iff in I. destruct I as (w & <- & I). unfold GoodW in G. rewrite Forall_forall in G. auto.
Qed.

Lemma config_replace_NC : forall o s a b r, config_replace o s a b = Ok r -> xtag r = xtag a /\ (OKc s a -> OKc s r) /\ (NC s a -> NC s b -> NC s r).
Proof.
  intros o s a b r H. unfold config_replace in H.
  apply bind_ok in H. destruct H as (g & Hg & H). apply bind_ok in H. destruct H as (l0 & H0 & H).
  apply bind_ok in H. destruct H as (st1 & H1 & H). apply bind_ok in H. destruct H as (st2 & H2 & H). apply bind_ok in H. destruct H as (st3 & H3 & H).
  apply bind_ok in H. destruct H as (l & Hl & H). injection H as <-. destruct (set_kids_parts (map w_xml l) a) as (E1 & _). split; [auto |]. split; [apply OKc_set_kids |]. intros Na Nb.
  apply group_inv in Hg. destruct Hg as (la & lb & Ia & Ib & ->). cbn [in_1_and_2 in_2_not_1 in_1_not_2] in *. apply index_ok in H0.
  assert (l0 = la) by (eapply Index_fun; eauto). subst l0.
  pose proof (Index_Good _ _ _ Ia Na) as Ga. pose proof (Index_Good _ _ _ Ib Nb) as Gb. unfold GoodE in Gb. rewrite Forall_forall in Gb.
  assert (Ga' := Ga). unfold GoodE in Ga'. rewrite Forall_forall in Ga'. apply set_kids_W_NC. apply (all_seq_attrs_Good _ _ _ _ Hl).
  assert (G1 : GoodW s (r_self st1)).
  { apply (foldM_inv_ok (repl_only_self s) (fun _ st => GoodW s (r_self st)) _ (RState (w_init la) []) _ (GoodW_init _ _ Ga)) in H1; auto.
    intros done0 [u c] r0 s0 s1 E G X. assert (I : In (u, c) (only_in la lb)) by (rewrite E; apply in_or_app; right; left; auto). apply only_in_In in I.
    unfold repl_only_self in X. apply bind_ok in X. destruct X as (cs & _ & X). injection X as <-. cbn [r_self]. apply GoodW_upd; auto.
    apply Good_set_attr; [reflexivity |]. apply (Ga' (u, c)). tauto. }
  assert (G2 : GoodW s (r_self st2)).
  { apply (foldM_inv_ok (repl_only_other o s) (fun _ st => GoodW s (r_self st)) _ _ _ G1) in H2; auto.
    intros done0 [u c] r0 s0 s1 E G X. assert (I : In (u, c) (only_in lb la)) by (rewrite E; apply in_or_app; right; left; auto). apply only_in_In in I.
    unfold repl_only_other in X. apply bind_ok in X. destruct X as (cs & Es & X). apply bind_ok in X. destruct X as (d & Hd & X). injection X as <-. cbn [r_self].
    apply GoodW_ins; auto. destruct (mk_del_Good o s cs c d Es (Gb (u, c) (proj1 I)) Hd). auto. }
  apply (foldM_inv_ok (repl_both s) (fun _ st => GoodW s (r_self st)) _ _ _ G2) in H3; auto.
  intros done0 [[u x] y] r0 s0 s1 E G X. assert (I : In (u, x, y) (both_in la lb)) by (rewrite E; apply in_or_app; right; left; auto).
  destruct (both_tags _ _ _ _ _ _ _ _ Ia Ib I) as (I1 & I2 & Et). pose proof (Ga' _ I1) as Gx. cbn [snd] in Gx.
  assert (GK : GoodW s (w_upd u (set_attr operation_tag "replace" x) (r_self s0))) by (apply GoodW_upd; auto; apply Good_set_attr; auto).
  assert (GD : GoodW s (w_del u (r_self s0))) by (apply GoodW_del; auto).
  unfold repl_both in X. cbv zeta in X. apply bind_ok in X. destruct X as (cs & Es & X). destruct (sty cs); try discriminate.
  - apply bind_ok in X. destruct X as (sm & _ & X). destruct sm; [destruct (s_is_key (si cs)) |]; injection X as <-; auto.
    cbn [r_self]. apply GoodW_upd; auto. apply Good_pop_attr. apply Good_set_attr; [reflexivity |]. auto.
  - destruct (s_user (si cs)); injection X as <-; auto.
  - apply bind_ok in X. destruct X as (e & _ & X). destruct e; injection X as <-; auto.
  - apply bind_ok in X. destruct X as (e & _ & X). destruct (e && negb (s_user (si cs))); injection X as <-; auto.
Qed.

Theorem node_sub_NC : forall f o s dp a b r, node_sub f o s dp a b = Ok r -> xtag (fst r) = xtag a /\ xtag (snd r) = xtag b /\ (OKc s a -> OKc s (fst r)) /\ (OKc s b -> OKc s (snd r)) /\
  (NC s a -> NC s b -> NC s (fst r) /\ NC s (snd r)).
Proof.
  intros f o. induction f as [| f IH]; intros s dp a b r H; [discriminate |]. cbn [node_sub] in H.
  apply bind_ok in H. destruct H as (df & _ & H). destruct df.
  { injection H as <-. cbn [fst snd]. destruct (tag_set_attr operation_tag "replace" a) as [E1 E2]. destruct (tag_set_attr operation_tag "replace" b) as [F1 F2].
    split; [| split; [| split; [| split]]]; auto; try (apply OKc_set; reflexivity). intros Na Nb. split; [apply (NC_kids s a) | apply (NC_kids s b)]; auto; rewrite ?E2, ?F2; auto. }
  apply bind_ok in H. destruct H as (g & Hg & H). apply bind_ok in H. destruct H as (l1 & Hl1 & H). apply bind_ok in H. destruct H as (l2 & Hl2 & H).
  cbv zeta in H. apply bind_ok in H. destruct H as (st1 & H1 & H). apply bind_ok in H. destruct H as (st2 & H2 & H). apply bind_ok in H. destruct H as (st3 & H3 & H).
  apply bind_ok in H. destruct H as (ls & Hls & H). apply bind_ok in H. destruct H as (lo & Hlo & H). injection H as <-. cbn [fst snd].
  destruct (set_kids_parts (map w_xml ls) a) as (E1 & _). destruct (set_kids_parts (map w_xml lo) b) as (E2 & _). split; [| split; [| split; [| split]]]; auto; try (apply OKc_set_kids). intros Na Nb.
  apply group_inv in Hg. destruct Hg as (la & lb & Ia & Ib & ->). cbn [in_1_and_2 in_2_not_1 in_1_not_2] in *.
  apply index_ok in Hl1. apply index_ok in Hl2.
  assert (l1 = la) by (eapply Index_fun; eauto). assert (l2 = lb) by (eapply Index_fun; eauto). subst l1 l2.
  pose proof (Index_Good _ _ _ Ia Na) as Ga. pose proof (Index_Good _ _ _ Ib Nb) as Gb.
  assert (Ga' := Ga). unfold GoodE in Ga'. rewrite Forall_forall in Ga'. assert (Gb' := Gb). unfold GoodE in Gb'. rewrite Forall_forall in Gb'.
  set (P := fun st => GoodW s (ss_self st) /\ GoodW s (ss_other st)).
  assert (G0 : P (SState (w_init la) (w_init lb) [] [])) by (split; apply GoodW_init; auto).
  assert (G1 : P st1).
  { apply (foldM_inv_ok (sub_only_self o s) (fun _ st => P st) _ _ _ G0) in H1; auto.
    intros done0 [u c] r0 s0 s1 E [G G'] X. assert (I : In (u, c) (only_in la lb)) by (rewrite E; apply in_or_app; right; left; auto). apply only_in_In in I.
    pose proof (Ga' _ (proj1 I)) as Gc. cbn [snd] in Gc.
    unfold sub_only_self in X. apply bind_ok in X. destruct X as (ce & Es & X). cbv zeta in X. apply schema_entry_child in Es.
    apply bind_ok in X. destruct X as (c' & Hc & X). apply bind_ok in X. destruct X as (d & Hd & X). injection X as <-. split; cbn [ss_self ss_other].
    - apply GoodW_upd; auto.
      assert (MC : mark_create o (ce_node ce) c = Ok c' -> Good s c') by (intro Y; exact (mark_create_Good o s _ c c' Es Gc Y)).
      destruct (o_type o); auto. injection Hc as <-. apply Good_set_attr; [reflexivity |]. auto.
    - apply GoodW_ins; auto. destruct (mk_del_Good o s _ c d Es Gc Hd). auto. }
  assert (G2 : P st2).
  { apply (foldM_inv_ok (sub_only_other o s) (fun _ st => P st) _ _ _ G1) in H2; auto.
    intros done0 [u c] r0 s0 s1 E [G G'] X. assert (I : In (u, c) (only_in lb la)) by (rewrite E; apply in_or_app; right; left; auto). apply only_in_In in I.
    pose proof (Gb' _ (proj1 I)) as Gc. cbn [snd] in Gc.
    unfold sub_only_other in X. apply bind_ok in X. destruct X as (ce & Es & X). cbv zeta in X. apply schema_entry_child in Es.
    apply bind_ok in X. destruct X as (c' & Hc & X). apply bind_ok in X. destruct X as (d & Hd & X). injection X as <-. split; cbn [ss_self ss_other].
    - destruct (existsb (w_tag (xtag c)) (ss_self s0) || case_allows ce (ss_cho s0)); auto.
      apply GoodW_ins; auto. destruct (mk_del_Good o s _ c d Es Gc Hd). auto.
    - apply GoodW_upd; auto. exact (mark_create_Good o s _ c c' Es Gc Hc). }
  assert (G3 : P st3).
  { match type of H3 with foldM (sub_both o ?rc s) _ _ = _ => set (rec := rc) in H3 end.
    assert (RN : forall cs x y ab, rec cs x y = Ok ab -> xtag (fst ab) = xtag x /\ xtag (snd ab) = xtag y /\ (OKc cs x -> OKc cs (fst ab)) /\ (OKc cs y -> OKc cs (snd ab)) /\
       (NC cs x -> NC cs y -> NC cs (fst ab) /\ NC cs (snd ab))).
    { intros cs x y ab X. unfold rec in X. destruct (o_type o); try exact (IH _ _ _ _ _ X).
      destruct (Z.eqb (o_depth o) (dp + 1)); [| exact (IH _ _ _ _ _ X)]. apply bind_ok in X. destruct X as (a' & X & Y). injection Y as <-. cbn [fst snd].
      destruct (config_replace_NC _ _ _ _ _ X) as (T1 & T0 & T2). split; [| split; [| split; [| split]]]; auto. }
    apply (foldM_inv_ok (sub_both o rec s) (fun _ st => P st) _ _ _ G2) in H3; auto. clearbody rec.
    intros done0 [[u x] y] r0 s0 s1 E [G G'] X. assert (I : In (u, x, y) (both_in la lb)) by (rewrite E; apply in_or_app; right; left; auto).
    destruct (both_tags _ _ _ _ _ _ _ _ Ia Ib I) as (I1 & I2 & Et). pose proof (Ga' _ I1) as Gx. pose proof (Gb' _ I2) as Gy. cbn [snd] in Gx, Gy.
    unfold sub_both in X. apply bind_ok in X. destruct X as (cs & Es & X). cbv zeta in X.
    destruct (Good_at _ _ _ Gx Es) as [N1 N2]. assert (Es' : schema_child s (xtag y) = Ok cs) by congruence. destruct (Good_at _ _ _ Gy Es') as [N4 N3].
    assert (DR : forall m, Ok (SState (w_del u (ss_self s0)) (w_del u (ss_other s0)) m (ss_cho s0)) = Ok s1 -> P s1).
    { intros m Y. injection Y as <-. split; apply GoodW_del; auto. }
    assert (PU : forall x' y' m, Good s x' -> Good s y' -> Ok (SState (w_upd u x' (ss_self s0)) (w_upd u y' (ss_other s0)) m (ss_cho s0)) = Ok s1 -> P s1).
    { intros x' y' m G1' G2' Y. injection Y as <-. split; apply GoodW_upd; auto. }
    assert (SAME : Ok s0 = Ok s1 -> P s1) by (intro Y; injection Y as <-; split; auto).
    assert (GR : forall ab m, rec cs x y = Ok ab -> Ok (SState (w_upd u (fst ab) (ss_self s0)) (w_upd u (snd ab) (ss_other s0)) m (ss_cho s0)) = Ok s1 -> P s1).
    { intros ab m R Y. destruct (RN _ _ _ _ R) as (T1 & T2 & T6 & T7 & T3). destruct (T3 N2 N3) as [T4 T5].
      apply (PU _ _ _ (Good_of s (xtag x) cs _ Es T1 (T6 N1) T4) (Good_of s (xtag y) cs _ Es' T2 (T7 N4) T5) Y). }
    destruct (sty cs); try discriminate.
    - apply bind_ok in X. destruct X as (sm & _ & X). destruct sm; [destruct (s_is_key (si cs)); eauto |]. destruct (o_replace o); auto.
      refine (PU _ _ _ _ _ X); apply Good_set_attr; auto.
    - destruct (s_user (si cs)); [refine (PU _ _ _ _ _ X); auto | eauto].
    - apply bind_ok in X. destruct X as (e & _ & X). destruct e; [eauto |]. apply bind_ok in X. destruct X as (ab & R & X). exact (GR _ _ R X).
    - apply bind_ok in X. destruct X as (e & _ & X). destruct e; [| apply bind_ok in X; destruct X as (ab & R & X); exact (GR _ _ R X)].
      destruct (s_user (si cs)); [| eauto]. apply bind_ok in X. destruct X as (x' & X1 & X). apply bind_ok in X. destruct X as (y' & X2 & X).
      destruct (strip_NC _ _ _ X1) as (T1 & T2 & T5). destruct (strip_NC _ _ _ X2) as (T3 & T4 & T6).
      apply (PU _ _ _ (Good_of s (xtag x) cs _ Es T1 (T5 N1) (T2 N2)) (Good_of s (xtag y) cs _ Es' T3 (T6 N4) (T4 N3)) X). }
  destruct G3 as [G3 G4]. split; apply set_kids_W_NC; eapply all_seq_attrs_Good; eauto.
Qed.

Lemma mark_depth_NC : forall x d s, NC s x -> NC s (mark_depth d x).
Proof.
  assert (T : forall d x, xtag (mark_depth d x) = xtag x /\ xkids (mark_depth d x) = map (mark_depth (d - 1)) (xkids x)).
  { intros d [t tx a ks]. cbn [mark_depth]. destruct (Z.eqb d 0); split; reflexivity. }
  intro x. induction x as [x IH] using xml_ind'. intros d s N. rewrite NC_iff in *. destruct (T d x) as [_ E]. rewrite E. intros c I.
  apply in_map_iff in I. destruct I as (c0 & <- & I). apply (Good_step s c0); [apply T | | auto | auto].
  intros cs _ H X. apply H. destruct c0 as [t tx a ks]. cbn [mark_depth] in X. destruct (Z.eqb (d - 1) 0); auto.
  change (get_attr operation_tag (set_attr "operation" "replace" (Elem t tx a (map (mark_depth (d - 1 - 1)) ks))) = Some "create") in X.
  rewrite PlainP.get_set in X. exact X.
Qed.

Theorem nc_sub_NC : forall o s a b r, nc_sub o s a b = Ok r -> NC s a -> NC s b -> NC s r.
Proof.
  intros o s a b r H Na Nb. unfold nc_sub in H. apply bind_ok in H. destruct H as (d & Hd & H).
  assert (Nd : NC s d).
  { assert (X : (let! p := node_sub (height a) o s 0 a b in Ok (fst p)) = Ok d -> NC s d).
    { intro X. apply bind_ok in X. destruct X as (p & X1 & X2). injection X2 as <-. apply node_sub_NC in X1. apply X1; auto. }
    destruct (o_type o); auto. destruct (Z.eqb (o_depth o) 0); auto. apply config_replace_NC in Hd. apply Hd; auto. }
  destruct (o_type o); injection H as <-; auto. apply mark_depth_NC. auto.
Qed.

Lemma NC_valid : forall x s, valid s x = true -> NC s x.
Proof.
  intro x. induction x as [x IH] using xml_ind'. intros s V. apply NC_iff. intros c I cs D. destruct (valid_inv s x V) as (_ & _ & K).
  destruct (K c I) as (cs' & Sc & Vc). assert (cs = cs') by (apply (Defines_schema_child s (xtag c)); auto). subst cs'. split; [| apply IH; auto].
  intro X. destruct (valid_inv cs c Vc) as (A & _). unfold get_attr in X. rewrite A in X. discriminate.
Qed.

Theorem no_container_created : forall o s a b d, IsConfig s a -> IsConfig s b -> delta_nc s (Delta a b o) = Ok d ->
  forall p s' n, At s d p s' n -> p <> [] -> get_attr operation_tag n = Some "create" -> np_container s' = false.
Proof.
  intros o s a b d (Va & _) (Vb & _) H p s' n A NE O. unfold delta_nc in H. cbn [d_src d_dst d_opts] in H.
  pose proof (nc_sub_NC o s b a d H (NC_valid b s Vb) (NC_valid a s Va)) as N. clear H Va Vb.
  revert NE O. induction A as [s x | s x c cs u q s' n I D _ A IH]; intros NE O; [contradiction |].
  rewrite NC_iff in N. destruct (N c I cs D) as [N1 N2]. inversion A; subst; [apply N1; auto |]. apply IH; auto. discriminate.
Qed.
