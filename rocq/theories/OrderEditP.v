(** Proofs: the order of entries after an edit. *)
From Coq Require Import String Ascii List Bool Arith ZArith Lia Permutation.
From Verif Require Import Base BaseP XmlM CalcM CalcP NetconfM ListP DataSpec DataP DeltaSpec NameP EditSpec EditP EditSemP EditValP.
Import ListNotations.
Open Scope string_scope.
Open Scope list_scope.

Section Tag.
Variable t : string.
Definition tagof (e : ent) : bool := String.eqb (fst (fst e)) t.
Definition part (l : list ent) : list ent := filter tagof l.
Definition Tagged (l : list ent) : Prop := Forall (fun e => xtag (snd e) = fst (fst e)) l.

Lemma seqt_part : forall l, seqt t l = map fst (part l).
Proof. intro l. unfold seqt, part, uids. induction l as [| e r IH]; auto. cbn [map filter]. unfold tagof at 1. destruct (String.eqb (fst (fst e)) t); cbn [map]; rewrite IH; auto. Qed.
Lemma has_tag_of : forall e, xtag (snd e) = fst (fst e) -> has_tag t e = tagof e.
Proof. intros [[a b] x] H. unfold has_tag, tagof. simpl in *. rewrite H. auto. Qed.

Lemma first_seq : forall e l, Tagged l -> tagof e = true -> seqt t (ins_before_first (has_tag t) e l) = fst e :: seqt t l.
Proof.
  intros e l T H. rewrite !seqt_part. unfold part. induction T as [| x r Hx T IH]; cbn [ins_before_first filter].
  - rewrite H. auto.
  - rewrite (has_tag_of x Hx). destruct (tagof x) eqn:X.
    + cbn [filter]. rewrite H, X. auto.
    + cbn [filter]. rewrite X. auto.
Qed.
Lemma none_seq : forall l, Tagged l -> existsb (has_tag t) l = false -> seqt t l = [].
Proof.
  intros l T H. rewrite seqt_part. unfold part. induction T as [| x r Hx T IH]; auto. cbn [existsb] in H. apply orb_false_iff in H. destruct H as [H1 H2].
  rewrite (has_tag_of x Hx) in H1. cbn [filter]. rewrite H1. auto.
Qed.
Lemma last_seq : forall e l, Tagged l -> tagof e = true -> seqt t (ins_after_last (has_tag t) e l) = seqt t l ++ [fst e].
Proof.
  intros e l T H. rewrite !seqt_part. unfold part. induction T as [| x r Hx T IH]; cbn [ins_after_last].
  - cbn [filter]. rewrite H. auto.
  - destruct (existsb (has_tag t) r) eqn:E.
    + cbn [filter]. destruct (tagof x); cbn [map app]; rewrite IH; auto.
    + rewrite (has_tag_of x Hx). destruct (tagof x) eqn:X.
      * cbn [filter]. rewrite X, H. cbn [map]. pose proof (none_seq r T E) as N. rewrite seqt_part in N. unfold part in N. rewrite N. auto.
      * cbn [filter]. rewrite X. auto.
Qed.
Lemma before_seq : forall w e l, In w (uids l) -> fst w = t -> tagof e = true ->
  exists a b, seqt t l = a ++ w :: b /\ seqt t (ins_before_first (has_uid w) e l) = a ++ fst e :: w :: b.
Proof.
  intros w e l I W H. induction l as [| x r IH]; [destruct I |]. rewrite !seqt_part in *. unfold part in *. cbn [ins_before_first]. unfold has_uid at 1.
  destruct (uid_eqb w (fst x)) eqn:E.
  - apply uid_eqb_ok in E. assert (X : tagof x = true) by (unfold tagof; rewrite <- E, W; apply String.eqb_refl). exists [], (map fst (filter tagof r)).
    cbn [filter]. rewrite H, X. cbn [map app]. rewrite <- E. auto.
  - destruct I as [I | I]; [rewrite I, uid_eqb_refl in E; discriminate |]. destruct (IH I) as (a & b & E1 & E2). cbn [filter]. destruct (tagof x); cbn [map]; rewrite E1, E2; [exists (fst x :: a), b | exists a, b]; auto.
Qed.
Lemma after_seq : forall w e l, In w (uids l) -> fst w = t -> tagof e = true ->
  exists a b, seqt t l = a ++ w :: b /\ seqt t (ins_after_first (has_uid w) e l) = a ++ w :: fst e :: b.
Proof.
  intros w e l I W H. induction l as [| x r IH]; [destruct I |]. rewrite !seqt_part in *. unfold part in *. cbn [ins_after_first]. unfold has_uid at 1.
  destruct (uid_eqb w (fst x)) eqn:E.
  - apply uid_eqb_ok in E. assert (X : tagof x = true) by (unfold tagof; rewrite <- E, W; apply String.eqb_refl). exists [], (map fst (filter tagof r)).
    cbn [filter]. rewrite X, H. cbn [map app]. rewrite <- E. auto.
  - destruct I as [I | I]; [rewrite I, uid_eqb_refl in E; discriminate |]. destruct (IH I) as (a & b & E1 & E2). cbn [filter]. destruct (tagof x); cbn [map]; rewrite E1, E2; [exists (fst x :: a), b | exists a, b]; auto.
Qed.

(** Entries of other tags do not matter. *)
Lemma part_Ins : forall e l l', Ins e l l' -> tagof e = false -> part l' = part l.
Proof. intros. apply (Ins_filter_out _ e); auto. Qed.
Lemma part_upd : forall u x l, String.eqb (fst u) t = false -> part (upd_uid u x l) = part l.
Proof.
  intros u x l H. unfold part, upd_uid. induction l as [| e r IH]; auto. cbn [map filter]. rewrite IH. destruct (has_uid u e) eqn:E; auto. unfold has_uid in E. apply uid_eqb_ok in E.
  assert (X : tagof e = false) by (unfold tagof; rewrite <- E; auto). rewrite X. unfold tagof. cbn [fst]. rewrite H. auto.
Qed.
Lemma part_del : forall u l, String.eqb (fst u) t = false -> part (del_uid u l) = part l.
Proof.
  intros u l H. unfold part, del_uid. induction l as [| e r IH]; auto. cbn [filter]. unfold has_uid at 1. destruct (uid_eqb u (fst e)) eqn:E; cbn [negb filter]; rewrite IH; auto.
  apply uid_eqb_ok in E. assert (X : tagof e = false) by (unfold tagof; rewrite <- E; auto). rewrite X. auto.
Qed.
Lemma Tagged_upd : forall u x l, Tagged l -> xtag x = fst u -> Tagged (upd_uid u x l).
Proof. intros u x l T H. apply upd_Forall; auto. Qed.
Lemma Tagged_del : forall u l, Tagged l -> Tagged (del_uid u l).
Proof. intros u l T. unfold Tagged, del_uid in *. rewrite Forall_forall in *. intros e H. apply filter_In in H. apply T. tauto. Qed.
Lemma Tagged_Ins : forall e l l', Ins e l l' -> Tagged l -> xtag (snd e) = fst (fst e) -> Tagged l'.
Proof. intros e l l' I T H. apply (Ins_Forall _ e l); auto. Qed.

Lemma move_cases : forall cs c u x l l', move_peer cs c (u, x) l = Ok l' -> l' = l \/ Ins (u, x) (del_uid u l) l'.
Proof.
  intros cs c u x l l' H. unfold move_peer in H. cbn [fst] in H.
  destruct (if s_user (si cs) then get_attr insert_tag c else None) as [v |]; [| injection H as H; auto].
  destruct (String.eqb v "first") eqn:E1.
  { apply String.eqb_eq in E1. subst v. destruct (find _ l) as [e0 |]; [| discriminate]. destruct (has_uid u e0); injection H as H; subst; auto. right. apply ins_before_first_Ins. }
  destruct (String.eqb v "last") eqn:E2.
  { apply String.eqb_eq in E2. subst v. destruct (find _ (rev l)) as [e0 |]; [| discriminate]. destruct (has_uid u e0); injection H as H; subst; auto. right. apply ins_after_last_Ins. }
  destruct (String.eqb v "before") eqn:E3.
  { apply String.eqb_eq in E3. subst v. apply bind_ok in H. destruct H as (w & _ & H). destruct (uid_eqb w u); injection H as H; subst; auto. right. apply ins_before_first_Ins. }
  destruct (String.eqb v "after") eqn:E4.
  { apply String.eqb_eq in E4. subst v. apply bind_ok in H. destruct H as (w & _ & H). destruct (uid_eqb w u); injection H as H; subst; auto. right. apply ins_after_first_Ins. }
  left. apply String.eqb_neq in E1, E2, E3, E4.
  repeat match type of H with context [match ?x with _ => _ end] => destruct x; try (exfalso; congruence); try (injection H as H; congruence) end.
Qed.

Section Step.
Variable f : nat.
Variable s : snode.

(** Both loops keep the list tagged; a child of another tag does not touch the part. *)
Lemma new_keeps : forall l u c l', add_new (node_add f) s l (u, c) = Ok l' -> fst u = xtag c -> Tagged l ->
  Tagged l' /\ (String.eqb (fst u) t = false -> part l' = part l).
Proof.
  intros l u c l' H U T.
  assert (SAME : Ok l = Ok l' -> Tagged l' /\ (String.eqb (fst u) t = false -> part l' = part l)) by (intro E; injection E as E; subst; auto).
  assert (ADD : forall e l1, xtag e = xtag c -> Ins (u, e) l l1 -> Tagged l1 /\ (String.eqb (fst u) t = false -> part l1 = part l)).
  { intros e l1 E I. split; [apply (Tagged_Ins (u, e) l); auto; simpl; congruence |]. intro N. apply (part_Ins (u, e)); auto. }
  assert (DT : xtag (del_attrib c) = xtag c) by (destruct c; auto).
  assert (PL : forall cs e, xtag e = xtag c -> (let! r := place_new cs c (u, e) l in match r with Some l' => Ok l' | None => Ok l end) = Ok l' -> Tagged l' /\ (String.eqb (fst u) t = false -> part l' = part l)).
  { intros cs e E Q. apply bind_ok in Q. destruct Q as (r & P & Q). apply place_new_inv in P. destruct r as [l1 |]; [| auto]. injection Q as Q. subst l1. apply (ADD e); tauto. }
  unfold add_new in H. destruct (op_of c); try discriminate; auto;
    (apply bind_ok in H; destruct H as (cs & S & H); destruct (sty cs); auto;
     try (injection H as H; subst l'; apply (ADD (del_attrib c)); auto; apply app_Ins);
     try (apply (PL cs (del_attrib c)); auto; fail)).
  - apply bind_ok in H. destruct H as (e & R & H). injection H as H. subst l'. apply (ADD e); [| apply app_Ins]. apply add_tag in R. rewrite R. auto.
  - apply bind_ok in H. destruct H as (ks & K & H). apply bind_ok in H. destruct H as (r & P & H). apply place_new_inv in P. destruct r as [l1 |]; [| discriminate]. destruct P as [I _].
    apply bind_ok in H. destruct H as (e & R & H). injection H as H. subst l'. apply add_tag in R. cbn [xtag] in R. destruct (ADD (Elem (xtag c) None [] ks) l1 eq_refl I) as [A1 A2].
    split; [apply Tagged_upd; congruence |]. intro N. rewrite part_upd; auto.
Qed.

Lemma peer_keeps : forall l u x c l', add_peer (node_add f) s l (u, x, c) = Ok l' -> fst u = xtag c -> xtag x = xtag c -> Tagged l ->
  Tagged l' /\ (String.eqb (fst u) t = false -> part l' = part l).
Proof.
  intros l u x c l' H U X T.
  assert (UPD : forall e l1, xtag e = xtag c -> Tagged l1 -> (String.eqb (fst u) t = false -> part l1 = part l) ->
     Ok (upd_uid u e l1) = Ok l' -> Tagged l' /\ (String.eqb (fst u) t = false -> part l' = part l)).
  { intros e l1 E T1 P1 Q. injection Q as Q. subst l'. split; [apply Tagged_upd; congruence |]. intro N. rewrite part_upd; auto. }
  assert (DEL : Ok (del_uid u l) = Ok l' -> Tagged l' /\ (String.eqb (fst u) t = false -> part l' = part l)).
  { intro Q. injection Q as Q. subst l'. split; [apply Tagged_del; auto |]. apply part_del. }
  assert (MOV : forall cs l1, move_peer cs c (u, x) l = Ok l1 -> Tagged l1 /\ (String.eqb (fst u) t = false -> part l1 = part l)).
  { intros cs l1 M. apply move_cases in M. destruct M as [M | M]; [subst; auto |]. split.
    - apply (Tagged_Ins (u, x) (del_uid u l)); auto; [apply Tagged_del; auto | simpl; congruence].
    - intro N. rewrite (part_Ins (u, x) (del_uid u l)); auto. apply part_del. auto. }
  assert (DT : xtag (del_attrib c) = xtag c) by (destruct c; auto).
  unfold add_peer in H. apply bind_ok in H. destruct H as (cs & S & H). destruct (sty cs).
  all: try (injection H as H; subst l'; auto; fail).
  - destruct (op_of c); try discriminate; auto; apply (UPD (set_text (xtext c) x) l); auto; rewrite set_text_tag; auto.
  - destruct (op_of c); try discriminate; auto; apply (MOV cs); auto.
  - cbv zeta in H. destruct (op_of c); try discriminate; auto.
    + apply bind_ok in H. destruct H as (e & R & H). apply add_tag in R. assert (E : xtag e = xtag c) by congruence.
      destruct (xkids e) as [| k ks]; [destruct (np_container cs); auto |]; apply (UPD e l); auto.
    + destruct (_ && _); [discriminate |]. apply (UPD (del_attrib c) l); auto.
    + destruct (_ && _); [discriminate |]. auto.
    + destruct (_ && _); [discriminate |]. auto.
  - destruct (op_of c); auto; apply bind_ok in H; destruct H as (l1 & M & H); try discriminate; destruct (MOV cs l1 M) as [M1 M2].
    + apply bind_ok in H. destruct H as (e & R & H). apply add_tag in R. apply (UPD e l1); auto. congruence.
    + apply (UPD (del_attrib c) l1); auto.
Qed.
End Step.

(** The entry itself *)
Definition ins_of (cs : snode) (c : xml) : option string := if s_user (si cs) then get_attr insert_tag c else None.
Definition RefL (cs : snode) (c : xml) (l : list ent) (w : uid) : Prop := ref_sibling (sty cs) c l = Ok w.

Lemma ref_In : forall cs c l w, Tagged l -> xtag c = t -> RefL cs c l w ->
  exists e, In (w, e) l /\ fst w = t /\
    match sty cs with
    | TLeafList => exists v, get_attr value_tag c = Some v /\ xtext e = Some v
    | _ => exists p ps, get_attr key_tag c = Some p /\ parse_preds (String.length p) p = Some ps /\ matches_preds ps e = true
    end.
Proof.
  intros cs c l w T C R. unfold RefL, ref_sibling in R.
  assert (TG : forall w e, In (w, e) l -> has_tag (xtag c) (w, e) = true -> fst w = t).
  { intros w' e I H. unfold Tagged in T. rewrite Forall_forall in T. specialize (T _ I). unfold has_tag in H. apply String.eqb_eq in H. simpl in *. congruence. }
  assert (G : forall tx, (match get_attr key_tag c with None => Err ConfigDeltaError | Some p => let! o := find_key (xtag c) p l in match o with None => Err ConfigDeltaError | Some u => Ok u end end) = Ok w ->
    sty cs = tx -> exists e, In (w, e) l /\ fst w = t /\ exists p ps, get_attr key_tag c = Some p /\ parse_preds (String.length p) p = Some ps /\ matches_preds ps e = true).
  { intros tx Q _. destruct (get_attr key_tag c) as [p |]; [| discriminate]. apply bind_ok in Q. destruct Q as (o & F & Q). unfold find_key in F.
    destruct (parse_preds (String.length p) p) as [ps |] eqn:P; [| discriminate]. injection F as F. subst o.
    destruct (find (fun e => has_tag (xtag c) e && matches_preds ps (snd e)) l) as [[w' e] |] eqn:F; [| discriminate]. injection Q as Q. subst w'.
    apply find_some in F. destruct F as [F1 F2]. apply andb_true_iff in F2. destruct F2 as [F2 F3]. exists e. split; auto. split; [apply (TG w e); auto |]. exists p, ps. auto. }
  destruct (sty cs) eqn:S; try (apply (G (sty cs)); auto; fail).
  destruct (get_attr value_tag c) as [v |]; [| discriminate]. unfold find_value in R.
  destruct (find (fun e => has_tag (xtag c) e && ostr_eqb (xtext (snd e)) (Some v)) l) as [[w' e] |] eqn:F; [| discriminate]. injection R as R. subst w'.
  apply find_some in F. destruct F as [F1 F2]. apply andb_true_iff in F2. destruct F2 as [F2 F3]. exists e. split; auto. split; [apply (TG w e); auto |]. exists v. split; auto.
  simpl in F3. destruct (xtext e) as [x |]; [| discriminate]. simpl in F3. apply String.eqb_eq in F3. congruence.
Qed.

Lemma without_none : forall u l, ~ In u l -> without u l = l.
Proof.
  intros u l H. unfold without. induction l as [| x r IH]; auto. cbn [filter]. destruct (uid_eqb u x) eqn:E; [apply uid_eqb_ok in E; subst; exfalso; apply H; left; auto |].
  cbn [negb]. f_equal. apply IH. intro I. apply H. right. auto.
Qed.
Lemma seqt_In : forall u l, In u (seqt t l) <-> In u (uids l) /\ fst u = t.
Proof. intros u l. unfold seqt. rewrite filter_In, String.eqb_eq. tauto. Qed.

Lemma place_seq : forall cs c u e l l', place_new cs c (u, e) l = Ok (Some l') -> Tagged l -> fst u = t -> xtag c = t -> ~ In u (uids l) ->
  Put (RefL cs c l) (ins_of cs c) u (seqt t l) (seqt t l').
Proof.
  intros cs c u e l l' H T U C N. assert (TE : tagof (u, e) = true) by (unfold tagof; simpl; rewrite U; apply String.eqb_refl).
  assert (N' : ~ In u (seqt t l)) by (rewrite seqt_In; tauto). assert (WN := without_none u _ N').
  unfold place_new in H. fold (ins_of cs c) in H. rewrite C in H. destruct (ins_of cs c) as [v |].
  2: { injection H as H. subst l'. rewrite last_seq by auto. apply put_end; auto. }
  destruct (String.eqb v "first") eqn:E1.
  { apply String.eqb_eq in E1. subst v. injection H as H. subst l'. rewrite first_seq by auto. cbn [fst]. rewrite <- WN at 2. apply put_first. auto. }
  destruct (String.eqb v "last") eqn:E2.
  { apply String.eqb_eq in E2. subst v. injection H as H. subst l'. rewrite last_seq by auto. cbn [fst]. rewrite <- WN at 2. apply put_last. auto. }
  destruct (String.eqb v "before") eqn:E3.
  { apply String.eqb_eq in E3. subst v. apply bind_ok in H. destruct H as (w & R & H). injection H as H. subst l'.
    destruct (ref_In cs c l w T C R) as (e' & I & W & _). assert (IU : In w (uids l)) by (apply in_map_iff; exists (w, e'); auto).
    destruct (before_seq w (u, e) l IU W TE) as (a & b & B1 & B2). rewrite B2. cbn [fst]. apply put_before; auto; [intro; subst; contradiction | congruence]. }
  destruct (String.eqb v "after") eqn:E4.
  { apply String.eqb_eq in E4. subst v. apply bind_ok in H. destruct H as (w & R & H). injection H as H. subst l'.
    destruct (ref_In cs c l w T C R) as (e' & I & W & _). assert (IU : In w (uids l)) by (apply in_map_iff; exists (w, e'); auto).
    destruct (after_seq w (u, e) l IU W TE) as (a & b & B1 & B2). rewrite B2. cbn [fst]. apply put_after; auto; [intro; subst; contradiction | congruence]. }
  exfalso. apply String.eqb_neq in E1, E2, E3, E4.
  repeat match type of H with context [match ?x with _ => _ end] => destruct x; try (exfalso; congruence); try discriminate end.
Qed.

Lemma find_first : forall l e0, Tagged l -> find (has_tag t) l = Some e0 -> exists r, seqt t l = fst e0 :: r.
Proof.
  intros l e0 T H. rewrite seqt_part. unfold part. induction T as [| x r Hx T IH]; [discriminate |]. cbn [find] in H. rewrite (has_tag_of x Hx) in H. cbn [filter].
  destruct (tagof x); [injection H as H; subst; cbn [map]; eauto | auto].
Qed.
Lemma find_last : forall l e0, Tagged l -> find (has_tag t) (rev l) = Some e0 -> exists r, seqt t l = r ++ [fst e0].
Proof.
  intros l e0 T H. assert (T' : Tagged (rev l)) by (unfold Tagged in *; apply Forall_rev; auto). destruct (find_first _ _ T' H) as (r & E).
  rewrite seqt_part in *. unfold part in *. exists (rev r). assert (F : forall (A : Type) (p : A -> bool) m, filter p (rev m) = rev (filter p m)).
  { clear. intros A p. induction m as [| x m IH]; auto. cbn [rev filter]. rewrite filter_app, IH. cbn [filter]. destruct (p x); cbn [rev]; auto. rewrite app_nil_r. auto. }
  rewrite F, map_rev in E. apply (f_equal (@rev uid)) in E. rewrite rev_involutive in E. exact E.
Qed.

Lemma without_head : forall u l, ~ In u l -> without u (u :: l) = l.
Proof. intros u l N. unfold without. cbn [filter]. rewrite uid_eqb_refl. apply without_none. auto. Qed.

Lemma move_seq : forall cs c u x l l', move_peer cs c (u, x) l = Ok l' -> Tagged l -> NoDup (seqt t l) -> In u (uids l) -> fst u = t -> xtag c = t -> insert_known c = true ->
  Put (RefL cs c l) (ins_of cs c) u (seqt t l) (seqt t l').
Proof.
  intros cs c u x l l' H T ND I U C K. assert (TE : tagof (u, x) = true) by (unfold tagof; simpl; rewrite U; apply String.eqb_refl).
  assert (IS : In u (seqt t l)) by (rewrite seqt_In; auto). pose proof ND as NS.
  assert (DS : seqt t (del_uid u l) = without u (seqt t l)) by apply seqt_del. assert (TD : Tagged (del_uid u l)) by (apply Tagged_del; auto).
  assert (KN : ins_of cs c = None \/ ins_of cs c = Some "first" \/ ins_of cs c = Some "last" \/ ins_of cs c = Some "before" \/ ins_of cs c = Some "after").
  { unfold ins_of. destruct (s_user (si cs)); auto. apply ins_known. auto. }
  assert (IW : forall w, In w (uids l) -> w <> u -> In w (uids (del_uid u l))).
  { intros w Iw Nw. rewrite uids_del. apply filter_In. split; auto. apply negb_true_iff. apply (eqb_neq uid_eqb uid_eqb_ok). congruence. }
  unfold move_peer in H. cbn [fst] in H. fold (ins_of cs c) in H. rewrite C in H.
  destruct KN as [E | [E | [E | [E | E]]]]; rewrite E in *.
  - injection H as H. subst l'. apply put_stay; auto.
  - destruct (find (has_tag t) l) as [e0 |] eqn:F; [| discriminate]. destruct (has_uid u e0) eqn:Q.
    + injection H as H. subst l'. unfold has_uid in Q. apply uid_eqb_ok in Q. destruct (find_first l e0 T F) as (r & R). rewrite <- Q in R. rewrite R in NS. apply NoDup_cons_iff in NS. destruct NS as [N1 N2].
      assert (X : seqt t l = u :: without u (seqt t l)) by (rewrite R, without_head; auto). rewrite X at 2. apply put_first. auto.
    + injection H as H. subst l'. rewrite first_seq by auto. cbn [fst]. rewrite DS. apply put_first. auto.
  - destruct (find (has_tag t) (rev l)) as [e0 |] eqn:F; [| discriminate]. destruct (has_uid u e0) eqn:Q.
    + injection H as H. subst l'. unfold has_uid in Q. apply uid_eqb_ok in Q. destruct (find_last l e0 T F) as (r & R). rewrite <- Q in R. rewrite R in NS.
      assert (N1 : ~ In u r). { apply NoDup_remove in NS. rewrite app_nil_r in NS. tauto. }
      assert (X : seqt t l = without u (seqt t l) ++ [u]). { rewrite R. unfold without. rewrite filter_app. fold (without u r). rewrite (without_none u r N1). cbn [filter]. rewrite uid_eqb_refl. cbn [negb]. rewrite app_nil_r. auto. }
      rewrite X at 2. apply put_last. auto.
    + injection H as H. subst l'. rewrite last_seq by auto. cbn [fst]. rewrite DS. apply put_last. auto.
  - apply bind_ok in H. destruct H as (w & R & H). destruct (ref_In cs c l w T C R) as (e' & Iw & W & _). assert (IU : In w (uids l)) by (apply in_map_iff; exists (w, e'); auto).
    destruct (uid_eqb w u) eqn:Q; injection H as H; subst l'.
    + apply uid_eqb_ok in Q. subst w. apply put_self; auto.
    + apply (eqb_neq uid_eqb uid_eqb_ok) in Q. destruct (before_seq w (u, x) (del_uid u l) (IW w IU Q) W TE) as (a & b & B1 & B2). rewrite B2. cbn [fst]. rewrite DS in B1. apply put_before; auto.
  - apply bind_ok in H. destruct H as (w & R & H). destruct (ref_In cs c l w T C R) as (e' & Iw & W & _). assert (IU : In w (uids l)) by (apply in_map_iff; exists (w, e'); auto).
    destruct (uid_eqb w u) eqn:Q; injection H as H; subst l'.
    + apply uid_eqb_ok in Q. subst w. apply put_self; auto.
    + apply (eqb_neq uid_eqb uid_eqb_ok) in Q. destruct (after_seq w (u, x) (del_uid u l) (IW w IU Q) W TE) as (a & b & B1 & B2). rewrite B2. cbn [fst]. rewrite DS in B1. apply put_after; auto.
Qed.

(** Result of the step for the entry *)
Definition StepOrder (cs : snode) (c : xml) (u : uid) (l l' : list ent) : Prop :=
  match op_of c with
  | OpDelete | OpRemove => seqt t l' = without u (seqt t l)
  | _ => Put (RefL cs c l) (ins_of cs c) u (seqt t l) (seqt t l')
  end.

Lemma new_seq : forall f s l u c l' cs, add_new (node_add f) s l (u, c) = Ok l' -> Tagged l -> fst u = t -> xtag c = t -> ~ In u (uids l) ->
  schema_child s t = Ok cs -> sty cs = TList \/ sty cs = TLeafList -> insert_known c = true -> StepOrder cs c u l l'.
Proof.
  intros f s l u c l' cs H T U C N S TY K. unfold StepOrder. unfold add_new in H.
  assert (PN : forall e, place_new cs c (u, e) l <> Ok None).
  { intros e P. apply place_new_inv in P. unfold bad_insert in P. rewrite K in P. destruct (s_user (si cs)); discriminate. }
  assert (PL : forall e, (let! r := place_new cs c (u, e) l in match r with Some l' => Ok l' | None => Ok l end) = Ok l' -> Put (RefL cs c l) (ins_of cs c) u (seqt t l) (seqt t l')).
  { intros e Q. apply bind_ok in Q. destruct Q as (r & P & Q). destruct r as [l1 |]; [| exfalso; apply (PN e); auto]. injection Q as Q. subst l1. apply (place_seq cs c u e); auto. }
  rewrite C, S in H. destruct (op_of c); try discriminate; cbn [bind] in H.
  - destruct TY as [TY | TY]; rewrite TY in H; [| apply (PL (del_attrib c)); auto].
    apply bind_ok in H. destruct H as (ks & KC & H). apply bind_ok in H. destruct H as (r & P & H). destruct r as [l1 |]; [| exfalso; eapply PN; exact P].
    apply bind_ok in H. destruct H as (e & R & H). injection H as H. subst l'. rewrite seqt_upd. apply (place_seq cs c u _ l l1 P); auto.
  - destruct TY as [TY | TY]; rewrite TY in H; apply (PL (del_attrib c)); auto.
  - destruct TY as [TY | TY]; rewrite TY in H; apply (PL (del_attrib c)); auto.
  - injection H as H. subst l'. symmetry. apply without_none. rewrite seqt_In. tauto.
Qed.

Lemma peer_seq : forall f s l u x c l' cs, add_peer (node_add f) s l (u, x, c) = Ok l' -> Tagged l -> NoDup (seqt t l) -> In u (uids l) -> fst u = t -> xtag c = t -> xtag x = t ->
  schema_child s t = Ok cs -> sty cs = TList \/ sty cs = TLeafList -> insert_known c = true -> StepOrder cs c u l l'.
Proof.
  intros f s l u x c l' cs H T ND I U C X S TY K. unfold StepOrder. unfold add_peer in H. rewrite X, S in H. cbn [bind] in H.
  assert (DEL : Ok (del_uid u l) = Ok l' -> seqt t l' = without u (seqt t l)) by (intro Q; injection Q as Q; subst; apply seqt_del).
  assert (MOV : forall l1, move_peer cs c (u, x) l = Ok l1 -> Put (RefL cs c l) (ins_of cs c) u (seqt t l) (seqt t l1)) by (intros l1 M; apply (move_seq cs c u x); auto).
  destruct TY as [TY | TY]; rewrite TY in H.
  - destruct (op_of c); auto; apply bind_ok in H; destruct H as (l1 & M & H); try discriminate.
    + apply bind_ok in H. destruct H as (e & R & H). injection H as H. subst l'. rewrite seqt_upd. auto.
    + injection H as H. subst l'. rewrite seqt_upd. auto.
  - destruct (op_of c); try discriminate; auto.
Qed.

Lemma news_keep : forall f s ns l l', foldM (add_new (node_add f) s) l ns = Ok l' -> Tagged l ->
  (forall v y, In (v, y) ns -> fst v = xtag y /\ fst v <> t) -> Tagged l' /\ part l' = part l.
Proof.
  intros f s ns. induction ns as [| [v y] r IH]; intros l l' H T A; cbn [foldM] in H.
  - injection H as H. subst. auto.
  - apply bind_ok in H. destruct H as (l1 & H1 & H2). destruct (A v y (or_introl eq_refl)) as [A1 A2]. destruct (new_keeps f s l v y l1 H1 A1 T) as [B1 B2].
    destruct (IH l1 l' H2 B1) as [C1 C2]; [intros; apply A; right; auto |]. split; auto. rewrite C2. apply B2. apply String.eqb_neq. auto.
Qed.
Lemma peers_keep : forall f s ns l l', foldM (add_peer (node_add f) s) l ns = Ok l' -> Tagged l ->
  (forall v x y, In (v, x, y) ns -> fst v = xtag y /\ xtag x = xtag y /\ fst v <> t) -> Tagged l' /\ part l' = part l.
Proof.
  intros f s ns. induction ns as [| [[v x] y] r IH]; intros l l' H T A; cbn [foldM] in H.
  - injection H as H. subst. auto.
  - apply bind_ok in H. destruct H as (l1 & H1 & H2). destruct (A v x y (or_introl eq_refl)) as (A1 & A2 & A3). destruct (peer_keeps f s l v x y l1 H1 A1 A2 T) as [B1 B2].
    destruct (IH l1 l' H2 B1) as [C1 C2]; [intros; apply A; right; auto |]. split; auto. rewrite C2. apply B2. apply String.eqb_neq. auto.
Qed.
End Tag.

Lemma Put_mono : forall (P Q : uid -> Prop) i u l l', (forall w, P w -> Q w) -> Put P i u l l' -> Put Q i u l l'.
Proof. intros P Q i u l l' H R. destruct R; [apply put_first | apply put_last | apply put_before | apply put_after | apply put_self | apply put_end | apply put_stay]; auto. Qed.

Lemma split_at_eq : forall c s a b, split_at c s = Some (a, b) -> s = (a ++ String c b)%string.
Proof.
  intros c s. induction s as [| d r IH]; intros a b H; [discriminate |]. cbn [split_at] in H. destruct (Ascii.eqb c d) eqn:E.
  - apply Ascii.eqb_eq in E. injection H as H1 H2. subst. auto.
  - destruct (split_at c r) as [[a' b'] |]; [| discriminate]. injection H as H1 H2. subst. cbn [append]. rewrite (IH a' b eq_refl). auto.
Qed.

Lemma Index_Tagged : forall s l es, Index s l es -> Tagged es.
Proof. intros s l es I. unfold Tagged. apply Forall_forall. intros [u e] H. simpl. symmetry. apply (Index_tag s l es); auto. Qed.

Lemma Index_Order : forall s l es t, Index s l es -> Order s t l (seqt t es).
Proof.
  intros s l es t (E & F & _). subst l. induction F as [| [u c] r H F IH]; [constructor |]. cbn [map snd fst] in *.
  assert (T := uid_tag s c u H). unfold seqt, uids. cbn [map filter fst]. rewrite T. destruct (String.eqb (xtag c) t) eqn:X.
  - apply String.eqb_eq in X. destruct (uid_schema s c u H) as (cs & S). apply (or_in s t c cs); auto; [rewrite <- X; apply schema_child_Defines; auto | apply (Ident_uid s); auto].
  - apply String.eqb_neq in X. apply or_out; auto.
Qed.

Lemma preds_eq : forall f p ps, parse_preds f p = Some ps -> p = preds_text ps.
Proof.
  induction f as [| f IH]; intros p ps H; destruct p as [| b r]; cbn [parse_preds] in H; try (injection H as H; subst; reflexivity).
  - destruct b as [[] [] [] [] [] [] [] []]; discriminate.
  - assert (B : b = "["%char) by (destruct b as [[] [] [] [] [] [] [] []]; try discriminate; reflexivity). subst b.
    destruct (split_at "="%char r) as [[nm r2] |] eqn:S1; [| discriminate]. destruct r2 as [| q r2]; [discriminate |].
    assert (Q : q = "'"%char) by (destruct q as [[] [] [] [] [] [] [] []]; try discriminate; reflexivity). subst q.
    destruct (split_at "'"%char r2) as [[v r3] |] eqn:S2; [| discriminate]. destruct r3 as [| q r3]; [discriminate |].
    assert (Q : q = "]"%char) by (destruct q as [[] [] [] [] [] [] [] []]; try discriminate; reflexivity). subst q.
    destruct (parse_preds f r3) as [ps' |] eqn:P; [| discriminate]. injection H as H. subst ps. apply IH in P.
    apply split_at_eq in S1, S2. subst r r2 r3. reflexivity.
Qed.

Lemma ref_Refers : forall s x lx cs c l w, Index s (xkids x) lx -> schema_child s (xtag c) = Ok cs -> sty cs = TList \/ sty cs = TLeafList ->
  Tagged l -> part (xtag c) l = part (xtag c) lx -> RefL cs c l w -> Refers s x cs c w.
Proof.
  intros s x lx cs c l w Ix S TY T P R. destruct (ref_In (xtag c) cs c l w T eq_refl R) as (e & I & W & K).
  assert (I' : In (w, e) lx).
  { assert (In (w, e) (part (xtag c) l)) by (unfold part; apply filter_In; split; auto; unfold tagof; simpl; rewrite W; apply String.eqb_refl).
    rewrite P in H. unfold part in H. apply filter_In in H. tauto. }
  assert (TG : xtag e = xtag c) by (rewrite <- W; symmetry; apply (Index_tag s (xkids x) lx); auto).
  exists e. split; [| split; auto].
  - split; [apply (Index_kid s (xkids x) lx w); auto |]. split; [rewrite TG; apply schema_child_Defines; auto |]. apply (Ident_uid s); [rewrite TG; auto |]. apply (Index_uid s (xkids x) lx); auto.
  - destruct TY as [TY | TY]; rewrite TY in K; [right | left]; split; auto. destruct K as (p & ps & K1 & K2 & K3). exists ps. apply preds_eq in K2. subst p. split; auto.
    intros k v Ik. unfold matches_preds in K3. rewrite forallb_forall in K3. specialize (K3 _ Ik). apply existsb_exists in K3. destruct K3 as (n & N1 & N2).
    apply andb_true_iff in N2. destruct N2 as [N2 N3]. apply String.eqb_eq in N2, N3. exists n. auto.
Qed.

Local Notation Reordered := (EditSpec.Reordered op_of).

Lemma step_Reordered : forall s x lx cs c u l l', Index s (xkids x) lx -> schema_child s (xtag c) = Ok cs -> sty cs = TList \/ sty cs = TLeafList ->
  Tagged l -> part (xtag c) l = part (xtag c) lx -> StepOrder (xtag c) cs c u l l' -> Reordered s x cs c u (seqt (xtag c) lx) (seqt (xtag c) l').
Proof.
  intros s x lx cs c u l l' Ix S TY T P H. assert (E : seqt (xtag c) l = seqt (xtag c) lx) by (rewrite !seqt_part, P; auto).
  unfold StepOrder in H. unfold EditSpec.Reordered. rewrite E in H.
  destruct (op_of c); auto; (apply (Put_mono (RefL cs c l)); [intros w R; apply (ref_Refers s x lx cs c l); auto | exact H]).
Qed.

Theorem order_after : forall n s x d r u cs c, wfs s = true -> edit_ok s d = true -> node_add (S n) s x d = Ok r ->
  Child s d u cs c -> sty cs = TList \/ sty cs = TLeafList -> (forall c', In c' (xkids d) -> xtag c' = xtag c -> c' = c) ->
  exists L L', Order s (xtag c) (xkids x) L /\ Order s (xtag c) (xkids r) L' /\ Reordered s x cs c u L L'.
Proof.
  intros n s x d r u cs c W O H C TY ONE.
  destruct (step_indexes n s x d r H W O) as (lx & ld & lr & Ix & Id & Ir & E & (l1 & H1 & H2) & _).
  exists (seqt (xtag c) lx), (seqt (xtag c) lr). split; [apply Index_Order; auto |]. split; [apply Index_Order; auto |].
  destruct C as (C1 & C2 & C3). destruct (edit_ok_inv s d O) as (_ & OK). destruct (OK c C1) as (cs' & S & _ & _ & _ & K & _).
  assert (cs = cs') by (apply (Defines_schema_child s (xtag c)); auto). subst cs'.
  destruct (Index_In s _ ld c Id C1) as (u' & I'). assert (u' = u). { apply (uid_Ident s c cs); auto. apply (Index_uid s (xkids d) ld); auto. } subst u'.
  assert (U : fst u = xtag c) by (apply (Index_tag s (xkids d) ld); auto).
  assert (OTH : forall v y, In (v, y) ld -> fst v = xtag c -> (v, y) = (u, c)).
  { intros v y I F. assert (T := Index_tag s (xkids d) ld v y Id I). assert (y = c) by (apply ONE; [apply (Index_kid s (xkids d) ld v); auto | congruence]). subst y. f_equal.
    assert (A := Index_uid s (xkids d) ld v c Id I). assert (B := Index_uid s (xkids d) ld u c Id I'). congruence. }
  assert (Tx := Index_Tagged s _ lx Ix). assert (NDd : NoDup (uids ld)) by apply Id. assert (NDx : NoDup (uids lx)) by apply Ix.
  assert (SP : forall (A : Type) (g : A -> uid) (P : A -> Prop) l z, NoDup (map g l) -> In z l -> exists a b, l = a ++ z :: b /\ forall y, In y (a ++ b) -> g y <> g z).
  { intros A g P l z ND I. apply in_split in I. destruct I as (a & b & E'). exists a, b. split; auto. subst l. rewrite map_app in ND. cbn [map] in ND. apply NoDup_remove in ND.
    destruct ND as [_ ND]. intros y Iy Q. apply ND. rewrite <- map_app, <- Q. apply in_map. auto. }
  assert (NEW : forall v y, In (v, y) (only_in ld lx) -> v <> u -> fst v = xtag y /\ fst v <> xtag c).
  { intros v y I N. apply only_in_In in I. destruct I as [I _]. split; [apply (Index_tag s (xkids d) ld); auto |]. intro F. apply N. specialize (OTH v y I F). congruence. }
  assert (PEER : forall v y z, In (v, y, z) (both_in lx ld) -> v <> u -> fst v = xtag z /\ xtag y = xtag z /\ fst v <> xtag c).
  { intros v y z I N. apply both_in_In in I. destruct I as [I J]. apply (Index_assoc s (xkids d) ld v z Id) in J.
    assert (A := Index_tag s (xkids x) lx v y Ix I). assert (B := Index_tag s (xkids d) ld v z Id J). split; auto. split; [congruence |]. intro F. apply N. specialize (OTH v z J F). congruence. }
  destruct (mem uid_eqb u (uids lx)) eqn:M.
  - apply (mem_In uid_eqb uid_eqb_ok) in M. assert (M' := M). apply in_map_iff in M'. destruct M' as ([u' cx] & EU & Iu). cbn [fst] in EU. subst u'.
    destruct (news_keep (xtag c) n s (only_in ld lx) lx l1 H1 Tx) as [T1 P1].
    { intros v y I. apply NEW; auto. intro. subst v. apply only_in_In in I. tauto. }
    assert (Ib : In (u, cx, c) (both_in lx ld)) by (apply both_in_In; split; auto; apply (Index_assoc s (xkids d) ld u c Id); auto).
    destruct (SP _ (fun p : uid * xml * xml => fst (fst p)) (fun _ => True) (both_in lx ld) (u, cx, c)) as (a & b & EB & AB); auto. { apply both_NoDup; auto. }
    rewrite EB in H2. rewrite foldM_app in H2. apply bind_ok in H2. destruct H2 as (l2 & H2 & H3). cbn [foldM] in H3. apply bind_ok in H3. destruct H3 as (l3 & H3 & H4).
    destruct (peers_keep (xtag c) n s a l1 l2 H2 T1) as [T2 P2].
    { intros v y z I. apply PEER; [rewrite EB; apply in_or_app; auto |]. apply (AB (v, y, z)). apply in_or_app. auto. }
    assert (X : xtag cx = xtag c) by (rewrite <- U; symmetry; apply (Index_tag s (xkids x) lx); auto).
    destruct (peer_keeps (xtag c) n s l2 u cx c l3 H3 U X T2) as [T3 _].
    destruct (peers_keep (xtag c) n s b l3 lr H4 T3) as [T4 P4].
    { intros v y z I. apply PEER; [rewrite EB; apply in_or_app; right; right; auto |]. apply (AB (v, y, z)). apply in_or_app. auto. }
    assert (P02 : part (xtag c) l2 = part (xtag c) lx) by congruence.
    rewrite (seqt_part (xtag c) lr), P4, <- seqt_part. apply (step_Reordered s x lx cs c u l2 l3); auto.
    assert (SQ : seqt (xtag c) l2 = seqt (xtag c) lx) by (rewrite !seqt_part, P02; auto).
    apply (peer_seq (xtag c) n s l2 u cx c l3 cs); auto.
    + rewrite SQ. unfold seqt. apply NoDup_filter'. auto.
    + assert (In u (seqt (xtag c) l2)) by (rewrite SQ; apply seqt_In; auto). apply seqt_In in H0. tauto.
  - apply (mem_not_In uid_eqb uid_eqb_ok) in M. assert (Io : In (u, c) (only_in ld lx)) by (apply only_in_In; auto).
    destruct (SP _ (@fst uid xml) (fun _ => True) (only_in ld lx) (u, c)) as (a & b & EB & AB); auto. { unfold only_in. apply NoDup_map_filter. auto. }
    rewrite EB in H1. rewrite foldM_app in H1. apply bind_ok in H1. destruct H1 as (l2 & H1 & H3). cbn [foldM] in H3. apply bind_ok in H3. destruct H3 as (l3 & H3 & H4).
    destruct (news_keep (xtag c) n s a lx l2 H1 Tx) as [T2 P2].
    { intros v y I. apply NEW; [rewrite EB; apply in_or_app; auto |]. apply (AB (v, y)). apply in_or_app. auto. }
    destruct (new_keeps (xtag c) n s l2 u c l3 H3 U T2) as [T3 _].
    destruct (news_keep (xtag c) n s b l3 l1 H4 T3) as [T4 P4].
    { intros v y I. apply NEW; [rewrite EB; apply in_or_app; right; right; auto |]. apply (AB (v, y)). apply in_or_app. auto. }
    destruct (peers_keep (xtag c) n s (both_in lx ld) l1 lr H2 T4) as [T5 P5].
    { intros v y z I. apply PEER; auto. intro. subst v. apply both_in_In in I. destruct I as [I _]. apply M. apply in_map_iff. exists (u, y). auto. }
    rewrite (seqt_part (xtag c) lr), P5, P4, <- seqt_part. apply (step_Reordered s x lx cs c u l2 l3); auto.
    apply (new_seq (xtag c) n s l2 u c l3 cs); auto. intro Iu. apply M.
    assert (In u (seqt (xtag c) l2)) by (apply seqt_In; auto). rewrite seqt_part, P2, <- seqt_part in H0. apply seqt_In in H0. tauto.
Qed.

Theorem order_kept : forall n s x d r t, wfs s = true -> edit_ok s d = true -> node_add (S n) s x d = Ok r ->
  (forall c, In c (xkids d) -> xtag c <> t) -> exists L, Order s t (xkids x) L /\ Order s t (xkids r) L.
Proof.
  intros n s x d r t W O H ONE.
  destruct (step_indexes n s x d r H W O) as (lx & ld & lr & Ix & Id & Ir & E & (l1 & H1 & H2) & _).
  exists (seqt t lx). split; [apply Index_Order; auto |]. assert (Tx := Index_Tagged s _ lx Ix).
  destruct (news_keep t n s (only_in ld lx) lx l1 H1 Tx) as [T1 P1].
  { intros v y I. apply only_in_In in I. destruct I as [I _]. assert (A := Index_tag s (xkids d) ld v y Id I). split; auto. rewrite A. apply ONE. apply (Index_kid s (xkids d) ld v); auto. }
  destruct (peers_keep t n s (both_in lx ld) l1 lr H2 T1) as [T2 P2].
  { intros v y z I. apply both_in_In in I. destruct I as [I J]. apply (Index_assoc s (xkids d) ld v z Id) in J.
    assert (A := Index_tag s (xkids x) lx v y Ix I). assert (B := Index_tag s (xkids d) ld v z Id J). split; auto. split; [congruence |]. rewrite B. apply ONE. apply (Index_kid s (xkids d) ld v); auto. }
  assert (Q : seqt t lx = seqt t lr) by (rewrite !seqt_part; congruence). rewrite Q. apply Index_Order. auto.
Qed.

(** The same deeper in the tree *)
Lemma inside_result : forall s x d p s' x' d', Inside op_of s x d p s' x' d' -> forall f r, wfs s = true -> edit_ok s d = true -> node_add f s x d = Ok r ->
  exists n e, wfs s' = true /\ edit_ok s' d' = true /\ node_add (S n) s' x' d' = Ok e /\
    (forall r', At s r p s' r' -> r' = e) /\ (xkids e <> [] -> At s r p s' e).
Proof.
  intros s x d p s' x' d' I. induction I as [s x d | s x d u cs cx c p s' x' d' Cx Cd OP Inn I IH]; intros f r W O H; (destruct f as [| f]; [discriminate |]).
  - exists f, r. split; auto. split; auto. split; auto. split; [| intro; constructor]. intros r' A. inversion A; auto.
  - destruct (step_indexes f s x d r H W O) as (lx & ld & lr & Ix & Id & Ir & _ & _ & HA). specialize (HA u).
    assert (DE := Cd). destruct DE as (_ & DE & _).
    apply (Child_assoc s x lx u cs cx Ix) in Cx. destruct Cx as [Cx Sx]. rewrite Cx in HA.
    destruct (edit_ok_inv s d O) as (_ & OK). assert (Ic : In c (xkids d)) by apply Cd. destruct (OK c Ic) as (cs' & Sc & _ & _ & _ & _ & Oc).
    apply (Child_assoc s d ld u cs c Id) in Cd. destruct Cd as [Cd Sd]. rewrite Cd in HA. assert (cs' = cs) by congruence. subst cs'.
    assert (Wc := wfs_child s _ cs W Sx).
    assert (TR : forall e, assoc uid_eqb u lr = Some e -> xtag e = xtag c).
    { intros e A. assert (T1 : fst u = xtag e) by (apply (Index_tag s (xkids r) lr); auto; apply (Index_assoc s (xkids r) lr); auto).
      assert (T2 : fst u = xtag c) by (apply (Index_tag s (xkids d) ld); auto; apply (Index_assoc s (xkids d) ld); auto). congruence. }
    assert (DOWN : forall e, assoc uid_eqb u lr = Some e -> node_add f cs cx c = Ok e ->
      exists n e0, wfs s' = true /\ edit_ok s' d' = true /\ node_add (S n) s' x' d' = Ok e0 /\ (forall r', At s r (u :: p) s' r' -> r' = e0) /\ (xkids e0 <> [] -> At s r (u :: p) s' e0)).
    { intros e A R. destruct (IH f e Wc Oc R) as (n & e0 & H1 & H2 & H3 & H4 & H5). exists n, e0. split; auto. split; auto. split; auto. split.
      - intros r' At'. inversion At' as [| ? ? c2 cs2 ? ? ? ? B1 B2 B3 B4]; subst. apply H4.
        assert (CH : Child s r u cs2 c2) by (split; auto). apply (Child_assoc s r lr u cs2 c2 Ir) in CH. destruct CH as [CH S2].
        assert (c2 = e) by congruence. subst c2. assert (T := TR e A). assert (cs2 = cs) by congruence. subst cs2. exact B4.
      - intro NE. assert (CH : Child s r u cs e) by (apply (Child_assoc s r lr); auto; split; auto; rewrite (TR e A); auto). destruct CH as (B1 & B2 & B3). apply (at_down s r e cs u); auto. }
    remember (assoc uid_eqb u lr) as o eqn:AO. symmetry in AO.
    destruct HA as [cs0 S0 T0 _ | cs0 S0 T0 _ | cs0 S0 _ OO | cs0 S0 _ OO | cs0 e S0 _ _ R _ | cs0 e S0 NP _ R K0 | cs0 S0 T1 T2 T3 T4]; assert (cs0 = cs) by congruence; subst cs0;
      try (exfalso; destruct Inn; intuition congruence).
    + apply (DOWN e); auto.
    + destruct (IH f e Wc Oc R) as (n & e0 & H1 & H2 & H3 & H4 & H5). exists n, e0. split; auto. split; auto. split; auto. split.
      * intros r' At'. exfalso. inversion At' as [| ? ? c2 cs2 ? ? ? ? B1 B2 B3 B4]; subst.
        assert (CH : Child s r u cs2 c2) by (split; auto). apply (Child_assoc s r lr u cs2 c2 Ir) in CH. destruct CH as [CH S2]. congruence.
      * intro NE. exfalso. specialize (H5 NE). destruct p as [| v p].
        { inversion H5; subst. contradiction. }
        inversion H5 as [| ? ? c2 cs2 ? ? ? ? B1 B2 B3 B4]; subst. rewrite K0 in B1. destruct B1.
Qed.

Lemma Order_ne : forall s t l us, Order s t l us -> us <> [] -> l <> [].
Proof. intros s t l us O. destruct O; intros NE E; try discriminate. apply NE. auto. Qed.

Theorem order_inside : forall s x d r p s' x' d' u cs c, wfs s = true -> edit_ok s d = true -> nc_add s x d = Ok r ->
  Inside op_of s x d p s' x' d' -> Child s' d' u cs c -> sty cs = TList \/ sty cs = TLeafList ->
  (forall c', In c' (xkids d') -> xtag c' = xtag c -> c' = c) ->
  exists L L', Order s' (xtag c) (xkids x') L /\ Reordered s' x' cs c u L L' /\
    (forall r', At s r p s' r' -> Order s' (xtag c) (xkids r') L') /\ (L' <> [] -> exists r', At s r p s' r').
Proof.
  intros s x d r p s' x' d' u cs c W O H I C TY ONE. destruct (inside_result s x d p s' x' d' I (height d) r W O H) as (n & e & W' & O' & H' & A1 & A2).
  destruct (order_after n s' x' d' e u cs c W' O' H' C TY ONE) as (L & L' & O1 & O2 & R). exists L, L'. split; auto. split; auto. split.
  - intros r' A. rewrite (A1 r' A). auto.
  - intro NE. exists e. apply A2. apply (Order_ne s' (xtag c) _ L'); auto.
Qed.

Theorem order_untouched : forall s x d r p s' x' d' t, wfs s = true -> edit_ok s d = true -> nc_add s x d = Ok r ->
  Inside op_of s x d p s' x' d' -> (forall c, In c (xkids d') -> xtag c <> t) ->
  exists L, Order s' t (xkids x') L /\ (forall r', At s r p s' r' -> Order s' t (xkids r') L) /\ (L <> [] -> exists r', At s r p s' r').
Proof.
  intros s x d r p s' x' d' t W O H I NO. destruct (inside_result s x d p s' x' d' I (height d) r W O H) as (n & e & W' & O' & H' & A1 & A2).
  destruct (order_kept n s' x' d' e t W' O' H' NO) as (L & O1 & O2). exists L. split; auto. split.
  - intros r' A. rewrite (A1 r' A). auto.
  - intro NE. exists e. apply A2. apply (Order_ne s' t _ L); auto.
Qed.
