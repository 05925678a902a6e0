(** Lemmas closing the theorems of PropsEdit.v. *)
From Coq Require Import String Ascii List Bool Arith ZArith Lia Permutation.
From Verif Require Import Base BaseP XmlM CalcM CalcP NetconfM ConfigM ListP DataSpec DataP DeltaSpec DeltaR NameP AddP TrimSpec TrimP ConfigSpec ConfigP EditSpec EditP EditSemP EditValP MergeP MergeCfgP EditErrP ExampleM.
Import ListNotations.
Open Scope string_scope.
Open Scope list_scope.
Local Notation Edited := (EditSpec.Edited op_of).
Local Notation Visited := (EditSpec.Visited op_of).
Local Notation Forbidden := (EditSpec.Forbidden op_of).

Lemma trim_attrs : forall x s y, trim s x = Ok y -> incl (all_attrs y) (all_attrs x).
Proof.
  intro x. induction x as [t tx a ks IH] using xml_ind'. intros s y T at0 H. rewrite all_attrs_eq in H. apply in_app_or in H.
  destruct (trim_parts _ _ _ T) as (_ & _ & A). destruct H as [H | H].
  - rewrite A in H. simpl. apply in_or_app. left. exact H.
  - apply in_flat_map in H. destruct H as (c' & Hc & H). destruct (trim_back _ _ _ _ T Hc) as (c & Hin & P).
    apply (attrs_kids at0 c); auto. rewrite Forall_forall in IH. destruct P as (cs & _ & TC & _). apply (IH c Hin cs c' TC at0 H).
Qed.

Lemma xp_kids : forall path x c, In c (xp path x) -> forall at0, In at0 (all_attrs c) -> In at0 (all_attrs x).
Proof.
  induction path as [| t p IH]; intros x c H at0 Ha; [destruct H |]. cbn [xp] in H. destruct (String.eqb (xtag x) t); [| destruct H].
  destruct p as [| t2 p]; [apply (attrs_kids at0 c); auto |]. apply in_flat_map in H. destruct H as (k & Hk & H).
  apply (attrs_kids at0 k); auto. apply (IH k c H). auto.
Qed.

Lemma retrieve_attrs : forall x, incl (all_attrs (retrieve x)) (all_attrs x).
Proof.
  intros x at0 H. unfold retrieve in H. rewrite all_attrs_eq in H. cbn [xattrs xkids app] in H. apply in_flat_map in H. destruct H as (c & Hc & H).
  repeat (apply in_app_or in Hc; destruct Hc as [Hc | Hc]); eapply xp_kids; eauto.
Qed.

Lemma config_add_attrs : forall s x d r, config_add s x d = Ok r -> incl (all_attrs r) (all_attrs x).
Proof.
  intros s x d r H. unfold config_add, config_new in H. apply bind_ok in H. destruct H as (r0 & R & H). apply bind_ok in H. destruct H as (e & T & H).
  inversion H; subst e. apply trim_attrs in T. apply add_attrs in R. intros at0 Ha. apply R. apply retrieve_attrs. apply T. auto.
Qed.

Lemma valid_attrs : forall x s, valid s x = true -> all_attrs x = [].
Proof.
  intros x s V. rewrite <- (valid_plain x s V). apply all_attrs_del.
Qed.

Lemma delta_attrs : forall s a d r, IsConfig s a -> config_add_delta s a d = Ok r -> all_attrs r = [].
Proof.
  intros s a d r (V & _) H. unfold config_add_delta in H. apply bind_ok in H. destruct H as (e & _ & H). apply config_add_attrs in H.
  rewrite (valid_attrs a s V) in H. destruct (all_attrs r) as [| x l]; auto. destruct (H x). left. auto.
Qed.

Lemma forbidden_error : forall s x d s' x' d', wfs s = true -> valid s x = true -> edit_ok s d = true -> refs_ok d = true ->
  Visited s x d s' x' d' -> Forbidden s' x' d' -> nc_add s x d = Err ConfigDeltaError.
Proof.
  intros s x d s' x' d' W V O R VI FB. destruct (nc_add s x d) as [r | e] eqn:E.
  - exfalso. apply (forbidden_fails s x d s' x' d' VI W x (height d) r (or_introl eq_refl) E FB).
  - f_equal. apply (add_errors (height d) s x d e W (valid_npk x s V) (valid_idx x s V) O R (le_n _) E).
Qed.

Lemma forbidden_any : forall s x d s' x' d' r, wfs s = true ->
  Visited s x d s' x' d' -> Forbidden s' x' d' -> nc_add s x d <> Ok r.
Proof. intros s x d s' x' d' r W VI FB E. apply (forbidden_fails s x d s' x' d' VI W x (height d) r (or_introl eq_refl) E FB). Qed.

Lemma edit_effect : forall s x d r, wfs s = true -> ~ Leafy s -> valid s x = true -> edit_ok s d = true ->
  nc_add s x d = Ok r -> forall p v,
  (Holds s r p v -> Edited s x d p v) /\
  (Edited s x d p v -> (forall c, Target s p c -> np_container c = false) -> Holds s r p v).
Proof. intros s x d r W N V O H. exact (Edited_iff (height d) s x d r W N (valid_lok x s V) O H). Qed.

Lemma replaced_exactly : forall s x d r u cs c, wfs s = true -> valid s x = true -> edit_ok s d = true ->
  nc_add s x d = Ok r -> Child s d u cs c -> op_of c = OpReplace \/ op_of c = OpCreate ->
  forall p v, Holds s r (u :: p) v <-> Holds cs c p v.
Proof.
  intros s x d r u cs c W V O H C Op p v. unfold nc_add in H. assert (HD : exists n, height d = S n) by (destruct d; simpl; eauto).
  destruct HD as (n & HD). rewrite HD in H. destruct (step_index n s x d r H W O) as (lx & ld & lr & Ix & Id & Ir & _ & HA).
  assert (C0 := C). apply (Child_assoc s d ld u cs c Id) in C. destruct C as [A2 S]. specialize (HA u). rewrite A2 in HA.
  destruct (edit_ok_inv s d O) as (_ & OK). destruct (OK c (proj1 C0)) as (cs' & S' & Ty & NK & _ & Ik & Oc). assert (cs' = cs) by congruence. subst cs'.
  assert (BI0 : bad_insert cs c = false) by (unfold bad_insert; rewrite Ik; apply andb_false_r).
  assert (DEL : assoc uid_eqb u lr = Some (del_attrib c) -> (Holds s r (u :: p) v <-> Holds cs c p v)).
  { intro E. rewrite Holds_cons. destruct (del_parts c) as (T & _). assert (CR : Child s r u cs (del_attrib c)) by (apply (Child_assoc s r lr); auto; split; congruence).
    split.
    - intros (cs1 & c1 & C1 & HH). destruct (Child_fun s r lr _ _ _ _ _ Ir CR C1). subst. apply (Holds_del p cs c v Oc). auto.
    - intro HH. exists cs, (del_attrib c). split; auto. apply (Holds_del p cs c v Oc). auto. }
  assert (LEAF : forall e, Leafy cs -> xkids e = [] -> xtag e = xtag c -> xtext e = xtext c -> assoc uid_eqb u lr = Some e -> (Holds s r (u :: p) v <-> Holds cs c p v)).
  { intros e L K T X E. rewrite Holds_cons. assert (CR : Child s r u cs e) by (apply (Child_assoc s r lr); auto; split; congruence).
    rewrite (leaf_Holds cs c) by auto. split.
    - intros (cs1 & c1 & C1 & HH). destruct (Child_fun s r lr _ _ _ _ _ Ir CR C1). subst. apply leaf_Holds in HH; auto. rewrite <- X. auto.
    - intro HH. exists cs, e. split; auto. apply leaf_Holds; auto. rewrite X. auto. }
  destruct (assoc uid_eqb u lx) as [cx |] eqn:A1.
  - destruct (assoc_fst s _ lx u cx Ix A1) as (U1 & T1 & N1). destruct (assoc_fst s _ ld u c Id A2) as (U2 & T2 & _).
    assert (Sx : schema_child s (xtag cx) = Ok cs) by congruence.
    assert (KX : Leafy cs -> xkids cx = []) by (apply (lok_inv s x cx cs (valid_lok x s V) N1 Sx)).
    inversion HA as [c0 ? ? ? EE | c0 ? LT ? EE | c0 ? ? ? EE | c0 ? ? ? EE | c0 e ? ? ? ? ? EE | c0 e ? ? ? ? ? EE | c0 ? ? ? ? ? EE];
      (assert (c0 = cs) by congruence; subst c0); try (exfalso; intuition congruence); auto.
    + assert (L : Leafy cs) by (left; auto). apply (LEAF (set_text (xtext c) cx)); auto; [rewrite set_text_kids; auto | rewrite set_text_tag; congruence | apply set_text_text].
    + assert (L : Leafy cs) by (right; auto). apply (LEAF cx); auto; [congruence |].
      rewrite (uid_leaflist s cx cs Sx LT) in U1. rewrite (uid_leaflist s c cs S LT) in U2. congruence.
    + exfalso. destruct Ty as [[T | T] | [T | T]]; congruence.
  - inversion HA as [? EE | c0 ? ? ? EE | c0 ? ? ? EE | c0 ? ? ? ? EE | c0 e ? ? ? ? EE | c0 ks e ? ? ? ? ? ? EE | c0 ? BI ? ? ? EE | c0 ? ? ? ? ? EE ];
      try (assert (c0 = cs) by congruence; subst c0); auto; try (exfalso; intuition congruence).
    exfalso. destruct Ty as [[T | T] | [T | T]]; congruence.
Qed.

Lemma remove_missing : forall s x d l, Index s (xkids x) l -> (exists k, Index s (xkids d) k) ->
  (forall c, In c (xkids d) -> op_of c = OpRemove) -> (forall u cs c, Child s d u cs c -> NoChild s x u) -> nc_add s x d = Ok x.
Proof.
  intros s x d lx Ix (ld & Id) OP NC. unfold nc_add. assert (HD : exists n, height d = S n) by (destruct d; simpl; eauto). destruct HD as (n & HD). rewrite HD.
  cbn [node_add]. rewrite (group_ok s _ _ lx ld Ix Id). cbn [bind in_2_not_1 in_1_and_2]. assert (Ix' := Ix). apply index_ok in Ix'. rewrite Ix'. cbn [bind].
  assert (F : forall N l, (forall u c, In (u, c) N -> op_of c = OpRemove) -> foldM (add_new (node_add n) s) l N = Ok l).
  { induction N as [| [u c] r IH]; intros l H; auto. cbn [foldM]. unfold add_new at 1. rewrite (H u c (or_introl eq_refl)). cbn [bind]. apply IH. intros v k Hk. apply (H v k). right. auto. }
  rewrite F. 2: { intros u c H. apply only_in_In in H. destruct H as [H _]. apply OP. eapply Index_kid; eauto. }
  cbn [bind]. assert (B : both_in lx ld = []).
  { destruct (both_in lx ld) as [| [[u y] c] r] eqn:E; auto. exfalso. assert (Hin : In (u, y, c) (both_in lx ld)) by (rewrite E; left; auto).
    apply both_in_In in Hin. destruct Hin as [H1 H2]. destruct (assoc_fst s _ ld u c Id H2) as (U & _ & _). destruct (uid_schema s c u U) as (cs & S).
    assert (C : Child s d u cs c) by (apply (Child_assoc s d ld); auto). apply NC in C. apply (NoChild_assoc s x lx u Ix) in C.
    apply (Index_assoc s _ lx u y Ix) in H1. congruence. }
  rewrite B. cbn [foldM bind]. destruct Ix as (E & _). rewrite E. destruct x. reflexivity.
Qed.

Lemma remove_missing_valid : forall s x d, valid s x = true -> is_ok (index_kids s (xkids d)) = true ->
  (forall c, In c (xkids d) -> op_of c = OpRemove) -> (forall u cs c, Child s d u cs c -> NoChild s x u) ->
  nc_add s x d = Ok x.
Proof.
  intros s x d V K OP NC. destruct (valid_inv s x V) as (_ & (l & I) & _). apply (remove_missing s x d l I); auto.
  destruct (index_kids s (xkids d)) as [k | e] eqn:E; [| discriminate]. exists k. apply index_ok. auto.
Qed.

Lemma child_by : forall s x l u cs c, index_kids s (xkids x) = Ok l -> assoc uid_eqb u l = Some c -> schema_child s (xtag c) = Ok cs -> Child s x u cs c.
Proof. intros s x l u cs c E A S. apply index_ok in E. apply (Child_assoc s x l); auto. Qed.
Lemma nochild_by : forall s x l u, index_kids s (xkids x) = Ok l -> assoc uid_eqb u l = None -> NoChild s x u.
Proof. intros s x l u E A. apply index_ok in E. apply (NoChild_assoc s x l); auto. Qed.

Definition op_leaf (t v o : string) : xml := Elem t (Some v) [(operation_tag, o)] [].
Lemma unknown_insert : exists s x d r u cs c, wfs s = true /\ valid s x = true /\
  nc_add s x d = Ok r /\ Child s d u cs c /\ op_of c = OpCreate /\ NoChild s r u.
Proof.
  set (d := e_config [Elem "dns" (Some "9.9.9.9") [(operation_tag, "create"); (insert_tag, "top")] []]).
  set (s := s_root [s_ll "dns" true]).
  exists s, (e_config [e_leaf "dns" "8.8.8.8"]), d, (e_config [e_leaf "dns" "8.8.8.8"]), ("dns", KText (Some "9.9.9.9")).
  eexists. eexists. do 3 (split; [vm_compute; reflexivity |]). split.
  - eapply (child_by s d); vm_compute; reflexivity.
  - split; [vm_compute; reflexivity |]. eapply (nochild_by s); vm_compute; reflexivity.
Qed.

Lemma other_type : exists s x d r u cs c, wfs s = true /\ valid s x = true /\
  nc_add s x d = Ok r /\ Child s d u cs c /\ op_of c = OpCreate /\ NoChild s r u.
Proof.
  set (s := s_root [SNode (SInfo "any" TOther false false None false [] "" "read-write") []]).
  set (d := e_config [op_leaf "any" "data" "create"]).
  exists s, (e_config []), d, (e_config []), ("any", KNone).
  eexists. eexists. do 3 (split; [vm_compute; reflexivity |]). split.
  - eapply (child_by s d); vm_compute; reflexivity.
  - split; [vm_compute; reflexivity |]. eapply (nochild_by s); vm_compute; reflexivity.
Qed.

Definition bad_edit : xml := e_config [ e_node "sys" [ set_attr operation_tag "delete" (ex_user "eve" "op") ] ].
Lemma bad_edit_visited : edit_ok ex_schema bad_edit = true /\ refs_ok bad_edit = true /\
  exists s' x' d', Visited ex_schema ex_a bad_edit s' x' d' /\ Forbidden s' x' d'.
Proof.
  split; [vm_compute; reflexivity |]. split; [vm_compute; reflexivity |].
  do 3 eexists. split.
  - eapply (vi_peer ex_schema ex_a bad_edit ("sys", KNone)); [eapply child_by; vm_compute; reflexivity | eapply child_by; vm_compute; reflexivity | vm_compute; reflexivity | left; vm_compute; reflexivity | apply vi_here].
  - eapply (fb_delete ("user", KTup [Some "eve"])); [eapply child_by; vm_compute; reflexivity | vm_compute; reflexivity | eapply nochild_by; vm_compute; reflexivity].
Qed.

Definition insert_edit : xml :=
  e_config [ e_node "sys" [ set_attr insert_tag "before" (set_attr key_tag "[id='20']" (ex_rule "15" "deny")) ] ].
Lemma insert_case : edit_ok ex_schema insert_edit = true /\
  nc_add ex_schema ex_a insert_edit = Ok (e_config
    [ e_node "sys"
        [ e_leaf "host" "r1"; e_leaf "tcp-port" "22";
          e_leaf "dns" "8.8.8.8"; e_leaf "dns" "1.1.1.1"; e_leaf "ntp" "n1";
          ex_user "ann" "op"; ex_user "bob" "op";
          ex_rule "10" "permit"; ex_rule "15" "deny"; ex_rule "20" "deny" ];
      e_leaf "label" "x" ]) /\
  exists s' x' d' u cs c, Inside op_of ex_schema ex_a insert_edit [("sys", KNone)] s' x' d' /\ Child s' d' u cs c /\ sty cs = TList /\ s_user (si cs) = true.
Proof.
  split; [vm_compute; reflexivity |]. split; [vm_compute; reflexivity |].
  do 3 eexists. exists ("rule", KTup [Some "15"]). do 2 eexists. split.
  - eapply (in_down _ ex_schema ex_a insert_edit ("sys", KNone)); [eapply child_by; vm_compute; reflexivity | eapply child_by; vm_compute; reflexivity | vm_compute; reflexivity | left; vm_compute; reflexivity | apply in_here].
  - split; [eapply child_by; vm_compute; reflexivity |]. split; vm_compute; reflexivity.
Qed.
