(** The loops of a difference as edits of the two lists of children, and what they do to alike lists. *)
From Coq Require Import String Ascii List Bool Arith ZArith Lia Permutation.
From Verif Require Import Base BaseP XmlM CalcM CalcP NetconfM DataSpec DataP ListP NameP AddP AlikeSpec AlikeP AlikeAddP AlikeStepP AlikeSumP AlikeDataP AlikeMarkP.
Import ListNotations.
Open Scope string_scope.
Open Scope list_scope.

(** ** Edits *)
Inductive wop := WUpd (x : xml) | WDel | WIns (x : xml) | WKeep.
Definition wedit := (uid * wop)%type.
Definition wapp (l : list ent) (p : wedit) : list ent :=
  match snd p with
  | WUpd x => upd_uid (fst p) x l
  | WDel => del_uid (fst p) l
  | WIns x => ins_after_last (has_tag (fst (fst p))) (fst p, x) l
  | WKeep => l
  end.
Definition wrun (ps : list wedit) (l : list ent) : list ent := fold_left wapp ps l.
Definition wtag (p : wedit) : string := fst (fst p).

Section Edits.
Variable s : snode.
Definition Named (x : xml) : Prop := exists v, uid_of s x = Ok v.
Definition GoodW (p : wedit) : Prop :=
  match snd p with WUpd x | WIns x => xtag x = fst (fst p) /\ Named x | _ => True end.
Definition OR (p p' : wedit) : Prop := fst p = fst p' /\
  match snd p, snd p' with
  | WUpd x, WUpd x' | WIns x, WIns x' => AK s (xtag x) x x'
  | WDel, WDel | WKeep, WKeep => True
  | _, _ => False
  end.

Lemma wrun_foldM : forall ps l, foldM (fun l p => Ok (wapp l p)) l ps = Ok (wrun ps l).
Proof. induction ps as [| p r IH]; intro l; simpl; auto. Qed.

Lemma tag_has : forall t (x : ent), xtag (snd x) = t -> has_tag t x = true.
Proof. intros t x H. unfold has_tag. rewrite H. apply String.eqb_refl. Qed.

Lemma wapp_loc : forall l p, Tg l -> GoodW p -> Tg (wapp l p) /\ wapp (flt (wtag p) l) p = flt (wtag p) (wapp l p) /\
  forall t, t <> wtag p -> flt t (wapp l p) = flt t l.
Proof.
  intros l [u op] T G. unfold wapp, wtag, GoodW in *. simpl in *. destruct op as [x | | x |].
  - destruct G as (G & _). split; [apply Tg_upd; auto | split; [symmetry; apply flt_upd; auto | intros t N; apply flt_upd_other; auto]].
  - split; [apply Tg_del; auto | split; [symmetry; apply flt_del | intros t N; apply flt_del_other; auto]].
  - destruct G as (G & _). split; [| split].
    + apply (Tg_Ins (u, x) l); auto. apply ins_after_last_Ins.
    + symmetry. apply flt_last; auto. apply tag_has. auto.
    + intros t N. unfold flt. apply (Ins_filter_out _ (u, x)); [apply ins_after_last_Ins |]. apply has_tag_ne. congruence.
  - auto.
Qed.

Lemma wapp_lock : forall k k' p p', Forall2 (ER s) k k' -> OR p p' -> Forall2 (ER s) (wapp k p) (wapp k' p').
Proof.
  intros k k' [u op] [u' op'] F (E & R). simpl in E, R. subst u'. unfold wapp. simpl. destruct op, op'; try contradiction; auto.
  - apply upd_F2; auto.
  - apply del_F2; auto.
  - apply ins_last_F2; auto.
    + intros; eapply ER_tag; eauto.
    + split; auto.
Qed.

Theorem ops_alike : forall ps ps' l l', Tg l -> Tg l' -> LR s l l' -> Forall GoodW ps -> Forall GoodW ps' ->
  (forall t, Matched (UserTag s t) OR (filter (ptag wedit wtag t) ps) (filter (ptag wedit wtag t) ps')) -> NoDup (map fst ps) ->
  Tg (wrun ps l) /\ Tg (wrun ps' l') /\ LR s (wrun ps l) (wrun ps' l').
Proof.
  intros ps ps' l l' T T' L G G' M N.
  assert (A := fold_alike wedit wtag fst (fun l p => Ok (wapp l p)) s OR GoodW).
  assert (B : Alikewise (fun r r' => Tg r /\ Tg r' /\ LR s r r') (foldM (fun l p => Ok (wapp l p)) l ps) (foldM (fun l p => Ok (wapp l p)) l' ps')).
  { apply A; auto.
    - intros k p Tk Gp. destruct (wapp_loc k p Tk Gp) as (X & Y & Z). rewrite Y. auto.
    - intros k k' p p' F R _ _. simpl. apply wapp_lock; auto.
    - intros [u op] _ _. destruct op as [x | | x |].
      + exists (Some (EUpd u x)). intro k. split; simpl; auto. eexists. split; [reflexivity |]. apply Permutation_refl.
      + exists (Some (EDel u)). intro k. split; simpl; auto. eexists. split; [reflexivity |]. apply Permutation_refl.
      + exists (Some (EAdd u x)). intro k. split; simpl; auto. eexists. split; [reflexivity |].
        apply Permutation_sym. apply (Ins_perm (u, x) k). apply ins_after_last_Ins.
      + exists (Some EId). intro k. split; simpl; auto. eexists. split; [reflexivity |]. apply Permutation_refl.
    - intros p q (E & _). unfold wtag. rewrite E. auto. }
  rewrite !wrun_foldM in B. exact B.
Qed.

Lemma wrun_named : forall ps l, (forall e, In e l -> Named (snd e)) -> Forall GoodW ps -> forall e, In e (wrun ps l) -> Named (snd e).
Proof.
  induction ps as [| p r IH]; intros l H G; simpl; auto. inversion G as [| ? ? Gp Gr]; subst. apply IH; auto.
  intros e He. destruct p as [u op]. unfold wapp, GoodW in *. simpl in *. destruct op as [x | | x |]; auto.
  - apply in_map_iff in He. destruct He as (e0 & E & He). destruct (has_uid u e0); subst; simpl; auto. tauto.
  - apply filter_In in He. apply H. tauto.
  - apply (Ins_In (u, x) e l) in He; [| apply ins_after_last_Ins]. destruct He as [He | He]; subst; auto. simpl. tauto.
Qed.
End Edits.

(** ** Lists during the loops *)
Definition tow (U : list uid) (l : list ent) : list went := map (fun e => W (mem uid_eqb (fst e) U) (fst e) (snd e)) l.

Lemma tow_init : forall l, w_init l = tow (uids l) l.
Proof.
  intro l. unfold w_init, tow. apply map_ext_in. intros e He. assert (M : mem uid_eqb (fst e) (uids l) = true).
  { apply (mem_In uid_eqb uid_eqb_ok). apply (in_map fst) in He. exact He. } rewrite M. auto.
Qed.

Lemma tow_upd : forall U u x l, w_upd u x (tow U l) = tow U (upd_uid u x l).
Proof.
  intros U u x l. unfold w_upd, tow, upd_uid. rewrite !map_map. apply map_ext. intros [v y]. simpl. unfold has_uid. simpl.
  destruct (uid_eqb u v) eqn:E; auto. apply uid_eqb_ok in E. subst. auto.
Qed.

Lemma tow_del : forall U u l, w_del u (tow U l) = tow U (del_uid u l).
Proof. intros U u l. unfold w_del, tow, del_uid. rewrite filter_map. reflexivity. Qed.

Lemma tow_ins : forall U u x l t, mem uid_eqb u U = false -> ins_after_last (w_tag t) (W false u x) (tow U l) = tow U (ins_after_last (has_tag t) (u, x) l).
Proof.
  intros U u x l t H. unfold tow. rewrite (ins_after_last_map (fun e : ent => W (mem uid_eqb (fst e) U) (fst e) (snd e)) (has_tag t) (w_tag t)).
  - simpl. rewrite H. auto.
  - intros e _. reflexivity.
Qed.

Lemma tow_exists : forall U t l, existsb (w_tag t) (tow U l) = existsb (has_tag t) l.
Proof. intros U t l. symmetry. apply (existsb_map (fun e : ent => W (mem uid_eqb (fst e) U) (fst e) (snd e))). intros e _. reflexivity. Qed.

(** The keys of the loops *)
Definition obt (s : snode) (m : obu) (t : string) : obu := match schema_child s t with Ok cs => obu_add cs m | Err _ => m end.
Definition cht (s : snode) (m : list (list nat * list nat)) (t : string) : list (list nat * list nat) :=
  match schema_entry s t with Ok ce => if ce_case ce then (choice_pos ce, case_pos ce) :: m else m | Err _ => m end.
Definition ktag (p : uid * xml) : string := xtag (snd p).
Definition btag (p : uid * xml * xml) : string := xtag (snd (fst p)).

(** ** node_sub *)
Section Sub.
Variables (o : opts) (s : snode) (U1 U2 : list uid).
Definition conc (l1 l2 : list ent) (m : obu) (cho : list (list nat * list nat)) : sstate := SState (tow U1 l1) (tow U2 l2) m cho.

Definition i1 (p : uid * xml) : res (wedit * wedit) :=
  let '(u, c) := p in
  let! ce := schema_entry s (xtag c) in
  let! c' := match o_type o with DReplace => Ok (set_attr operation_tag "replace" c) | _ => mark_create o (ce_node ce) c end in
  let! d := mk_del o (ce_node ce) c in
  Ok ((u, WUpd c'), (u, WIns d)).
Definition i2 (cho : list (list nat * list nat)) (p : uid * xml) : res (wedit * wedit) :=
  let '(u, c) := p in
  let! ce := schema_entry s (xtag c) in
  let! c' := mark_create o (ce_node ce) c in
  let! d := mk_del o (ce_node ce) c in
  Ok ((u, if case_allows ce cho then WIns d else WKeep), (u, WUpd c')).
Definition i3 (rec : snode -> xml -> xml -> res (xml * xml)) (p : uid * xml * xml) : res (wedit * wedit) :=
  let '(u, a, b) := p in
  let! cs := schema_child s (xtag a) in
  let drop : res (wedit * wedit) := Ok ((u, WDel), (u, WDel)) in
  let keep : res (wedit * wedit) := Ok ((u, WKeep), (u, WKeep)) in
  let put a' b' : res (wedit * wedit) := Ok ((u, WUpd a'), (u, WUpd b')) in
  match sty cs with
  | TLeaf =>
      let! same := same_text cs a b in
      if same then if s_is_key (si cs) then keep else drop
      else match o_replace o with
           | PRMerge => keep
           | PRReplace => put (set_attr operation_tag "replace" a) (set_attr operation_tag "replace" b)
           end
  | TLeafList => if s_user (si cs) then put a b else drop
  | TContainer => let! e := node_eq cs a b in if e then drop else let! ab := rec cs a b in put (fst ab) (snd ab)
  | TList =>
      let! e := node_eq cs a b in
      if e then
        if s_user (si cs) then let! a' := strip_to_keys cs a in let! b' := strip_to_keys cs b in put a' b' else drop
      else let! ab := rec cs a b in put (fst ab) (snd ab)
  | _ => Err ModelError
  end.

Lemma sub_fold1 : forall ps l1 l2 m cho, (forall p, In p ps -> fst (fst p) = xtag (snd p) /\ mem uid_eqb (fst p) U2 = false) ->
  foldM (sub_only_self o s) (conc l1 l2 m cho) ps =
  let! is := mapM i1 ps in
  Ok (conc (wrun (map fst is) l1) (wrun (map snd is) l2) (fold_left (obt s) (map ktag ps) m) (fold_left (cht s) (map ktag ps) cho)).
Proof.
  induction ps as [| [u c] r IH]; intros l1 l2 m cho H; simpl; auto. destruct (H (u, c) (or_introl eq_refl)) as (H1 & H2). simpl in H1, H2.
  unfold obt at 2, cht at 2, schema_child. unfold ktag at 2 4. cbn [snd].
  destruct (schema_entry s (xtag c)) as [ce |]; cbn [bind]; auto.
  destruct (match o_type o with DReplace => Ok (set_attr operation_tag "replace" c) | _ => mark_create o (ce_node ce) c end) as [c' |]; cbn [bind]; auto.
  destruct (mk_del o (ce_node ce) c) as [d |]; cbn [bind]; auto.
  unfold conc at 1. cbn [ss_self ss_other ss_obu ss_cho]. rewrite tow_upd, tow_ins by auto.
  etransitivity; [apply (IH (upd_uid u c' l1) (ins_after_last (has_tag (xtag c)) (u, d) l2) (obu_add (ce_node ce) m)
    (if ce_case ce then (choice_pos ce, case_pos ce) :: cho else cho)); intros; apply H; right; auto |].
  destruct (mapM i1 r) as [is |]; simpl; auto. unfold wapp. simpl. rewrite H1. auto.
Qed.

Lemma sub_fold2 : forall cho ps l1 l2 m, (forall p, In p ps -> fst (fst p) = xtag (snd p) /\ mem uid_eqb (fst p) U1 = false) ->
  (forall e, In e l1 -> forall ce, schema_entry s (xtag (snd e)) = Ok ce -> case_allows ce cho = true) ->
  foldM (sub_only_other o s) (conc l1 l2 m cho) ps =
  let! is := mapM (i2 cho) ps in
  Ok (conc (wrun (map fst is) l1) (wrun (map snd is) l2) (fold_left (obt s) (map ktag ps) m) cho).
Proof.
  induction ps as [| [u c] r IH]; intros l1 l2 m H HA; simpl; auto. destruct (H (u, c) (or_introl eq_refl)) as (H1 & H2). simpl in H1, H2.
  unfold obt at 2, schema_child. unfold ktag at 2. cbn [snd].
  destruct (schema_entry s (xtag c)) as [ce |] eqn:Es; cbn [bind]; auto.
  destruct (mark_create o (ce_node ce) c) as [c' |]; cbn [bind]; auto.
  destruct (mk_del o (ce_node ce) c) as [d |] eqn:Ed; cbn [bind]; auto.
  unfold conc at 1. cbn [ss_self ss_other ss_obu ss_cho]. rewrite tow_upd, tow_ins, tow_exists by auto.
  assert (X : existsb (has_tag (xtag c)) l1 || case_allows ce cho = case_allows ce cho).
  { destruct (existsb (has_tag (xtag c)) l1) eqn:E; auto. apply existsb_exists in E. destruct E as (e & He & E). unfold has_tag in E. apply (string_eqb_ok) in E.
    simpl. symmetry. apply (HA e He). congruence. }
  rewrite X. set (n1 := if case_allows ce cho then ins_after_last (has_tag (xtag c)) (u, d) l1 else l1).
  match goal with |- foldM _ (SState ?x _ _ _) _ = _ => assert (E1 : x = tow U1 n1) by (unfold n1; destruct (case_allows ce cho); auto); rewrite E1 end.
  etransitivity; [apply (IH n1 (upd_uid u c' l2) (obu_add (ce_node ce) m)) |].
  - intros; apply H; right; auto.
  - intros e He ce' Es'. unfold n1 in He. destruct (case_allows ce cho) eqn:Ca; [| eapply HA; eauto].
    apply (Ins_In (u, d) e l1) in He; [| apply ins_after_last_Ins]. destruct He as [He | He]; [| eapply HA; eauto]. subst e. simpl in Es'.
    apply mk_del_tag in Ed. congruence.
  - destruct (mapM (i2 cho) r) as [is |]; simpl; auto. unfold n1. destruct (case_allows ce cho); unfold wapp; simpl; rewrite ?H1; auto.
Qed.

Lemma obt_not : forall cs m, sty cs <> TList -> sty cs <> TLeafList -> obu_add cs m = m.
Proof. intros cs m H1 H2. unfold obu_add, is_user_seq. destruct (sty cs); try contradiction; simpl; rewrite andb_false_r; auto. Qed.

Lemma sub_fold3 : forall rec ps l1 l2 m cho,
  foldM (sub_both o rec s) (conc l1 l2 m cho) ps =
  let! is := mapM (i3 rec) ps in
  Ok (conc (wrun (map fst is) l1) (wrun (map snd is) l2) (fold_left (obt s) (map btag ps) m) cho).
Proof.
  induction ps as [| [[u a] b] r IH]; intros l1 l2 m cho; simpl; auto.
  unfold obt at 2. unfold btag at 2. cbn [fst snd].
  destruct (schema_child s (xtag a)) as [cs |] eqn:Hs; cbn [bind]; auto. change (conc l1 l2 m cho) with (SState (tow U1 l1) (tow U2 l2) m cho). cbn [ss_self ss_other ss_obu ss_cho].
  assert (K : forall (m' : obu), m' = obu_add cs m ->
    (let! st := Ok (SState (tow U1 l1) (tow U2 l2) m' cho) in foldM (sub_both o rec s) st r) =
    (let! is := let! i := Ok ((u, WKeep), (u, WKeep)) in let! r' := mapM (i3 rec) r in Ok (i :: r') in
     Ok (conc (wrun (map fst is) l1) (wrun (map snd is) l2) (fold_left (obt s) (map btag r) (obu_add cs m)) cho))).
  { intros m' E. subst m'. cbn [bind]. etransitivity; [apply (IH l1 l2 (obu_add cs m) cho) |]. destruct (mapM (i3 rec) r); simpl; auto. }
  assert (D : forall (m' : obu), m' = obu_add cs m ->
    (let! st := Ok (SState (w_del u (tow U1 l1)) (w_del u (tow U2 l2)) m' cho) in foldM (sub_both o rec s) st r) =
    (let! is := let! i := Ok ((u, WDel), (u, WDel)) in let! r' := mapM (i3 rec) r in Ok (i :: r') in
     Ok (conc (wrun (map fst is) l1) (wrun (map snd is) l2) (fold_left (obt s) (map btag r) (obu_add cs m)) cho))).
  { intros m' E. subst m'. cbn [bind]. rewrite !tow_del. etransitivity; [apply (IH (del_uid u l1) (del_uid u l2) (obu_add cs m) cho) |]. destruct (mapM (i3 rec) r); simpl; auto. }
  assert (P : forall (m' : obu) a' b', m' = obu_add cs m ->
    (let! st := Ok (SState (w_upd u a' (tow U1 l1)) (w_upd u b' (tow U2 l2)) m' cho) in foldM (sub_both o rec s) st r) =
    (let! is := let! i := Ok ((u, WUpd a'), (u, WUpd b')) in let! r' := mapM (i3 rec) r in Ok (i :: r') in
     Ok (conc (wrun (map fst is) l1) (wrun (map snd is) l2) (fold_left (obt s) (map btag r) (obu_add cs m)) cho))).
  { intros m' a' b' E. subst m'. cbn [bind]. rewrite !tow_upd. etransitivity; [apply (IH (upd_uid u a' l1) (upd_uid u b' l2) (obu_add cs m) cho) |]. destruct (mapM (i3 rec) r); simpl; auto. }
  destruct (sty cs) eqn:T; try reflexivity.
  - assert (E : m = obu_add cs m) by (symmetry; apply obt_not; congruence).
    destruct (same_text cs a b) as [[|] |]; [destruct (s_is_key (si cs)) | destruct (o_replace o) |]; solve [reflexivity | apply K; auto | apply D; auto | apply P; auto].
  - destruct (s_user (si cs)) eqn:Us; [apply P; auto |]. apply D. unfold obu_add, is_user_seq. rewrite Us. auto.
  - assert (E : m = obu_add cs m) by (symmetry; apply obt_not; congruence).
    destruct (node_eq cs a b) as [[|] |]; [| destruct (rec cs a b) as [ab |] |]; solve [reflexivity | apply D; auto | apply P; auto].
  - destruct (node_eq cs a b) as [[|] |]; [destruct (s_user (si cs)); [destruct (strip_to_keys cs a) as [a' |]; [destruct (strip_to_keys cs b) as [b' |] |] |]
      | destruct (rec cs a b) as [ab |] |]; solve [reflexivity | apply D; auto | apply P; auto].
Qed.
End Sub.

(** ** get_config_replace *)
Section Repl.
Variables (o : opts) (s : snode) (U1 : list uid).
Definition rconc (l1 : list ent) (m : obu) : rstate := RState (tow U1 l1) m.

Definition r1 (p : uid * xml) : res wedit :=
  let '(u, c) := p in let! cs := schema_child s (xtag c) in Ok (u, WUpd (set_attr operation_tag "replace" c)).
Definition r2 (p : uid * xml) : res wedit :=
  let '(u, c) := p in let! cs := schema_child s (xtag c) in let! d := mk_del o cs c in Ok (u, WIns d).
Definition r3 (p : uid * xml * xml) : res wedit :=
  let '(u, a, b) := p in
  let a' := set_attr operation_tag "replace" a in
  let b' := set_attr operation_tag "replace" b in
  let! cs := schema_child s (xtag a) in
  match sty cs with
  | TLeaf => let! same := same_text cs a b in
      if same then if s_is_key (si cs) then Ok (u, WUpd (pop_attr operation_tag a')) else Ok (u, WDel) else Ok (u, WUpd a')
  | TLeafList => if s_user (si cs) then Ok (u, WUpd a') else Ok (u, WDel)
  | TContainer => let! e := node_eq cs a' b' in if e then Ok (u, WDel) else Ok (u, WUpd a')
  | TList => let! e := node_eq cs a' b' in if e && negb (s_user (si cs)) then Ok (u, WDel) else Ok (u, WUpd a')
  | _ => Err ModelError
  end.

Lemma repl_fold1 : forall ps l1 m, foldM (repl_only_self s) (rconc l1 m) ps =
  let! is := mapM r1 ps in Ok (rconc (wrun is l1) (fold_left (obt s) (map ktag ps) m)).
Proof.
  induction ps as [| [u c] r IH]; intros l1 m; simpl; auto. unfold obt at 2. unfold ktag at 2. cbn [snd].
  destruct (schema_child s (xtag c)) as [cs |]; cbn [bind]; auto. unfold rconc at 1. cbn [r_self r_obu]. rewrite tow_upd.
  etransitivity; [apply (IH (upd_uid u (set_attr operation_tag "replace" c) l1) (obu_add cs m)) |].
  destruct (mapM r1 r) as [is |]; simpl; auto.
Qed.

Lemma repl_fold2 : forall ps l1 m, (forall p, In p ps -> fst (fst p) = xtag (snd p) /\ mem uid_eqb (fst p) U1 = false) ->
  foldM (repl_only_other o s) (rconc l1 m) ps = let! is := mapM r2 ps in Ok (rconc (wrun is l1) m).
Proof.
  induction ps as [| [u c] r IH]; intros l1 m H; simpl; auto. destruct (H (u, c) (or_introl eq_refl)) as (H1 & H2). simpl in H1, H2.
  destruct (schema_child s (xtag c)) as [cs |]; cbn [bind]; auto. destruct (mk_del o cs c) as [d |]; cbn [bind]; auto.
  unfold rconc at 1. cbn [r_self r_obu]. rewrite tow_ins by auto.
  etransitivity; [apply (IH (ins_after_last (has_tag (xtag c)) (u, d) l1) m); intros; apply H; right; auto |].
  destruct (mapM r2 r) as [is |]; simpl; auto. unfold wapp. simpl. rewrite H1. auto.
Qed.

Lemma repl_fold3 : forall ps l1 m, foldM (repl_both s) (rconc l1 m) ps =
  let! is := mapM r3 ps in Ok (rconc (wrun is l1) (fold_left (obt s) (map btag ps) m)).
Proof.
  induction ps as [| [[u a] b] r IH]; intros l1 m; simpl; auto. unfold obt at 2. unfold btag at 2. cbn [fst snd].
  destruct (schema_child s (xtag a)) as [cs |] eqn:Hs; cbn [bind]; auto.
  change (rconc l1 m) with (RState (tow U1 l1) m). cbn [r_self r_obu].
  assert (D : forall (m' : obu), m' = obu_add cs m ->
    (let! st := Ok (RState (w_del u (tow U1 l1)) m') in foldM (repl_both s) st r) =
    (let! is := let! i := Ok (u, WDel) in let! r' := mapM r3 r in Ok (i :: r') in
     Ok (rconc (wrun is l1) (fold_left (obt s) (map btag r) (obu_add cs m))))).
  { intros m' E. subst m'. cbn [bind]. rewrite tow_del. etransitivity; [apply (IH (del_uid u l1) (obu_add cs m)) |]. destruct (mapM r3 r); simpl; auto. }
  assert (P : forall (m' : obu) a', m' = obu_add cs m ->
    (let! st := Ok (RState (w_upd u a' (tow U1 l1)) m') in foldM (repl_both s) st r) =
    (let! is := let! i := Ok (u, WUpd a') in let! r' := mapM r3 r in Ok (i :: r') in
     Ok (rconc (wrun is l1) (fold_left (obt s) (map btag r) (obu_add cs m))))).
  { intros m' a' E. subst m'. cbn [bind]. rewrite tow_upd. etransitivity; [apply (IH (upd_uid u a' l1) (obu_add cs m)) |]. destruct (mapM r3 r); simpl; auto. }
  destruct (sty cs) eqn:T; try reflexivity.
  - assert (E : m = obu_add cs m) by (symmetry; apply obt_not; congruence).
    destruct (same_text cs a b) as [[|] |]; [destruct (s_is_key (si cs)) | |]; solve [reflexivity | apply D; auto | apply P; auto].
  - destruct (s_user (si cs)) eqn:Us; [apply P; auto |]. apply D. unfold obu_add, is_user_seq. rewrite Us. auto.
  - assert (E : m = obu_add cs m) by (symmetry; apply obt_not; congruence).
    destruct (node_eq cs (set_attr operation_tag "replace" a) (set_attr operation_tag "replace" b)) as [[|] |]; solve [reflexivity | apply D; auto | apply P; auto].
  - destruct (node_eq cs (set_attr operation_tag "replace" a) (set_attr operation_tag "replace" b)) as [e |]; [| reflexivity]. cbn [bind].
    destruct (e && negb (s_user (si cs))); solve [reflexivity | apply D; auto | apply P; auto].
Qed.
End Repl.

(** ** Results for lists that match name by name *)
Lemma Forall2_filter_l : forall {A B} (F : A -> B -> Prop) (p : A -> bool) (q : B -> bool) l l', Forall2 F l l' -> (forall x y, F x y -> p x = q y) ->
  Forall2 F (filter p l) (filter q l').
Proof. intros. apply Forall2_filter; auto. Qed.

Lemma Matched_through : forall {A B C D} o (R : A -> B -> Prop) (F : A -> C -> Prop) (F' : B -> D -> Prop) (Q : C -> D -> Prop) l l' m m',
  Matched o R l l' -> Forall2 F l m -> Forall2 F' l' m' ->
  (forall x y u v, In x l -> R x y -> F x u -> F' y v -> Q u v) -> Matched o Q m m'.
Proof.
  intros A B C D o R F F' Q l l' m m' (M0 & n & M1 & M2) HF HF' H.
  assert (G : forall k k' n n', Forall2 R k k' -> Forall2 F k n -> Forall2 F' k' n' -> (forall x, In x k -> In x l) -> Forall2 Q n n').
  { clear -H. intros k k' n n' K. revert n n'. induction K as [| x y k k' K1 K2 IH]; intros n n' X Y Z; inversion X; subst; inversion Y; subst; constructor.
    - apply (H x y); auto. apply Z. left. auto.
    - apply IH; auto. intros; apply Z; right; auto. }
  split.
  - intro O. apply (G l l'); auto.
  - destruct (Forall2_perm_r (fun y x => F' x y) l' n (Permutation_sym M1) m' (Forall2_flip _ _ _ HF')) as (m2 & P & X).
    exists m2. split; [apply Permutation_sym; auto |]. apply (G l n); auto. apply Forall2_flip in X. exact X.
Qed.

Lemma mapM_matched : forall {A B C D} (usr : string -> Prop) (R : A -> B -> Prop) (Q : C -> D -> Prop) (f : A -> res C) (g : B -> res D)
  (ta : A -> string) (tb : B -> string) (tc : C -> string) (td : D -> string) l l',
  (forall t, Matched (usr t) R (filter (ptag A ta t) l) (filter (ptag B tb t) l')) ->
  (forall x c, f x = Ok c -> tc c = ta x) -> (forall y d, g y = Ok d -> td d = tb y) ->
  (forall x y, In x l -> In y l' -> R x y -> Alikewise Q (f x) (g y)) ->
  Alikewise (fun m m' => forall t, Matched (usr t) Q (filter (ptag C tc t) m) (filter (ptag D td t) m')) (mapM f l) (mapM g l').
Proof.
  intros A B C D usr R Q f g ta tb tc td l l' M HT HT' H.
  assert (IL : forall x, In x l -> exists y, In y l' /\ R x y).
  { intros x Hx. destruct (Matched_In_l _ _ _ _ x (M (ta x))) as (y & Hy & Rxy); [apply filter_In; split; auto; apply String.eqb_refl |].
    apply filter_In in Hy. exists y. tauto. }
  assert (IR : forall y, In y l' -> exists x, In x l /\ R x y).
  { intros y Hy. destruct (Matched_In_r _ _ _ _ y (M (tb y))) as (x & Hx & Rxy); [apply filter_In; split; auto; apply String.eqb_refl |].
    apply filter_In in Hx. exists x. tauto. }
  assert (OKL : forall (E F : Type) (h : E -> res F) k, (forall x, In x k -> exists c, h x = Ok c) -> exists m, mapM h k = Ok m).
  { intros E F h. induction k as [| x r IH]; intro X; simpl; [eauto |]. destruct (X x (or_introl eq_refl)) as (c & Xc). rewrite Xc. simpl.
    destruct IH as (m & Hm); [intros; apply X; right; auto |]. rewrite Hm. simpl. eauto. }
  destruct (mapM f l) as [m |] eqn:E, (mapM g l') as [m' |] eqn:E'; simpl; auto.
  - apply mapM_ok in E. apply mapM_ok in E'. intro t.
    assert (I1 : forall x, In x (filter (ptag A ta t) l) -> In x l) by (intros x Hx; apply filter_In in Hx; tauto).
    assert (I2 : forall x, In x (filter (ptag B tb t) l') -> In x l') by (intros x Hx; apply filter_In in Hx; tauto).
    apply (Matched_through (usr t) (fun x y => In y l' /\ R x y) (fun x c => f x = Ok c) (fun y d => g y = Ok d) Q (filter (ptag A ta t) l) (filter (ptag B tb t) l')).
    + apply (Matched_impl _ _ _ _ _ _ (M t)); auto.
    + apply Forall2_filter; auto. intros x c X. unfold ptag. rewrite (HT x c X). auto.
    + apply Forall2_filter; auto. intros x c X. unfold ptag. rewrite (HT' x c X). auto.
    + intros x y u v Hx (Hy & Rxy) X Y. specialize (H x y (I1 x Hx) Hy Rxy). rewrite X, Y in H. exact H.
  - apply mapM_ok in E. destruct (OKL B D g l') as (m' & X); [| congruence]. intros y Hy. destruct (IR y Hy) as (x & Hx & Rxy).
    specialize (H x y Hx Hy Rxy). destruct (Forall2_In_l _ _ _ x E Hx) as (c & _ & Xc). rewrite Xc in H. destruct (g y); [eauto | destruct H].
  - apply mapM_ok in E'. destruct (OKL A C f l) as (m & X); [| congruence]. intros x Hx. destruct (IL x Hx) as (y & Hy & Rxy).
    specialize (H x y Hx Hy Rxy). destruct (Forall2_In_l _ _ _ y E' Hy) as (c & _ & Xc). rewrite Xc in H. destruct (f x); [eauto | destruct H].
Qed.

Lemma Matched_app : forall {A B} o (R : A -> B -> Prop) l1 l2 m1 m2, Matched o R l1 m1 -> Matched o R l2 m2 -> Matched o R (l1 ++ l2) (m1 ++ m2).
Proof.
  intros A B o R l1 l2 m1 m2 (A0 & n & A1 & A2) (B0 & k & B1 & B2). split; [intro O; apply Forall2_app; auto |].
  exists (n ++ k). split; [apply Permutation_app; auto | apply Forall2_app; auto].
Qed.

(** ** ordered_by_user *)
Definition okind (cs : snode) : option (list string) := match sty cs with TList => Some (s_keys (si cs)) | _ => None end.

Lemma obt_In : forall s ts m t k, In (t, k) (fold_left (obt s) ts m) -> In (t, k) m \/
  (In t ts /\ exists cs, schema_child s t = Ok cs /\ is_user_seq cs = true /\ k = okind cs).
Proof.
  intros s ts. induction ts as [| t0 r IH]; intros m t k H; simpl in H; auto.
  destruct (IH _ _ _ H) as [X | (X & Y)]; [| right; split; [right; auto | auto]].
  unfold obt in X. destruct (schema_child s t0) as [cs |] eqn:Hs; auto. unfold obu_add in X. destruct (is_user_seq cs) eqn:U; auto.
  destruct (assoc String.eqb (stag cs) m); auto. apply in_app_or in X. destruct X as [X | [X | []]]; auto. injection X as X1 X2.
  rewrite (schema_child_tag s t0 cs Hs) in X1. subst t0. right. split; [left; auto |]. exists cs. auto.
Qed.

Lemma obt_keep : forall s ts m t, In t (map fst m) -> In t (map fst (fold_left (obt s) ts m)).
Proof.
  intros s ts. induction ts as [| t0 r IH]; intros m t H; simpl; auto. apply IH. unfold obt. destruct (schema_child s t0); auto.
  unfold obu_add. destruct (is_user_seq a); auto. destruct (assoc String.eqb (stag a) m); auto. rewrite map_app. apply in_or_app. auto.
Qed.

Lemma obt_has : forall s ts m t cs, In t ts -> schema_child s t = Ok cs -> is_user_seq cs = true -> In t (map fst (fold_left (obt s) ts m)).
Proof.
  intros s ts. induction ts as [| t0 r IH]; intros m t cs H Hs U; simpl; [destruct H |]. destruct H as [H | H]; [| eapply IH; eauto].
  subst t0. apply obt_keep. unfold obt. rewrite Hs. unfold obu_add. rewrite U. assert (T := schema_child_tag s t cs Hs). rewrite T.
  destruct (assoc String.eqb t m) as [v |] eqn:E.
  - apply (assoc_In String.eqb string_eqb_ok) in E. apply (in_map fst) in E. exact E.
  - rewrite map_app. apply in_or_app. right. left. auto.
Qed.

Lemma obt_NoDup : forall s ts m, NoDup (map fst m) -> NoDup (map fst (fold_left (obt s) ts m)).
Proof.
  intros s ts. induction ts as [| t0 r IH]; intros m H; simpl; auto. apply IH. unfold obt. destruct (schema_child s t0) as [cs |]; auto.
  unfold obu_add. destruct (is_user_seq cs); auto. destruct (assoc String.eqb (stag cs) m) eqn:E; auto. rewrite map_app. simpl.
  apply (Permutation_NoDup (l := stag cs :: map fst m)); [apply Permutation_cons_append |]. constructor; auto.
  apply (assoc_None String.eqb string_eqb_ok) in E. exact E.
Qed.

Lemma obt_assoc : forall s ts t, assoc String.eqb t (fold_left (obt s) ts []) =
  match schema_child s t with Ok cs => if is_user_seq cs && mem String.eqb t ts then Some (okind cs) else None | Err _ => None end.
Proof.
  intros s ts t. set (m := fold_left (obt s) ts []).
  destruct (assoc String.eqb t m) as [k |] eqn:E.
  - apply (assoc_In String.eqb string_eqb_ok) in E. apply obt_In in E. destruct E as [[] | (H & cs & Hs & U & K)].
    apply (mem_In String.eqb string_eqb_ok) in H. rewrite Hs, U, H. simpl. congruence.
  - apply (assoc_None String.eqb string_eqb_ok) in E. destruct (schema_child s t) as [cs |] eqn:Hs; auto.
    destruct (is_user_seq cs) eqn:U; auto. destruct (mem String.eqb t ts) eqn:M; auto. exfalso. apply E.
    apply (mem_In String.eqb string_eqb_ok) in M. eapply obt_has; eauto.
Qed.
