(** Sums of alike trees: the steps of node_add. *)
From Coq Require Import String Ascii List Bool Arith ZArith Lia Permutation.
From Verif Require Import Base BaseP XmlM CalcM CalcP NetconfM DataSpec DataP ListP AlikeSpec AlikeP AlikeAddP.
Import ListNotations.
Open Scope string_scope.
Open Scope list_scope.

Section Add.
Variable s : snode.
Variable rec : snode -> xml -> xml -> res xml.
Hypothesis Hrec : forall cs a a' b b', Alike cs a a' -> Alike cs b b' -> Alikewise (Alike cs) (rec cs a b) (rec cs a' b').
Hypothesis Htag : forall cs a b r, rec cs a b = Ok r -> xtag r = xtag a.

Definition GoodN (p : uid * xml) : Prop := uid_of s (snd p) = Ok (fst p).
Definition GoodP (p : uid * xml * xml) : Prop := fst (fst (fst p)) = xtag (snd (fst p)) /\ xtag (snd p) = xtag (snd (fst p)).
Definition PR (p q : uid * xml * xml) : Prop :=
  fst (fst p) = fst (fst q) /\ AK s (xtag (snd (fst p))) (snd (fst p)) (snd (fst q)) /\ AK s (xtag (snd p)) (snd p) (snd q).

(** ** In step *)
Lemma alike_find : forall cs x y k, Alike cs x y -> (exists u, kids_tagged k (xkids x) = [u]) -> 
  exists u v, find_kid k (xkids x) = Some u /\ find_kid k (xkids y) = Some v /\ AK cs k u v.
Proof.
  intros cs x y k H (u & E). apply alike_inv in H. destruct H as (_ & _ & _ & K). specialize (K k).
  destruct (Matched_one _ _ _ _ u K E) as (v & E2 & R). exists u, v.
  assert (G : forall l w, kids_tagged k l = [w] -> find_kid k l = Some w).
  { intros l w. unfold kids_tagged, find_kid. induction l as [| d r IH]; simpl; [discriminate |].
    destruct (String.eqb (xtag d) k); auto. intro X. injection X as X _. congruence. }
  split; [apply G; auto | split; [apply G; auto | auto]].
Qed.

Lemma key_copies_lock : forall cs c c' ts, Alike cs c c' -> key_tuple cs c = Ok ts ->
  Alikewise (Forall2 (fun k k' => AK cs (xtag k) k k')) (key_copies cs c) (key_copies cs c').
Proof.
  intros cs c c' ts A K. unfold key_copies. unfold key_tuple in K. apply mapM_ok in K.
  revert ts K. induction (s_keys (si cs)) as [| k r IH]; intros ts K; simpl; auto. inversion K as [| ? ? ? ? K1 K2]; subst.
  apply bind_ok in K1. destruct K1 as (w & F & _). unfold find_one_child in F.
  destruct (kids_tagged k (xkids c)) as [| w' [|]] eqn:E; try discriminate.
  destruct (alike_find cs c c' k A) as (u & v & E1 & E2 & R); [eauto |]. rewrite E1, E2. simpl.
  apply (aw_bind (Forall2 (fun k k' => AK cs (xtag k) k k'))); [eapply IH; eauto |]. intros ks ks' F2. simpl. constructor; auto.
  assert (T : xtag (del_attrib u) = k).
  { destruct u as [t tx a kk]. simpl. unfold find_kid in E1. apply find_some in E1. destruct E1 as (_ & E1). apply (string_eqb_ok) in E1. auto. }
  rewrite T. apply AK_del. auto.
Qed.

Lemma AKids_F2 : forall cs k k', Forall2 (fun c c' => AK cs (xtag c) c c') k k' -> AKids cs k k'.
Proof.
  intros cs k k' H n. apply Matched_ordered. unfold kids_tagged. 
  assert (F : Forall2 (fun c c' => AK cs (xtag c) c c') (filter (fun c => String.eqb (xtag c) n) k) (filter (fun c => String.eqb (xtag c) n) k')).
  { apply Forall2_filter; auto. intros x y R. apply AK_parts in R. destruct R as (R & _). rewrite R. auto. }
  apply (Forall2_In_impl _ _ _ _ F). intros x y Hx _ R. apply filter_In in Hx. destruct Hx as (_ & Hx). apply (string_eqb_ok) in Hx. subst. auto.
Qed.

Lemma new_lock : forall l l' p p', Forall2 (ER s) l l' -> ER s p p' -> GoodN p ->
  Alikewise (Forall2 (ER s)) (add_new rec s l p) (add_new rec s l' p').
Proof.
  intros l l' [u c] [u' c'] L (E & R) U. unfold GoodN in U. simpl in E, R, U. subst u'. unfold add_new.
  assert (P := AK_parts _ _ _ _ R). destruct P as (T & _ & _). rewrite <- T. rewrite <- (AK_op s _ _ _ R).
  assert (D : ER s (u, del_attrib c) (u, del_attrib c')).
  { split; auto. simpl. destruct c as [t tx a k]. simpl. apply (AK_del s _ _ _ R). }
  assert (A : Alikewise (Forall2 (ER s)) (Ok (l ++ [(u, del_attrib c)])) (Ok (l' ++ [(u, del_attrib c')]))).
  { simpl. apply Forall2_app; auto. }
  assert (PL : forall cs, Alikewise (Forall2 (ER s))
     (let! r := place_new cs c (u, del_attrib c) l in match r with Some l' => Ok l' | None => Ok l end)
     (let! r := place_new cs c' (u, del_attrib c') l' in match r with Some l' => Ok l' | None => Ok l' end)).
  { intro cs. apply (aw_bind (OF2 s)); [apply (place_lock s cs _ c c' _ _ l l' R D L) |].
    intros [x |] [y |] O; simpl in *; auto; contradiction. }
  destruct (op_of c) eqn:OP; try (simpl; auto; fail);
  (destruct (schema_child s (xtag c)) as [cs | e] eqn:SC; simpl; [| auto]); assert (AC := AK_child _ _ _ _ _ R SC); destruct (sty cs) eqn:TY; auto.
  - apply (aw_bindE (Alike cs)); [apply Hrec; auto; apply alike_refl |]. intros x y X1 X2 X. simpl.
    apply Forall2_app; auto. constructor; auto. split; auto. simpl. apply Htag in X1. simpl in X1. rewrite X1. apply (AK_make s _ _ _ cs); auto.
  - assert (K : exists ts, key_tuple cs c = Ok ts).
    { unfold uid_of in U. rewrite SC in U. simpl in U. rewrite TY in U. apply bind_ok in U. destruct U as (ts & U & _). eauto. }
    destruct K as (ts & K). apply (aw_bind _ _ _ _ _ _ (key_copies_lock cs c c' ts AC K)). intros ks ks' KS.
    assert (AE : Alike cs (Elem (xtag c) None [] ks) (Elem (xtag c) None [] ks')).
    { apply alike_intro; auto. simpl. apply AKids_F2. auto. }
    apply (aw_bind (OF2 s)).
    + apply (place_lock s cs _ c c' _ _ l l' R); auto. split; auto. simpl. apply (AK_make s _ _ _ cs); auto.
    + intros [x |] [y |] O; simpl in O; try contradiction; [| simpl; auto].
      apply (aw_bindE (Alike cs)); [apply Hrec; auto |]. intros e e' X1 X2 X. simpl. apply upd_F2; auto.
      apply Htag in X1. simpl in X1. rewrite X1. apply (AK_make s _ _ _ cs); auto.
Qed.

Lemma peer_lock : forall l l' p p', Forall2 (ER s) l l' -> PR p p' -> GoodP p ->
  Alikewise (Forall2 (ER s)) (add_peer rec s l p) (add_peer rec s l' p').
Proof.
  intros l l' [[u x] c] [[u' x'] c'] L (E & R1 & R2) (G1 & G2). simpl in E, R1, R2, G1, G2. subst u'. unfold add_peer.
  assert (P := AK_parts _ _ _ _ R1). destruct P as (T & TX & TA). rewrite <- T. rewrite <- (AK_op s _ _ _ R2).
  destruct (schema_child s (xtag x)) as [cs | e] eqn:SC; simpl; auto.
  assert (AX := AK_child _ _ _ _ _ R1 SC). assert (R3 : AK s (xtag x) c c') by (rewrite <- G2; auto). assert (AC := AK_child _ _ _ _ _ R3 SC).
  assert (DL : Alikewise (Forall2 (ER s)) (Ok (del_uid u l)) (Ok (del_uid u l'))) by (simpl; apply del_F2; auto).
  assert (MV := move_lock s cs _ c c' (u, x) (u, x') l l' R2 (conj eq_refl R1) L).
  assert (CP : AK s (xtag (del_attrib c)) (del_attrib c) (del_attrib c')).
  { replace (xtag (del_attrib c)) with (xtag c) by (destruct c; auto). apply AK_del. auto. }
  assert (N := alike_no_kids _ _ _ AX).
  destruct (sty cs) eqn:TY.
  - destruct (op_of c); simpl; auto; try (apply del_F2; auto; fail).
    all: apply upd_F2; auto; destruct (AK_parts _ _ _ _ R2) as (_ & TC & _); rewrite <- TC;
      replace (xtag (set_text (xtext c) x)) with (xtag x) by (destruct x; auto); apply (AK_make s _ _ _ cs); auto;
      destruct (alike_inv _ _ _ AX) as (Q1 & Q2 & Q3 & Q4); destruct x, x'; simpl in *; apply alike_intro; simpl; auto.
  - destruct (op_of c); auto; simpl; auto.
  - assert (GN : (np_container cs && match xkids x with [] => true | _ => false end) = (np_container cs && match xkids x' with [] => true | _ => false end)).
    { f_equal. destruct (xkids x) as [| y1 r1] eqn:E1; destruct (xkids x') as [| y2 r2] eqn:E2; auto; exfalso;
      [assert (X : y2 :: r2 = []) by (apply N; auto) | assert (X : y1 :: r1 = []) by (apply N; auto)]; discriminate. }
    rewrite <- GN. destruct (op_of c); try (simpl; auto; fail).
    + apply (aw_bindE (Alike cs)); [apply Hrec; auto |]. intros e e' X1 X2 X.
      assert (UE : Alikewise (Forall2 (ER s)) (Ok (upd_uid u e l)) (Ok (upd_uid u e' l'))).
      { simpl. apply upd_F2; auto. apply Htag in X1. rewrite X1. apply (AK_make s _ _ _ cs); auto. }
      assert (NE := alike_no_kids _ _ _ X). destruct (xkids e) as [| y1 r1] eqn:E1; destruct (xkids e') as [| y2 r2] eqn:E2; auto.
      * destruct (np_container cs); auto.
      * exfalso. assert (Z : y2 :: r2 = []) by (apply NE; auto). discriminate.
      * exfalso. assert (Z : y1 :: r1 = []) by (apply NE; auto). discriminate.
    + destruct (np_container cs && _); [simpl; auto |]. simpl. apply upd_F2; auto.
    + destruct (np_container cs && _); [simpl; auto |]. exact DL.
    + destruct (np_container cs && _); [simpl; auto |]. exact DL.
  - destruct (op_of c); auto; apply (aw_bind _ _ _ _ _ _ MV); intros m m' M; try (simpl; auto; fail).
    + apply (aw_bindE (Alike cs)); [apply Hrec; auto |]. intros e e' X1 X2 X. simpl. apply upd_F2; auto.
      apply Htag in X1. rewrite X1. apply (AK_make s _ _ _ cs); auto.
    + simpl. apply upd_F2; auto.
  - simpl; auto.
  - simpl; auto.
  - simpl; auto.
  - simpl; auto.
Qed.
(** ** Effects on sequences that are not in the order of the user *)
Lemma Ins_upd_perm : forall p u x y l, Permutation (upd_uid u y (ins_after_last p (u, x) l)) ((u, y) :: upd_uid u y l).
Proof.
  intros p u x y l. apply (perm_trans (l' := upd_uid u y ((u, x) :: l))).
  - apply Permutation_map. apply Permutation_sym. apply Ins_perm. apply ins_after_last_Ins.
  - simpl. unfold has_uid at 1. simpl. rewrite uid_eqb_refl. auto.
Qed.

Ltac none := (exists None; intro k; eexists; reflexivity).
Ltac some f := (exists (Some f); intro k; split; [reflexivity |]).

Lemma new_eff : forall p, GoodN p -> usr s (xtag (snd p)) = false -> exists o, forall k,
  match o with
  | None => exists e, add_new rec s k p = Err e
  | Some f => effu f (fst p) /\ exists k2, add_new rec s k p = Ok k2 /\ Permutation k2 (eapp f k)
  end.
Proof.
  intros [u c] _ U. simpl in *. unfold usr in U. unfold add_new.
  destruct (op_of c) eqn:OP; try none; try (exists (Some EId); intro k; split; [exact I | eexists; split; [reflexivity | simpl; auto]]; fail);
  (destruct (schema_child s (xtag c)) as [cs |] eqn:SC; simpl; [| none]);
  assert (PN : forall e l, place_new cs c e l = Ok (Some (ins_after_last (has_tag (xtag c)) e l))) by (intros e l; unfold place_new; rewrite U; auto);
  assert (APP : forall x, exists o, forall k, match o with None => exists e, Ok (k ++ [(u, x)]) = Err e
     | Some f => effu f u /\ exists k2, Ok (k ++ [(u, x)]) = Ok k2 /\ Permutation k2 (eapp f k) end)
   by (intro x; some (EAdd u x); eexists; split; [reflexivity |]; simpl; apply Permutation_sym; apply Permutation_cons_append);
  assert (PLC : forall x, exists o, forall k, match o with None => exists e, (let! r := place_new cs c (u, x) k in match r with Some l' => Ok l' | None => Ok k end) = Err e
     | Some f => effu f u /\ exists k2, (let! r := place_new cs c (u, x) k in match r with Some l' => Ok l' | None => Ok k end) = Ok k2 /\ Permutation k2 (eapp f k) end)
   by (intro x; some (EAdd u x); rewrite PN; simpl; eexists; split; [reflexivity |]; apply Permutation_sym; apply Ins_perm; apply ins_after_last_Ins);
  destruct (sty cs) eqn:TY; try apply APP; try apply PLC; try (exists (Some EId); intro k; split; [exact I | eexists; split; [reflexivity | simpl; auto]]; fail).
  - destruct (rec cs (Elem (xtag c) None [] []) c) as [e |]; simpl; [apply APP | none].
  - destruct (key_copies cs c) as [ks |]; simpl; [| none].
    destruct (rec cs (Elem (xtag c) None [] ks) c) as [e |].
    + some (EPut u e). rewrite PN. simpl. eexists. split; [reflexivity |]. apply Ins_upd_perm.
    + exists None. intro k. rewrite PN. simpl. eauto.
Qed.

Lemma peer_eff : forall p, usr s (xtag (snd (fst p))) = false -> exists o, forall k,
  match o with
  | None => exists e, add_peer rec s k p = Err e
  | Some f => effu f (fst (fst p)) /\ exists k2, add_peer rec s k p = Ok k2 /\ Permutation k2 (eapp f k)
  end.
Proof.
  intros [[u x] c] U. simpl in *. unfold usr in U. unfold add_peer.
  destruct (schema_child s (xtag x)) as [cs |] eqn:SC; simpl; [| none].
  assert (MV : forall e l, move_peer cs c e l = Ok l) by (intros e l; unfold move_peer; rewrite U; auto).
  assert (UPD : forall y, exists o, forall k, match o with None => exists e, Ok (upd_uid u y k) = Err e
     | Some f => effu f u /\ exists k2, Ok (upd_uid u y k) = Ok k2 /\ Permutation k2 (eapp f k) end).
  { intro y. some (EUpd u y). eexists. split; [reflexivity | simpl; auto]. }
  assert (DEL : exists o, forall k, match o with None => exists e, Ok (del_uid u k) = Err e
     | Some f => effu f u /\ exists k2, Ok (del_uid u k) = Ok k2 /\ Permutation k2 (eapp f k) end).
  { some (EDel u). eexists. split; [reflexivity | simpl; auto]. }
  assert (KEEP : exists o, forall k : list ent, match o with None => exists e, Ok k = Err e
     | Some f => effu f u /\ exists k2, Ok k = Ok k2 /\ Permutation k2 (eapp f k) end).
  { exists (Some EId). intro k. split; [exact I | eexists; split; [reflexivity | simpl; auto]]. }
  destruct (sty cs) eqn:TY; try exact KEEP.
  - destruct (op_of c); try exact (UPD _); try exact DEL; none.
  - destruct (op_of c); try exact DEL; try none; destruct KEEP as (o & K); exists o; intro k; rewrite MV; apply K.
  - destruct (op_of c); try none; try (destruct (np_container cs && _); [none | first [exact DEL | exact (UPD _)]]).
    destruct (rec cs x c) as [e |]; simpl; [| none]. destruct (xkids e); [destruct (np_container cs); [exact DEL | exact (UPD e)] | exact (UPD e)].
  - destruct (op_of c); try exact DEL.
    + destruct (rec cs x c) as [e |].
      * destruct (UPD e) as (o & K). exists o. intro k. rewrite MV. simpl. apply K.
      * exists None. intro k. rewrite MV. simpl. eauto.
    + exists None. intro k. rewrite MV. simpl. eauto.
    + destruct (UPD (del_attrib c)) as (o & K). exists o. intro k. rewrite MV. simpl. apply K.
    + exists None. intro k. rewrite MV. simpl. eauto.
Qed.

(** ** Steps touch one name only *)
Lemma str4 : forall (A : Type) v (P : A -> A -> Prop) (a b c d e a' b' c' d' e' : A),
  P a a' -> P b b' -> P c c' -> P d d' -> P e e' ->
  P (match v with "first" => a | "last" => b | "before" => c | "after" => d | _ => e end)
    (match v with "first" => a' | "last" => b' | "before" => c' | "after" => d' | _ => e' end).
Proof.
  intros. repeat match goal with |- P (match ?x with _ => _ end) _ => destruct x; auto end.
Qed.

Lemma flt_first : forall t q e l, (forall x, In x l -> q x = true -> has_tag t x = true) -> has_tag t e = true ->
  flt t (ins_before_first q e l) = ins_before_first q e (flt t l).
Proof.
  intros t q e l H E. induction l as [| x r IH]; simpl; [rewrite E; auto |].
  assert (IH' := IH (fun y Hy => H y (or_intror Hy))). assert (Hx := H x (or_introl eq_refl)).
  destruct (q x) eqn:Q; simpl.
  - rewrite E, (Hx eq_refl). simpl. rewrite Q. auto.
  - rewrite IH'. destruct (has_tag t x); simpl; rewrite ?Q; auto.
Qed.

Lemma flt_after : forall t q e l, (forall x, In x l -> q x = true -> has_tag t x = true) -> has_tag t e = true ->
  flt t (ins_after_first q e l) = ins_after_first q e (flt t l).
Proof.
  intros t q e l H E. induction l as [| x r IH]; simpl; [rewrite E; auto |].
  assert (IH' := IH (fun y Hy => H y (or_intror Hy))). assert (Hx := H x (or_introl eq_refl)).
  destruct (q x) eqn:Q; simpl.
  - rewrite E, (Hx eq_refl). simpl. rewrite Q. auto.
  - rewrite IH'. destruct (has_tag t x); simpl; rewrite ?Q; auto.
Qed.

Lemma flt_last : forall t q e l, (forall x, In x l -> q x = true -> has_tag t x = true) -> has_tag t e = true ->
  flt t (ins_after_last q e l) = ins_after_last q e (flt t l).
Proof.
  intros t q e l H E. induction l as [| x r IH]; simpl; [rewrite E; auto |].
  assert (IH' := IH (fun y Hy => H y (or_intror Hy))). assert (Hx := H x (or_introl eq_refl)).
  assert (X : existsb q (flt t r) = existsb q r).
  { assert (H' : forall y, In y r -> q y = true -> has_tag t y = true) by (intros; apply H; auto; right; auto). clear -H'.
    induction r as [| y r IH]; simpl; auto. destruct (has_tag t y) eqn:T; simpl; rewrite IH; auto; try (intros; apply H'; auto; right; auto).
    destruct (q y) eqn:Q; simpl; auto. rewrite (H' y) in T; auto; [discriminate | left; auto]. }
  destruct (existsb q r) eqn:Q; simpl.
  - rewrite IH'. destruct (has_tag t x); simpl; rewrite ?X; auto.
  - destruct (q x) eqn:Qx; simpl.
    + rewrite E, (Hx eq_refl). simpl. rewrite X, Qx. auto.
    + rewrite IH'. destruct (has_tag t x); simpl; rewrite ?X, ?Qx; auto.
Qed.

Lemma find_flt : forall t q l, find (fun e => has_tag t e && q e) l = find (fun e => has_tag t e && q e) (flt t l).
Proof.
  intros t q l. induction l as [| x r IH]; simpl; auto. destruct (has_tag t x) eqn:T; simpl; rewrite ?T; simpl; auto. destruct (q x); auto.
Qed.

Lemma find_tag_flt : forall t l, find (has_tag t) l = find (has_tag t) (flt t l).
Proof. intros t l. induction l as [| x r IH]; simpl; auto. destruct (has_tag t x) eqn:T; simpl; rewrite ?T; auto. Qed.

Lemma flt_rev : forall t l, flt t (rev l) = rev (flt t l).
Proof.
  intros t l. induction l as [| x r IH]; simpl; auto. unfold flt in *. rewrite filter_app', IH. simpl. destruct (has_tag t x); simpl; auto. apply app_nil_r.
Qed.

Lemma ref_flt : forall ty c l, ref_sibling ty c (flt (xtag c) l) = ref_sibling ty c l.
Proof.
  intros ty c l. unfold ref_sibling, find_value, find_key.
  assert (V : forall v, find (fun e => has_tag (xtag c) e && ostr_eqb (xtext (snd e)) (Some v)) l =
    find (fun e => has_tag (xtag c) e && ostr_eqb (xtext (snd e)) (Some v)) (flt (xtag c) l)) by (intro v; apply (find_flt _ (fun e => ostr_eqb (xtext (snd e)) (Some v)))).
  assert (K : forall ps, find (fun e => has_tag (xtag c) e && matches_preds ps (snd e)) l =
    find (fun e => has_tag (xtag c) e && matches_preds ps (snd e)) (flt (xtag c) l)) by (intro ps; apply (find_flt _ (fun e => matches_preds ps (snd e)))).
  destruct ty; destruct (get_attr value_tag c); destruct (get_attr key_tag c) as [p |]; rewrite <- ?V; auto; destruct (parse_preds (String.length p) p); rewrite <- ?K; auto.
Qed.

Lemma ref_tag : forall ty c l u, Tg l -> ref_sibling ty c l = Ok u -> fst u = xtag c.
Proof.
  intros ty c l u T H. assert (G : forall q v, option_map fst (find (fun e => has_tag (xtag c) e && q e) l) = Some v -> fst v = xtag c).
  { intros q v F. destruct (find _ l) as [e |] eqn:E; [| discriminate]. simpl in F. injection F as F. subst v.
    apply find_some in E. destruct E as (E1 & E2). apply andb_true_iff in E2. destruct E2 as (E2 & _). unfold has_tag in E2. apply (string_eqb_ok) in E2.
    rewrite (T e E1). auto. }
  assert (V : forall w, match w with None => Err ConfigDeltaError | Some v => match find_value (xtag c) v l with None => Err ConfigDeltaError | Some u => Ok u end end = Ok u -> fst u = xtag c).
  { intros [w |]; [| discriminate]. unfold find_value. destruct (option_map fst _) eqn:F; [| discriminate]. intro X. injection X as X. subst. eapply G. exact F. }
  assert (K : forall w, match w with None => Err ConfigDeltaError | Some p => let! o := find_key (xtag c) p l in match o with None => Err ConfigDeltaError | Some u => Ok u end end = Ok u -> fst u = xtag c).
  { intros [w |]; [| discriminate]. unfold find_key. destruct (parse_preds _ _) as [ps |]; [| discriminate]. simpl.
    destruct (option_map fst _) eqn:F; [| discriminate]. intro X. injection X as X. subst. eapply G. exact F. }
  unfold ref_sibling in H. destruct ty; first [exact (K _ H) | exact (V _ H)].
Qed.

Lemma flt_del : forall t u l, flt t (del_uid u l) = del_uid u (flt t l).
Proof. intros. unfold flt, del_uid. apply filter_comm. Qed.

Lemma flt_del_other : forall t (u : uid) l, Tg l -> fst u <> t -> flt t (del_uid u l) = flt t l.
Proof.
  intros t u l T H. rewrite flt_del. unfold del_uid. apply filter_all. intros e He. apply flt_In in He. destruct He as (He & X).
  apply negb_true_iff. unfold has_uid. apply uid_eqb_ne. intro E. apply H. rewrite E. rewrite (T e He). auto.
Qed.

Lemma Tg_del : forall u l, Tg l -> Tg (del_uid u l).
Proof. intros u l T e He. apply filter_In in He. apply T. tauto. Qed.

Lemma Tg_upd : forall (u : uid) x l, Tg l -> xtag x = fst u -> Tg (upd_uid u x l).
Proof.
  intros u x l T H e He. apply in_map_iff in He. destruct He as (e0 & E & He0). destruct (has_uid u e0); subst; auto.
Qed.

Lemma upd_tag : forall t (u : uid) (x : xml) (l : list ent), Tg l -> xtag x = fst u -> forall e, In e l -> has_tag t (if has_uid u e then (u, x) else e) = has_tag t e.
Proof.
  intros t u x l T H e He. destruct (has_uid u e) eqn:U; auto. unfold has_uid in U. apply uid_eqb_ok in U. unfold has_tag. simpl. rewrite H, U. rewrite (T e He). auto.
Qed.

Lemma flt_upd : forall t (u : uid) (x : xml) (l : list ent), Tg l -> xtag x = fst u -> flt t (upd_uid u x l) = upd_uid u x (flt t l).
Proof.
  intros t u x l T H. induction l as [| e r IH]; simpl; auto. assert (T' : Tg r) by (intros y Hy; apply T; right; auto).
  assert (X := upd_tag t u x (e :: r) T H e (or_introl eq_refl)). rewrite IH; auto.
  destruct (has_uid u e) eqn:U; [rewrite X |]; destruct (has_tag t e); simpl; rewrite ?U; auto.
Qed.

Lemma upd_id : forall (u : uid) x l, (forall e, In e l -> has_uid u e = false) -> upd_uid u x l = l.
Proof.
  intros u x l H. induction l as [| e r IH]; simpl; auto. rewrite (H e (or_introl eq_refl)). rewrite IH; auto. intros; apply H; right; auto.
Qed.

Lemma flt_upd_other : forall t (u : uid) (x : xml) (l : list ent), Tg l -> xtag x = fst u -> fst u <> t -> flt t (upd_uid u x l) = flt t l.
Proof.
  intros t u x l T H N. rewrite flt_upd; auto. apply upd_id. intros e He. apply flt_In in He. destruct He as (He & X).
  unfold has_uid. apply uid_eqb_ne. intro E. apply N. rewrite E. rewrite (T e He). auto.
Qed.

Lemma Tg_Ins : forall (e : ent) l l', Ins e l l' -> Tg l -> fst (fst e) = xtag (snd e) -> Tg l'.
Proof. intros e l l' H T E x Hx. apply (Ins_In e x l l' H) in Hx. destruct Hx; subst; auto. Qed.

Lemma has_tag_refl : forall u x, has_tag (xtag x) (u, x) = true.
Proof. intros. unfold has_tag. simpl. apply String.eqb_refl. Qed.

Lemma has_tag_ne : forall t u x, t <> xtag x -> has_tag t (u, x) = false.
Proof. intros t u x H. unfold has_tag. simpl. apply String.eqb_neq. auto. Qed.

Definition LocAt (t : string) (l l' : list ent) : Prop := Tg l' /\ forall t', t' <> t -> flt t' l' = flt t' l.

Lemma uid_has_tag : forall l (u : uid) t, Tg l -> fst u = t -> forall x, In x l -> has_uid u x = true -> has_tag t x = true.
Proof.
  intros l u t T E x Hx H. unfold has_uid in H. apply uid_eqb_ok in H. unfold has_tag. apply (string_eqb_ok). rewrite <- (T x Hx). congruence.
Qed.

Definition PL (t : string) (e : ent) (l : list ent) (r r' : res (option (list ent))) : Prop :=
  match r with
  | Ok (Some l') => LocAt t l l' /\ Ins e l l' /\ r' = Ok (Some (flt t l'))
  | Ok None => r' = Ok None
  | Err _ => exists x, r' = Err x
  end.

Lemma place_loc : forall cs c (e : ent) l, Tg l -> xtag (snd e) = xtag c -> fst (fst e) = xtag c ->
  PL (xtag c) e l (place_new cs c e l) (place_new cs c e (flt (xtag c) l)).
Proof.
  intros cs c e l T E1 E2. assert (HE : has_tag (xtag c) e = true) by (unfold has_tag; rewrite E1; apply String.eqb_refl).
  assert (LA : forall l', Ins e l l' -> LocAt (xtag c) l l').
  { intros l' I. split; [apply (Tg_Ins e l); auto; congruence |]. intros t' N. apply (Ins_filter_out _ e l l' I).
    unfold has_tag. rewrite E1. apply String.eqb_neq. auto. }
  assert (HT : forall x, In x l -> has_tag (xtag c) x = true -> has_tag (xtag c) x = true) by auto.
  assert (Z : PL (xtag c) e l (Ok (Some (ins_after_last (has_tag (xtag c)) e l))) (Ok (Some (ins_after_last (has_tag (xtag c)) e (flt (xtag c) l))))).
  { assert (I := ins_after_last_Ins (has_tag (xtag c)) e l). split; auto. split; auto. rewrite flt_last; auto. }
  unfold place_new. rewrite ref_flt.
  destruct (if s_user (si cs) then get_attr insert_tag c else None) as [v |]; auto.
  apply (str4 _ v (PL (xtag c) e l)); auto.
  - assert (I := ins_before_first_Ins (has_tag (xtag c)) e l). split; auto. split; auto. rewrite flt_first; auto.
  - destruct (ref_sibling (sty cs) c l) as [u |] eqn:U; simpl; [| eauto].
    assert (I := ins_before_first_Ins (has_uid u) e l). split; auto. split; auto. rewrite flt_first; auto. apply uid_has_tag; auto. eapply ref_tag; eauto.
  - destruct (ref_sibling (sty cs) c l) as [u |] eqn:U; simpl; [| eauto].
    assert (I := ins_after_first_Ins (has_uid u) e l). split; auto. split; auto. rewrite flt_after; auto. apply uid_has_tag; auto. eapply ref_tag; eauto.
  - reflexivity.
Qed.

Definition ML (t : string) (l : list ent) (r r' : res (list ent)) : Prop :=
  match r with
  | Ok l' => LocAt t l l' /\ r' = Ok (flt t l')
  | Err _ => exists x, r' = Err x
  end.

Lemma move_loc : forall cs c (e : ent) l, Tg l -> xtag (snd e) = xtag c -> fst (fst e) = xtag c ->
  ML (xtag c) l (move_peer cs c e l) (move_peer cs c e (flt (xtag c) l)).
Proof.
  intros cs c e l T E1 E2. assert (HE : has_tag (xtag c) e = true) by (unfold has_tag; rewrite E1; apply String.eqb_refl).
  assert (LA : forall l', Ins e (del_uid (fst e) l) l' -> LocAt (xtag c) l l').
  { intros l' I. split; [apply (Tg_Ins e (del_uid (fst e) l)); auto; [apply Tg_del; auto | congruence] |]. intros t' N.
    rewrite <- (flt_del_other t' (fst e) l T); [| congruence]. apply (Ins_filter_out _ e _ l' I). unfold has_tag. rewrite E1. apply String.eqb_neq. auto. }
  assert (TD : Tg (del_uid (fst e) l)) by (apply Tg_del; auto).
  assert (HT : forall x, In x (del_uid (fst e) l) -> has_tag (xtag c) x = true -> has_tag (xtag c) x = true) by auto.
  assert (Z : ML (xtag c) l (Ok l) (Ok (flt (xtag c) l))) by (split; auto; split; auto).
  unfold move_peer. rewrite ref_flt, <- flt_rev, <- !find_tag_flt, <- flt_del.
  destruct (if s_user (si cs) then get_attr insert_tag c else None) as [v |]; auto.
  apply (str4 _ v (ML (xtag c) l)); auto.
  - destruct (find (has_tag (xtag c)) l) as [e0 |]; [| simpl; eauto]. destruct (has_uid (fst e) e0); auto.
    assert (I := ins_before_first_Ins (has_tag (xtag c)) e (del_uid (fst e) l)). split; auto. rewrite flt_first; auto.
  - destruct (find (has_tag (xtag c)) (rev l)) as [e0 |]; [| simpl; eauto]. destruct (has_uid (fst e) e0); auto.
    assert (I := ins_after_last_Ins (has_tag (xtag c)) e (del_uid (fst e) l)). split; auto. rewrite flt_last; auto.
  - destruct (ref_sibling (sty cs) c l) as [u |] eqn:U; simpl; [| eauto]. destruct (uid_eqb u (fst e)); auto.
    assert (I := ins_before_first_Ins (has_uid u) e (del_uid (fst e) l)). split; auto. rewrite flt_first; auto. apply uid_has_tag; auto. eapply (ref_tag _ c l); eauto.
  - destruct (ref_sibling (sty cs) c l) as [u |] eqn:U; simpl; [| eauto]. destruct (uid_eqb u (fst e)); auto.
    assert (I := ins_after_first_Ins (has_uid u) e (del_uid (fst e) l)). split; auto. rewrite flt_after; auto. apply uid_has_tag; auto. eapply (ref_tag _ c l); eauto.
Qed.

Lemma flt_app : forall t l m, flt t (l ++ m) = flt t l ++ flt t m.
Proof. intros. unfold flt. apply filter_app'. Qed.

Lemma new_loc : forall p l, Tg l -> GoodN p -> ML (xtag (snd p)) l (add_new rec s l p) (add_new rec s (flt (xtag (snd p)) l) p).
Proof.
  intros [u c] l T G. unfold GoodN in G. simpl in G |- *. assert (UT : fst u = xtag c) by (eapply uid_tag; eauto).
  assert (DA : xtag (del_attrib c) = xtag c) by (destruct c; auto).
  assert (Z : ML (xtag c) l (Ok l) (Ok (flt (xtag c) l))) by (split; auto; split; auto).
  assert (APP : forall x, xtag x = xtag c -> ML (xtag c) l (Ok (l ++ [(u, x)])) (Ok (flt (xtag c) l ++ [(u, x)]))).
  { intros x X. assert (HX : has_tag (xtag c) (u, x) = true) by (unfold has_tag; simpl; rewrite X; apply String.eqb_refl). split; [split |].
    - intros e He. apply in_app_or in He. destruct He as [He | [He | []]]; [auto | subst; simpl; congruence].
    - intros t' N. rewrite flt_app. simpl. rewrite has_tag_ne; [apply app_nil_r | congruence].
    - rewrite flt_app. simpl. rewrite HX. auto. }
  unfold add_new. destruct (op_of c) eqn:OP; auto; try (simpl; eauto; fail);
  (destruct (schema_child s (xtag c)) as [cs |] eqn:SC; simpl; [| eauto]);
  destruct (sty cs) eqn:TY; try (apply APP; auto; fail); try exact Z;
  try (assert (P := place_loc cs c (u, del_attrib c) l T DA UT); unfold PL in P;
       destruct (place_new cs c (u, del_attrib c) l) as [[l' |] |]; simpl;
       [destruct P as (P1 & P2 & P3); rewrite P3; split; auto | rewrite P; exact Z | destruct P as (x & P); rewrite P; simpl; eauto]; fail).
  - destruct (rec cs (Elem (xtag c) None [] []) c) as [e |] eqn:E; simpl; [| eauto]. apply APP. apply Htag in E. auto.
  - destruct (key_copies cs c) as [ks |]; simpl; [| eauto].
    assert (P := place_loc cs c (u, Elem (xtag c) None [] ks) l T eq_refl UT). unfold PL in P.
    destruct (place_new cs c (u, Elem (xtag c) None [] ks) l) as [[l' |] |]; simpl.
    + destruct P as ((P1 & P1') & P2 & P3). rewrite P3. simpl. destruct (rec cs (Elem (xtag c) None [] ks) c) as [e |] eqn:E; simpl; [| eauto].
      apply Htag in E. simpl in E. split; [split |].
      * apply Tg_upd; auto. congruence.
      * intros t' N. rewrite flt_upd_other; auto; congruence.
      * rewrite flt_upd; auto; congruence.
    + rewrite P. simpl. eauto.
    + destruct P as (x & P). rewrite P. simpl. eauto.
Qed.

Lemma peer_loc : forall (p : uid * xml * xml) l, Tg l -> fst (fst (fst p)) = xtag (snd (fst p)) -> xtag (snd p) = xtag (snd (fst p)) ->
  ML (xtag (snd (fst p))) l (add_peer rec s l p) (add_peer rec s (flt (xtag (snd (fst p))) l) p).
Proof.
  intros [[u x] c] l T UT XC. simpl in UT, XC |- *.
  assert (DA : xtag (del_attrib c) = xtag x) by (rewrite <- XC; destruct c; auto).
  assert (ST : forall o, xtag (set_text o x) = xtag x) by (intro o; destruct x; auto).
  assert (Z : ML (xtag x) l (Ok l) (Ok (flt (xtag x) l))) by (split; auto; split; auto).
  assert (UPD : forall l' y, LocAt (xtag x) l l' -> xtag y = xtag x -> ML (xtag x) l (Ok (upd_uid u y l')) (Ok (upd_uid u y (flt (xtag x) l')))).
  { intros l' y (L1 & L2) Y. split; [split |].
    - apply Tg_upd; auto. congruence.
    - intros t' N. rewrite flt_upd_other; auto; congruence.
    - rewrite flt_upd; auto; congruence. }
  assert (LL : LocAt (xtag x) l l) by (split; auto).
  assert (DEL : ML (xtag x) l (Ok (del_uid u l)) (Ok (del_uid u (flt (xtag x) l)))).
  { split; [split |].
    - apply Tg_del; auto.
    - intros t' N. apply flt_del_other; auto. congruence.
    - rewrite flt_del; auto. }
  unfold add_peer. destruct (schema_child s (xtag x)) as [cs |]; simpl; [| eauto].
  destruct (sty cs) eqn:TY; try exact Z.
  - destruct (op_of c); try exact DEL; try (apply UPD; auto; fail); simpl; eauto.
  - assert (M := move_loc cs c (u, x) l T (eq_sym XC) (eq_trans UT (eq_sym XC))). rewrite XC in M.
    destruct (op_of c); try exact DEL; try exact M; simpl; eauto.
  - destruct (op_of c); simpl; eauto; try (destruct (np_container cs && _); [simpl; eauto | first [exact DEL | apply UPD; auto]]; fail).
    destruct (rec cs x c) as [e |] eqn:E; simpl; [| eauto]. apply Htag in E.
    destruct (xkids e); [destruct (np_container cs); [exact DEL | apply UPD; auto] | apply UPD; auto].
  - assert (M := move_loc cs c (u, x) l T (eq_sym XC) (eq_trans UT (eq_sym XC))). rewrite XC in M.
    destruct (op_of c); try exact DEL;
    (destruct (move_peer cs c (u, x) l) as [l' |]; simpl; [destruct M as (M1 & M2); rewrite ?M2 | destruct M as (x0 & M); rewrite ?M; simpl; eauto]); simpl; eauto.
    + destruct (rec cs x c) as [e |] eqn:E; simpl; [| eauto]. apply Htag in E. apply UPD; auto.
    + apply UPD; auto.
Qed.
End Add.
