(** When a tree can be printed: proofs about PrintM.v. *)
From Coq Require Import String Ascii List Bool Arith Lia.
From Verif Require Import Base BaseP XmlM CalcP TagM TagSpec TagP ReorderM ReorderP MDiffM MDiffSpec MDiffP
  XPathM XPathP DepictM DepictSpec DepictP PrintM PrintSpec PrintP.
Import ListNotations.
Open Scope string_scope.
Open Scope list_scope.
Open Scope nat_scope.

(** ** Every line has a name and a parent *)
Section Total.
Variables (nm : xml -> res string) (tail : xml -> option (string -> string)) (tree : xml).
Hypothesis HN : forall p y, At tree p y -> exists s, nm y = Ok s.

Definition under (y : xml) : Prop := y = tree \/ exists p, At tree p y.
Lemma At_step : forall x p y c, At x p y -> In c (xkids y) -> exists q, At x q c.
Proof.
  intros x p y c H I. induction H as [x k Ik | x k p y Ik H IH].
  - exists [xtag k; xtag c]. apply at_down; auto. apply at_kid. exact I.
  - destruct (IH I) as (q & A). exists (xtag k :: q). apply at_down; auto.
Qed.
Lemma under_kid : forall y c, under y -> In c (xkids y) -> exists p, At tree p c.
Proof.
  intros y c [-> | (p & A)] I; [exists [xtag c]; apply at_kid; exact I |]. exact (At_step _ _ _ _ A I).
Qed.

Lemma line_total : forall section pos i parent x, node_at tree pos = Some parent -> under parent -> In x (xkids parent) ->
  exists s, emit_line nm tail tree section (pos ++ [i], x) = Ok s.
Proof.
  intros section pos i parent x HP HU I. unfold emit_line.
  destruct (under_kid parent x HU I) as (p & A). destruct (HN p x A) as (n & En). rewrite En. cbn [bind].
  destruct (tail x) as [f |]; [| eauto]. rewrite removelast_last, HP. unfold width.
  destruct (mapM_total nm (xkids parent)) as (l' & El).
  { intros a Ia. destruct (under_kid parent a HU Ia) as (q & B). exact (HN q a B). }
  rewrite El. cbn [bind]. eauto.
Qed.

Lemma iter_total : forall section x pos i parent, node_at tree pos = Some parent -> under parent ->
  nth_error (xkids parent) i = Some x ->
  forall px, In px (iter (pos ++ [i]) x) -> exists s, emit_line nm tail tree section px = Ok s.
Proof.
  intro section. induction x as [t tx a ks IH] using xml_ind'; intros pos i parent HP HU HI px Hin.
  set (x := Elem t tx a ks) in *. rewrite iter_eq in Hin.
  assert (HX : node_at tree (pos ++ [i]) = Some x) by (rewrite node_at_app, HP; cbn [node_at]; rewrite HI; reflexivity).
  assert (UX : under x) by (right; apply (under_kid parent); auto; exact (nth_error_In _ _ HI)).
  destruct Hin as [<- | Hin].
  { apply (line_total section pos i parent x HP HU). exact (nth_error_In _ _ HI). }
  assert (G : forall l done, ks = done ++ l -> In px (iter_go (pos ++ [i]) (length done) l) -> exists s, emit_line nm tail tree section px = Ok s).
  { induction l as [| c l IHl]; intros done E I; [destruct I |]. cbn [iter_go] in I. apply in_app_or in I. destruct I as [I | I].
    - rewrite Forall_forall in IH.
      assert (Hc : nth_error ks (length done) = Some c) by (rewrite E, nth_error_app2, Nat.sub_diag by lia; reflexivity).
      apply (IH c (nth_error_In _ _ Hc) (pos ++ [i]) (length done) x HX UX Hc px I).
    - apply (IHl (done ++ [c])); [rewrite <- app_assoc; exact E |]. rewrite app_length. cbn [length]. rewrite Nat.add_1_r. exact I. }
  exact (G ks [] eq_refl Hin).
Qed.

Lemma children_total : forall section, exists ls, emit_children nm tail tree section = Ok ls.
Proof.
  intro section. apply mapM_total. intros px Hin.
  assert (G : forall l done, xkids tree = done ++ l -> In px (roots_of (length done) section l) -> exists s, emit_line nm tail tree section px = Ok s).
  { induction l as [| c l IHl]; intros done E I; [destruct I |]. cbn [roots_of] in I. apply in_app_or in I. destruct I as [I | I].
    - destruct (is_type section c); [| destruct I].
      assert (Hc : nth_error (xkids tree) (length done) = Some c) by (rewrite E, nth_error_app2, Nat.sub_diag by lia; reflexivity).
      apply (iter_total section c [] (length done) tree eq_refl (or_introl eq_refl) Hc px I).
    - apply (IHl (done ++ [c])); [rewrite <- app_assoc; exact E |]. rewrite app_length. cbn [length]. rewrite Nat.add_1_r. exact I. }
  exact (G _ [] eq_refl Hin).
Qed.
Lemma tree_total : exists text, emit_tree nm tail tree = Ok text.
Proof.
  unfold emit_tree. destruct (children_total "other") as (a & ->). destruct (children_total "rpc") as (b & ->).
  destruct (children_total "notification") as (c & ->). cbn [bind]. eauto.
Qed.
End Total.

(** ** Models *)
Lemma name_total : forall prefix u0 l m x, Known l -> model_init prefix l = Ok m -> In (prefix, u0) l -> NamedNode l x ->
  exists s, name_str m x = Ok s.
Proof.
  intros prefix u0 l m x HK HM H0 (p & u & n & ty & I & Hn & E & T). unfold name_str.
  rewrite E, (to_prefix prefix l m u0 p u n HK HM H0 I Hn), T. cbn [bind]. eauto.
Qed.
Lemma print_total : forall prefix u0 l m tree, Known l -> model_init prefix l = Ok m -> In (prefix, u0) l ->
  (forall p y, At tree p y -> NamedNode l y) -> exists text, print_model m tree = Ok text.
Proof.
  intros prefix u0 l m tree HK HM H0 H. apply tree_total. intros p y A.
  exact (name_total prefix u0 l m y HK HM H0 (H p y A)).
Qed.
Lemma Printable_At : forall l x p y, Forall (Printable l) (xkids x) -> At x p y -> Printable l y.
Proof.
  intros l x p y HF A. induction A as [x c I | x c p y I A IH].
  - rewrite Forall_forall in HF. auto.
  - apply IH. rewrite Forall_forall in HF. destruct (HF c I). assumption.
Qed.
Lemma Printable_Named : forall l x, Printable l x -> NamedNode l x.
Proof. intros l x H. destruct H as [x p u n ty I Hp Hn E T]. exists p, u, n, ty. destruct Hn as [Hn _]. auto. Qed.

(** ** Comparisons *)
Lemma At_child : forall x c p y, In c (xkids x) -> At c p y -> At x (xtag c :: p) y.
Proof. intros. apply at_down; auto. Qed.
Definition told (l1 l2 : list (string * string)) (y : xml) : Prop :=
  if eq_opt "added" (get_attr "diff" y) then NamedNode l2 y else NamedNode l1 y.
Lemma Named_like : forall l x y, xtag y = xtag x -> get_attr "type" y <> None -> NamedNode l x -> NamedNode l y.
Proof.
  intros l x y E T (p & u & n & ty & I & Hn & E2 & T2). destruct (get_attr "type" y) as [ty' |] eqn:T'; [| congruence].
  exists p, u, n, ty'. rewrite E. auto.
Qed.
Lemma report_named : forall l1 l2 p n2 n1 ks y,
  (forall q z, At n1 q z -> NamedNode l1 z) -> (forall q z, At n2 q z -> NamedNode l2 z) ->
  compare_nodes n2 n1 = Ok ks -> At (rep ks) p y -> told l1 l2 y.
Proof.
  intros l1 l2 p. remember (length p) as n eqn:En. assert (Le : length p <= n) by lia. clear En. revert p Le.
  induction n as [| n IH]; intros p Le n2 n1 ks y H1 H2 H A.
  { apply At_nonempty in A. destruct p; [congruence | cbn in Le; lia]. }
  assert (TY : forall l z, NamedNode l z -> get_attr "type" z <> None) by (intros l z (? & ? & ? & ? & _ & _ & _ & T); congruence).
  assert (NT : forall (m1 m2 : xml) t q, findall t m1 = [q] -> In q (xkids m1) /\ xtag q = t).
  { intros m1 _ t q F. assert (I : In q (findall t m1)) by (rewrite F; left; reflexivity).
    apply filter_In in I. destruct I as [I E]. apply String.eqb_eq in E. auto. }
  destruct (report_cases _ _ _ _ _ H A) as [(c & z & Ic & _ & Az & ->) | [(c & q & Ic & F & _ & _ & -> & ->) |
    [(c & q & kc & Ic & F & _ & _ & Hk & [(-> & ->) | (p' & -> & A')]) | (c & z & Ic & _ & Az & ->)]]]; unfold told.
  - rewrite pa_diff by discriminate. cbn. destruct (At_rep1_in _ _ _ _ Ic Az) as [Az' _].
    apply (Named_like l2 z); [apply pa_tag | rewrite pa_type; eauto | eauto].
  - unfold copy_node at 1. rewrite pa_diff by discriminate. cbn [eq_opt String.eqb Ascii.eqb Bool.eqb].
    destruct (NT _ n2 _ _ F) as [Iq Eq]. apply (Named_like l1 q); [rewrite copy_node_tag; auto | | apply (H1 [xtag q]); apply at_kid; exact Iq].
    rewrite copy_node_type. apply (TY l2). apply (H2 [xtag c]). apply at_kid. exact Ic.
  - rewrite set_kids_attr. unfold copy_node at 1. rewrite pa_nodiff. cbn [eq_opt].
    destruct (NT _ n2 _ _ F) as [Iq Eq]. apply (Named_like l1 q); [rewrite set_kids_tag, copy_node_tag; auto | | apply (H1 [xtag q]); apply at_kid; exact Iq].
    rewrite set_kids_attr, copy_node_type. apply (TY l2). apply (H2 [xtag c]). apply at_kid. exact Ic.
  - destruct (NT _ n2 _ _ F) as [Iq Eq].
    apply (IH p') with (n2 := c) (n1 := q) (ks := kc); auto.
    + cbn in Le. lia.
    + intros r z B. apply (H1 (xtag q :: r)). apply at_down; auto.
    + intros r z B. apply (H2 (xtag c :: r)). apply at_down; auto.
  - rewrite pa_diff by discriminate. cbn. destruct (At_rep1_in _ _ _ _ Ic Az) as [Az' _].
    apply (Named_like l1 z); [apply pa_tag | rewrite pa_type; eauto | eauto].
Qed.

Lemma told_like : forall l1 l2 x y, xtag y = xtag x -> (forall a, get_attr a y = get_attr a x) -> told l1 l2 x -> told l1 l2 y.
Proof.
  intros l1 l2 x y E EA. unfold told. rewrite EA. destruct (eq_opt "added" (get_attr "diff" x)); intros (p & u & n & ty & H); exists p, u, n, ty;
    rewrite E, EA; exact H.
Qed.
Lemma trim_attr : forall msg x a, get_attr a (trim msg x) = get_attr a x.
Proof. intros msg x a. rewrite trim_eq. apply set_kids_attr. Qed.
Lemma trim_told : forall msg l1 l2 x, (forall p y, At x p y -> told l1 l2 y) -> forall p y, At (trim msg x) p y -> told l1 l2 y.
Proof.
  intros msg l1 l2. induction x as [t tx a ks IH] using xml_ind'; intros H p y A.
  apply At_inv in A. destruct A as (c' & I & A). rewrite trim_eq, set_kids_kids in I. apply trim_In in I.
  destruct I as (c & Ic & _ & X). cbn [xkids] in Ic.
  assert (Hc : told l1 l2 c) by (apply (H [xtag c]); apply at_kid; exact Ic).
  assert (Hd : forall q z, At c q z -> told l1 l2 z) by (intros q z B; apply (H (xtag c :: q)); apply at_down; auto).
  destruct X as [(_ & _ & ->) | (_ & ->)].
  - destruct A as [[_ ->] | (p' & _ & A)].
    + apply (told_like l1 l2 c); [apply trim_tag | apply trim_attr | exact Hc].
    + rewrite Forall_forall in IH. exact (IH c Ic Hd p' y A).
  - destruct A as [[_ ->] | (p' & _ & A)]; [exact Hc | exact (Hd p' y A)].
Qed.

Lemma diff_total : forall prefix1 u1 l1 m1 prefix2 u2 l2 m2 tree,
  Known l1 -> model_init prefix1 l1 = Ok m1 -> In (prefix1, u1) l1 ->
  Known l2 -> model_init prefix2 l2 = Ok m2 -> In (prefix2, u2) l2 ->
  (forall p y, At tree p y -> told l1 l2 y) -> exists text, print_diff m1 m2 tree = Ok text.
Proof.
  intros prefix1 u1 l1 m1 prefix2 u2 l2 m2 tree K1 M1 I1 K2 M2 I2 H. apply tree_total. intros p y A.
  specialize (H p y A). unfold told in H. unfold diff_name. destruct (eq_opt "added" (get_attr "diff" y)).
  - exact (name_total _ _ _ _ _ K2 M2 I2 H).
  - exact (name_total _ _ _ _ _ K1 M1 I1 H).
Qed.
(** The comparison of two trees and its three parts can be printed. *)
Theorem compare_prints : forall prefix1 u1 l1 m1 prefix2 u2 l2 m2 t1 t2 d,
  Known l1 -> model_init prefix1 l1 = Ok m1 -> In (prefix1, u1) l1 ->
  Known l2 -> model_init prefix2 l2 = Ok m2 -> In (prefix2, u2) l2 ->
  (forall p y, At t1 p y -> NamedNode l1 y) -> (forall p y, At t2 p y -> NamedNode l2 y) ->
  model_diff false t1 t2 = Ok d ->
  (exists text, print_diff m1 m2 d = Ok text) /\
  forall msg d', part msg d = Some d' -> exists text, print_diff m1 m2 d' = Ok text.
Proof.
  intros prefix1 u1 l1 m1 prefix2 u2 l2 m2 t1 t2 d K1 M1 I1 K2 M2 I2 H1 H2 H.
  destruct (diff_rep _ _ _ H) as (ks & Hk & Ed).
  assert (HT : forall p y, At d p y -> told l1 l2 y).
  { intros p y A. apply (report_named l1 l2 p t2 t1 ks y H1 H2 Hk). apply (At_rep ks d p y Ed). exact A. }
  split; [apply (diff_total prefix1 u1 l1 m1 prefix2 u2 l2 m2); auto |].
  intros msg d' E. unfold part in E. destruct (nonempty (trim msg d)); [| discriminate]. injection E as <-.
  apply (diff_total prefix1 u1 l1 m1 prefix2 u2 l2 m2); auto. apply trim_told. exact HT.
Qed.

(** ** Compiled modules *)
Lemma depict_named : forall t ns l m x, Named ns t -> (forall md u, assoc String.eqb md ns = Some u -> exists p, In (p, u) l) ->
  depict ns m t = Ok x -> NamedNode l x /\ forall p y, At x p y -> NamedNode l y.
Proof.
  induction t as [i ks IH] using ystmt_all; intros ns l m x HN HL E.
  inversion HN as [? ? k u Hk Hu Hw Hn Hks]; subst. rewrite depict_eq, Hu, Hk in E. apply bind_ok in E. destruct E as (xs & Hx & E).
  assert (Ex : x = Elem ("{" ++ u ++ "}" ++ y_arg i)%string None (set_all (plain_attrs k m i ++ ext_attrs ns i ++ feature_attrs i)) xs) by congruence.
  clear E. split.
  - destruct (HL _ _ Hu) as (p & Ip). exists p, u, (y_arg i), k. split; auto. split; auto. rewrite Ex. split; [reflexivity |].
    rewrite node_attr; [apply at_type | discriminate | discriminate].
  - intros p y A. apply At_inv in A. destruct A as (c & Ic & A). rewrite Ex in Ic. cbn [xkids] in Ic.
    apply go_ok in Hx. rewrite Forall_forall in IH. rewrite Forall_forall in Hks.
    assert (G : exists s, In s ks /\ depict ns (child_mode m s) s = Ok c).
    { clear - Hx Ic. induction Hx as [| s c' ks xs H Hx IH]; [destruct Ic |]. destruct Ic as [-> | Ic]; [exists s; split; [left |]; auto |].
      destruct (IH Ic) as (s' & Is & Es). exists s'. split; [right |]; auto. }
    destruct G as (s & Is & Es). destruct (IH s Is ns l _ c (Hks s Is) HL Es) as [G1 G2].
    destruct A as [[_ ->] | (p' & _ & A)]; [exact G1 | exact (G2 p' y A)].
Qed.
Theorem compiled_prints : forall ns kids xs l prefix u0 m name,
  Forall (Named ns) kids -> compile_nodes ns kids = Ok xs ->
  (forall md u, assoc String.eqb md ns = Some u -> exists p, In (p, u) l) ->
  Known l -> model_init prefix l = Ok m -> In (prefix, u0) l ->
  exists text, print_model m (Elem name None [] xs) = Ok text.
Proof.
  intros ns kids xs l prefix u0 m name HN HC HL HK HM H0. apply (print_total prefix u0 l m _ HK HM H0).
  intros p y A. apply At_inv in A. destruct A as (c & Ic & A). cbn [xkids] in Ic.
  assert (G : exists s md, In s kids /\ depict ns md s = Ok c).
  { unfold compile_nodes in HC. apply bind_ok in HC. destruct HC as (a & Ha & HC). apply bind_ok in HC. destruct HC as (b & Hb & HC).
    apply bind_ok in HC. destruct HC as (c' & Hc & HC). injection HC as <-.
    assert (M : forall md ss zs, (forall s, In s ss -> In s kids) -> mapM (depict ns md) ss = Ok zs -> In c zs -> exists s md, In s kids /\ depict ns md s = Ok c).
    { intros md ss zs Hs Hm I. apply mapM_ok in Hm. induction Hm as [| s z ss zs H Hm IHm]; [destruct I |].
      destruct I as [-> | I]; [exists s, md; split; auto; apply Hs; left; reflexivity |].
      apply IHm; auto. intros s' Is. apply Hs. right. exact Is. }
    apply in_app_or in Ic. destruct Ic as [Ic | Ic]; [| apply in_app_or in Ic; destruct Ic as [Ic | Ic]];
      [apply (M _ _ _ ltac:(intros s Is; apply filter_In in Is; apply Is) Ha Ic) | apply (M _ _ _ ltac:(intros s Is; apply filter_In in Is; apply Is) Hb Ic)
      | apply (M _ _ _ ltac:(intros s Is; apply filter_In in Is; apply Is) Hc Ic)]. }
  destruct G as (s & md & Is & Es). rewrite Forall_forall in HN.
  destruct (depict_named s ns l md c (HN s Is) HL Es) as [G1 G2].
  destruct A as [[_ ->] | (p' & _ & A)]; [exact G1 | exact (G2 p' y A)].
Qed.

(** ** The labels of a comparison *)
Lemma labelled_told : forall m1 m2 t x sibs, In x sibs -> Labelled (fun x n => diff_name m1 m2 x = Ok n) diff_tail sibs x t ->
  ToldOf (fun x n => name_str m1 x = Ok n) (fun x n => name_str m2 x = Ok n) x t.
Proof.
  intros m1 m2. induction t as [s ks IH] using ltree_all. intros x sibs I H.
  inversion H as [? ? n ? ? Hn Ht Hk]; subst. assert (Hn0 := Hn). unfold diff_name in Hn. apply (told_of _ _ x n).
  - intro E. rewrite (proj2 (eq_opt_true "added" _) E) in Hn. exact Hn.
  - intro E. destruct (eq_opt "added" (get_attr "diff" x)) eqn:Q; auto. apply eq_opt_true in Q. congruence.
  - clear Hn. unfold diff_tail in Ht. destruct (get_attr "diff" x) as [d |] eqn:ED; [| exact Ht].
    destruct Ht as (names & w & sp & F & (_ & W & _) & B & L & E). exists sp. split; auto. split; [| exact E].
    assert (Ine : In n names).
    { clear - F I Hn0. induction F as [| y k ys ns Hy F IHF]; [destruct I |]. destruct I as [-> | I]; [left |right; auto].
      congruence. }
    specialize (W n Ine). lia.
  - rewrite Forall_forall in IH. assert (G : forall l, (forall c, In c l -> In c (xkids x)) -> forall ts, (forall t, In t ts -> In t ks) ->
      Forall2 (Labelled (fun x n => diff_name m1 m2 x = Ok n) diff_tail (xkids x)) l ts ->
      Forall2 (ToldOf (fun x n => name_str m1 x = Ok n) (fun x n => name_str m2 x = Ok n)) l ts).
    { intros l Hl ts Hts F. induction F as [| c t l ts Hc F IHF]; constructor.
      - apply (IH t (Hts t (or_introl eq_refl)) c (xkids x)); auto. apply Hl. left. reflexivity.
      - apply IHF; intros; [apply Hl | apply Hts]; right; assumption. }
    apply (G (xkids x)); auto.
Qed.
Theorem diff_page : forall m1 m2 tree text, (forall x, In x (xkids tree) -> get_attr "type" x <> Some "other") ->
  print_diff m1 m2 tree = Ok text ->
  exists a b c, let T := ToldOf (fun x n => name_str m1 x = Ok n) (fun x n => name_str m2 x = Ok n) in
    Forall2 T (filter in_data (xkids tree)) a /\ Forall2 T (filter in_rpcs (xkids tree)) b /\
    Forall2 T (filter in_notifications (xkids tree)) c /\
    text = String.concat (String newline "") (page (xtag tree) a b c).
Proof.
  intros m1 m2 tree text HO H. destruct (emit_page _ _ _ _ HO H) as (a & b & c & Ha & Hb & Hc & E).
  assert (G : forall f l, Forall2 (Labelled (fun x n => diff_name m1 m2 x = Ok n) diff_tail (xkids tree)) (filter f (xkids tree)) l ->
    Forall2 (ToldOf (fun x n => name_str m1 x = Ok n) (fun x n => name_str m2 x = Ok n)) (filter f (xkids tree)) l).
  { intros f l F. assert (S : forall x, In x (filter f (xkids tree)) -> In x (xkids tree)) by (intros x I; apply filter_In in I; apply I).
    induction F as [| x t ks ts Hx F IHF]; constructor.
    - apply (labelled_told m1 m2 t x (xkids tree)); auto. apply S. left. reflexivity.
    - apply IHF. intros y I. apply S. right. exact I. }
  exists a, b, c. cbv zeta. auto.
Qed.
