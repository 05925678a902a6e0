(** Removal of defaults. *)
From Coq Require Import String Ascii List Bool Arith ZArith Lia Permutation.
From Verif Require Import Base BaseP XmlM CalcM CalcP NetconfM ConfigM ListP DataSpec DataP DeltaSpec DeltaR NameP AddP AddStepP
  PlainP SubP RoundP TrimSpec.
Import ListNotations.
Open Scope string_scope.
Open Scope list_scope.

(** ** Equations *)
Definition trim_kid (s : snode) (all : list xml) (c : xml) : res (list xml) :=
  let! cs := schema_child s (xtag c) in
  let! c' := trim cs c in
  Ok (if trim_drops cs all c' then [] else [c']).

Lemma trim_eq : forall s x, trim s x =
  let! kss := mapM (trim_kid s (xkids x)) (xkids x) in Ok (set_kids (concat kss) x).
Proof.
  intros s [t tx a ks]. cbn [trim xkids]. 
  assert (G : forall all l, (fix go (l : list xml) : res (list xml) :=
       match l with
       | [] => Ok []
       | c :: r =>
           let! cs := schema_child s (xtag c) in
           let! c' := trim cs c in
           let! r' := go r in
           Ok (if trim_drops cs all c' then r' else c' :: r')
       end) l = let! kss := mapM (trim_kid s all) l in Ok (concat kss)).
  { intros all l. induction l as [| c r IH]; auto. cbn [mapM]. unfold trim_kid at 1.
    destruct (schema_child s (xtag c)) as [cs |]; auto. cbn [bind]. destruct (trim cs c) as [c' |]; auto. cbn [bind].
    rewrite IH. destruct (mapM (trim_kid s all) r) as [kss |]; auto. cbn [bind].
    destruct (trim_drops cs all c'); reflexivity. }
  rewrite G. destruct (mapM (trim_kid s ks) ks); reflexivity.
Qed.

Lemma trim_inv : forall s x y, trim s x = Ok y -> exists kss,
  Forall2 (fun c l => trim_kid s (xkids x) c = Ok l) (xkids x) kss /\ y = set_kids (concat kss) x.
Proof.
  intros s x y H. rewrite trim_eq in H. apply bind_ok in H. destruct H as (kss & H1 & H2).
  apply mapM_ok in H1. inversion H2. eauto.
Qed.

Lemma trim_intro : forall s x kss, Forall2 (fun c l => trim_kid s (xkids x) c = Ok l) (xkids x) kss ->
  trim s x = Ok (set_kids (concat kss) x).
Proof. intros s x kss H. rewrite trim_eq. apply mapM_ok in H. rewrite H. reflexivity. Qed.

Lemma set_kids_parts : forall l x, xtag (set_kids l x) = xtag x /\ xtext (set_kids l x) = xtext x /\
  xattrs (set_kids l x) = xattrs x /\ xkids (set_kids l x) = l.
Proof. intros l [t tx a ks]. auto. Qed.

Lemma trim_parts : forall s x y, trim s x = Ok y -> xtag y = xtag x /\ xtext y = xtext x /\ xattrs y = xattrs x.
Proof.
  intros s x y H. apply trim_inv in H. destruct H as (kss & _ & E). subst y.
  destruct (set_kids_parts (concat kss) x) as (H1 & H2 & H3 & _). auto.
Qed.

Lemma trim_kid_inv : forall s all c l, trim_kid s all c = Ok l -> exists cs c', schema_child s (xtag c) = Ok cs /\
  trim cs c = Ok c' /\ l = if trim_drops cs all c' then [] else [c'].
Proof.
  intros s all c l H. unfold trim_kid in H. apply bind_ok in H. destruct H as (cs & H1 & H).
  apply bind_ok in H. destruct H as (c' & H2 & H). inversion H. eauto.
Qed.

(** ** Kept children *)
Lemma Forall2_concat_In : forall {A B} (R : A -> list B -> Prop) l ls y, Forall2 R l ls -> In y (concat ls) ->
  exists x ys, In x l /\ R x ys /\ In y ys.
Proof.
  intros A B R l ls y H. induction H as [| x ys l ls H HF IH]; simpl; [intros [] |].
  intro Hin. apply in_app_or in Hin. destruct Hin as [Hin | Hin].
  - exists x, ys. auto.
  - destruct (IH Hin) as (x' & ys' & H1 & H2). exists x', ys'. tauto.
Qed.

Lemma Forall2_concat_In' : forall {A B} (R : A -> list B -> Prop) l ls x, Forall2 R l ls -> In x l ->
  exists ys, R x ys /\ forall y, In y ys -> In y (concat ls).
Proof.
  intros A B R l ls x H. induction H as [| x' ys l ls H HF IH]; simpl; [intros [] |].
  intros [E | Hin].
  - subst. exists ys. split; auto. intros. apply in_or_app. auto.
  - destruct (IH Hin) as (ys' & H1 & H2). exists ys'. split; auto. intros. apply in_or_app. auto.
Qed.

Lemma kids_tagged_app : forall t l1 l2, kids_tagged t (l1 ++ l2) = kids_tagged t l1 ++ kids_tagged t l2.
Proof. intros. unfold kids_tagged. apply filter_app. Qed.

(** A leaf-list is kept or removed as a whole. *)
Lemma trim_leaf_list : forall s all t cs l kss, Forall2 (fun c l => trim_kid s all c = Ok l) l kss ->
  schema_child s t = Ok cs -> sty cs = TLeafList -> ll_is_default cs (map xtext (kids_tagged t all)) = false ->
  map xtext (kids_tagged t (concat kss)) = map xtext (kids_tagged t l).
Proof.
  intros s all t cs l kss H Hs Ht Hd. induction H as [| c ys l kss H HF IH]; auto. cbn [concat].
  rewrite kids_tagged_app, map_app, IH. clear IH.
  destruct (trim_kid_inv s all c ys H) as (cs' & c' & H1 & H2 & H3). destruct (trim_parts _ _ _ H2) as (E1 & E2 & _).
  unfold kids_tagged at 3. cbn [filter]. destruct (String.eqb (xtag c) t) eqn:E.
  - apply String.eqb_eq in E. rewrite E, Hs in H1. inversion H1; subst cs'.
    unfold trim_drops in H3. rewrite Ht, E1, E, Hd in H3. subst ys. unfold kids_tagged at 1. cbn [filter].
    rewrite E1, E, String.eqb_refl. cbn [map app]. rewrite E2. reflexivity.
  - destruct (trim_drops cs' all c'); subst ys; [reflexivity |]. unfold kids_tagged at 1. cbn [filter].
    rewrite E1, E. reflexivity.
Qed.

(** ** Idempotence *)
Definition trimmed_kid (s : snode) (all : list xml) (c : xml) : Prop :=
  exists cs, schema_child s (xtag c) = Ok cs /\ trim cs c = Ok c /\ trim_drops cs all c = false.

Lemma trimmed_all : forall s all l, (forall c, In c l -> trimmed_kid s all c) ->
  Forall2 (fun c ys => trim_kid s all c = Ok ys) l (map (fun c => [c]) l).
Proof.
  intros s all l. induction l as [| c r IH]; intro H; simpl; constructor.
  - destruct (H c (or_introl eq_refl)) as (cs & H1 & H2 & H3). unfold trim_kid. rewrite H1. cbn [bind]. rewrite H2. cbn [bind].
    rewrite H3. reflexivity.
  - apply IH. intros. apply H. right. auto.
Qed.

Lemma trimmed_fix : forall s x, (forall c, In c (xkids x) -> trimmed_kid s (xkids x) c) -> trim s x = Ok x.
Proof.
  intros s x H. assert (F := trimmed_all s (xkids x) (xkids x) H). apply trim_intro in F. rewrite F. f_equal.
  assert (E : concat (map (fun c : xml => [c]) (xkids x)) = xkids x).
  { clear. induction (xkids x); simpl; congruence. }
  rewrite E. destruct x. reflexivity.
Qed.

Lemma trim_length : forall s all l kss, Forall2 (fun c ys => trim_kid s all c = Ok ys) l kss -> length (concat kss) <= length l.
Proof.
  intros s all l kss HF. induction HF as [| c ys l kss H HF IH]; simpl; auto. rewrite app_length.
  destruct (trim_kid_inv s all c ys H) as (cs & c' & _ & _ & E). destruct (trim_drops cs all c'); subst ys; simpl; lia.
Qed.

Lemma all_trimmed : forall s all l kss, Forall2 (fun c ys => trim_kid s all c = Ok ys) l kss -> l = concat kss ->
  forall c, In c l -> trimmed_kid s all c.
Proof.
  intros s all l kss HF. induction HF as [| c0 ys l kss H HF IH]; intros EK c Hin; [destruct Hin |].
  destruct (trim_kid_inv s all c0 ys H) as (cs & c' & T1 & T2 & T3).
  destruct (trim_drops cs all c') eqn:ED; subst ys.
  - exfalso. simpl in EK. apply (f_equal (@length xml)) in EK. assert (L := trim_length s all l kss HF). simpl in EK. lia.
  - simpl in EK. inversion EK as [[E1 E2]]. subst c'. destruct Hin as [Hin | Hin].
    + subst c. exists cs. auto.
    + apply IH; auto.
Qed.

Lemma fix_trimmed : forall s x, trim s x = Ok x -> forall c, In c (xkids x) -> trimmed_kid s (xkids x) c.
Proof.
  intros s x H. apply trim_inv in H. destruct H as (kss & HF & E).
  assert (EK : xkids x = concat kss).
  { rewrite E at 1. destruct (set_kids_parts (concat kss) x) as (_ & _ & _ & X). exact X. }
  apply (all_trimmed s (xkids x) (xkids x) kss); auto.
Qed.

Theorem trim_idem : forall x s y, trim s x = Ok y -> trim s y = Ok y.
Proof.
  intro x. induction x as [t tx a ks IH] using xml_ind'. intros s y H.
  set (x := Elem t tx a ks) in *. change ks with (xkids x) in IH. rewrite Forall_forall in IH.
  apply trim_inv in H. destruct H as (kss & HF & E). apply trimmed_fix.
  assert (EK : xkids y = concat kss) by (rewrite E; apply set_kids_parts). rewrite EK.
  intros c Hc. destruct (Forall2_concat_In _ _ _ _ HF Hc) as (c0 & ys & H1 & H2 & H3).
  destruct (trim_kid_inv _ _ _ _ H2) as (cs & c' & T1 & T2 & T3).
  destruct (trim_drops cs (xkids x) c') eqn:ED; subst ys; [destruct H3 |]. destruct H3 as [H3 | []]. subst c'.
  destruct (trim_parts _ _ _ T2) as (P1 & P2 & _).
  exists cs. split; [congruence |]. split; [eapply IH; eauto |].
  unfold trim_drops in *. destruct (sty cs) eqn:Et; auto.
  rewrite P1 in *. rewrite (trim_leaf_list s (xkids x) (xtag c0) cs (xkids x) kss); auto.
Qed.

(** ** Total on valid trees *)
Lemma trim_total : forall x s, valid s x = true -> exists y, trim s x = Ok y.
Proof.
  intro x. induction x as [t tx a ks IH] using xml_ind'. intros s V. set (x := Elem t tx a ks) in *.
  destruct (valid_inv s x V) as (_ & _ & Hk). change ks with (xkids x) in IH.
  assert (F : exists kss, Forall2 (fun c l => trim_kid s (xkids x) c = Ok l) (xkids x) kss).
  { clear V. revert IH Hk. generalize (xkids x) at 1 2 4 as l. intros l IH Hk.
    induction IH as [| c r Hc _ IHr]; [exists []; constructor |].
    destruct IHr as (kss & HF); [intros; apply Hk; right; auto |].
    destruct (Hk c (or_introl eq_refl)) as (cs & Hs & Vc). destruct (Hc cs Vc) as (c' & T).
    eexists. constructor; [| exact HF]. unfold trim_kid. rewrite Hs. cbn [bind]. rewrite T. cbn [bind]. reflexivity. }
  destruct F as (kss & F). apply trim_intro in F. eauto.
Qed.

(** ** Values of a leaf-list *)
Definition key_text (u : uid) : option string := match snd u with KText v => v | _ => None end.

Lemma leaf_list_values : forall s l es t cs, Index s l es -> schema_child s t = Ok cs -> sty cs = TLeafList ->
  map xtext (kids_tagged t l) = map key_text (seqt t es).
Proof.
  intros s l es t cs (E & HU & _) Hs Ht. subst l. unfold kids_tagged, seqt, uids.
  induction es as [| [u c] r IH]; auto. inversion HU as [| ? ? U HU']; subst. simpl in U. cbn [map filter fst snd].
  assert (T := uid_tag s c u U). rewrite T. destruct (String.eqb (xtag c) t) eqn:E; [| apply IH; auto].
  cbn [map]. rewrite (IH HU'). f_equal. apply String.eqb_eq in E. unfold uid_of in U. rewrite E, Hs in U. cbn [bind] in U.
  rewrite Ht in U. inversion U. subst. unfold key_text. simpl. rewrite parse_text_id by congruence. reflexivity.
Qed.

Lemma set_eqb_iff : forall (a b : list (option string)), set_eqb ostr_eqb a b = true <-> (forall v, In v a <-> In v b).
Proof.
  intros a b. unfold set_eqb. rewrite andb_true_iff, !forallb_forall. split.
  - intros [H1 H2] v. split; intro H; [apply H1 in H | apply H2 in H]; apply (mem_In ostr_eqb ostr_eqb_ok) in H; auto.
  - intro H. split; intros v Hv; apply (mem_In ostr_eqb ostr_eqb_ok); apply H; auto.
Qed.

Lemma ll_is_default_congr : forall cs a b, (s_user (si cs) = true -> a = b) -> (forall v, In v a <-> In v b) ->
  ll_is_default cs a = ll_is_default cs b.
Proof.
  intros cs a b H1 H2. unfold ll_is_default. destruct (s_default (si cs)) as [d |]; auto.
  destruct (s_user (si cs)); [rewrite H1; auto |].
  destruct (set_eqb ostr_eqb b _) eqn:E.
  - apply set_eqb_iff. intro v. rewrite H2. apply (proj1 (set_eqb_iff _ _) E).
  - destruct (set_eqb ostr_eqb a _) eqn:E2; auto. rewrite <- E. symmetry. apply set_eqb_iff. intro v. rewrite <- H2.
    apply (proj1 (set_eqb_iff _ _) E2).
Qed.

Lemma Same_no_kids : forall s x y, valid s x = true -> valid s y = true -> Same s x y -> no_kids x = no_kids y.
Proof.
  intros s x y Vx Vy S. destruct (valid_inv s x Vx) as (_ & (lx & Ix) & _). destruct (valid_inv s y Vy) as (_ & (ly & Iy) & _).
  assert (G : forall x y lx ly, Same s x y -> Index s (xkids x) lx -> Index s (xkids y) ly -> xkids y = [] -> xkids x = []).
  { clear. intros x y lx ly S Ix Iy E. destruct (xkids x) as [| c r] eqn:Ex; auto. exfalso. rewrite <- Ex in Ix.
    destruct (Index_In s _ lx c Ix) as (u & Hu); [rewrite Ex; left; auto |]. apply (Index_assoc s _ lx u c Ix) in Hu.
    destruct (Same_assoc s x y lx ly u c S Ix Iy Hu) as (c' & cs & H & _). rewrite E in Iy. apply Index_nil_inv in Iy. subst ly.
    discriminate. }
  unfold no_kids. assert (G1 := G x y lx ly S Ix Iy). assert (G2 := G y x ly lx (Same_sym _ _ _ S) Iy Ix).
  destruct (xkids x), (xkids y); auto; exfalso; [specialize (G2 eq_refl) | specialize (G1 eq_refl)]; discriminate.
Qed.

Lemma Same_seqt_In : forall s x y lx ly t u, Same s x y -> Index s (xkids x) lx -> Index s (xkids y) ly ->
  In u (seqt t lx) -> In u (seqt t ly).
Proof.
  intros s x y lx ly t u S Ix Iy H. apply seqt_In in H. destruct H as [H1 H2]. apply seqt_In. split; auto.
  apply (assoc_Some_In uid_eqb uid_eqb_ok) in H1. destruct H1 as (c & H1).
  destruct (Same_assoc s x y lx ly u c S Ix Iy H1) as (c' & cs & H & _).
  apply (assoc_Some_In uid_eqb uid_eqb_ok). eauto.
Qed.

(** Whether a node is trimmed depends on its data only. *)
Theorem trimmed_same : forall x s y, valid s x = true -> valid s y = true -> Same s x y ->
  trim s y = Ok y -> trim s x = Ok x.
Proof.
  intro x. induction x as [t tx a ks IH] using xml_ind'. intros s y Vx Vy S T.
  set (x := Elem t tx a ks) in *. change ks with (xkids x) in IH. rewrite Forall_forall in IH.
  destruct (valid_inv s x Vx) as (_ & (lx & Ix) & Kx). destruct (valid_inv s y Vy) as (_ & (ly & Iy) & Ky).
  assert (FT := fix_trimmed s y T). apply trimmed_fix. intros c Hc.
  destruct (Kx c Hc) as (cs & Hs & Vc). destruct (Index_In s _ lx c Ix Hc) as (u & Hu).
  assert (Hu' := Hu). apply (Index_assoc s _ lx u c Ix) in Hu'.
  destruct (Same_assoc s x y lx ly u c S Ix Iy Hu') as (c' & cs' & H1 & H2 & H3).
  assert (cs' = cs) by congruence. subst cs'. apply (Index_assoc s _ ly u c' Iy) in H1.
  assert (Hc' := Index_kid s _ ly u c' Iy H1). assert (TT : xtag c = xtag c') by (apply (Same_tag cs); auto).
  destruct (Ky c' Hc') as (cs2 & Hs2 & Vc'). assert (cs2 = cs) by congruence. subst cs2.
  destruct (FT c' Hc') as (cs3 & Hs3 & T3 & D3). assert (cs3 = cs) by congruence. subst cs3.
  exists cs. split; auto. split; [apply (IH c Hc cs c'); auto |].
  rewrite <- D3. unfold trim_drops. rewrite TT, (Same_no_kids cs c c') by auto.
  destruct (sty cs) eqn:Et; auto.
  - rewrite (Same_text cs c c'); auto. rewrite Et. auto.
  - rewrite (leaf_list_values s (xkids x) lx (xtag c') cs), (leaf_list_values s (xkids y) ly (xtag c') cs) by (auto; congruence).
    apply ll_is_default_congr.
    + intro U. f_equal. apply (Same_seqt s x y lx ly (xtag c') cs); auto; try congruence; try (apply is_user_seq_iff; auto).
    + intro v. rewrite !in_map_iff. split; intros (w & E & Hin); exists w; split; auto;
        [apply (Same_seqt_In s x y lx ly) | apply (Same_seqt_In s y x ly lx)]; auto using Same_sym.
Qed.

(** ** The removed nodes *)
Lemma split_Joined : forall d, Joined (str_split "," d) d.
Proof.
  intro d. induction d as [| c r IH]; simpl.
  - apply jo_one. intros [].
  - destruct (Ascii.eqb c ",") eqn:E.
    + apply Ascii.eqb_eq in E. subst c. apply (jo_more "" (str_split "," r) r); auto.
    + apply Ascii.eqb_neq in E. inversion IH as [w Hw E1 E2 | w ws r' Hw HJ E1 E2].
      * apply jo_one. simpl. intros [X | X]; [congruence | apply Hw; congruence].
      * apply (jo_more (String c w) ws r'); auto. simpl. intros [X | X]; [congruence | contradiction].
Qed.

Lemma Joined_fun : forall ws d, Joined ws d -> ws = str_split "," d.
Proof.
  intros ws d H. induction H as [w Hw | w ws r Hw HJ IH].
  - induction w as [| c r IH]; auto. simpl in *. destruct (Ascii.eqb c ",") eqn:E.
    + apply Ascii.eqb_eq in E. exfalso. apply Hw. auto.
    + rewrite <- IH by tauto. reflexivity.
  - subst ws. induction w as [| c w IH]; auto. simpl in *. destruct (Ascii.eqb c ",") eqn:E.
    + apply Ascii.eqb_eq in E. exfalso. apply Hw. auto.
    + rewrite <- IH by tauto. reflexivity.
Qed.

Lemma concat_nil_iff : forall {A} (ls : list (list A)), concat ls = [] <-> Forall (fun l => l = []) ls.
Proof.
  intros A ls. induction ls as [| l r IH]; simpl; split; intro H; auto.
  - apply app_eq_nil in H. destruct H. constructor; tauto.
  - inversion H; subst. simpl. tauto.
Qed.

Lemma Forall2_right : forall {A B} (R : A -> B -> Prop) (P : B -> Prop) l ls, Forall2 R l ls ->
  (forall x y, In x l -> R x y -> P y) -> Forall P ls.
Proof.
  intros A B R P l ls H. induction H as [| x y l ls H HF IH]; intro G; constructor.
  - apply (G x y); auto. left. auto.
  - apply IH. intros. eapply G; eauto. right. auto.
Qed.

Theorem drops_iff : forall c s x cs c', schema_child s (xtag c) = Ok cs -> trim cs c = Ok c' ->
  (trim_drops cs (xkids x) c' = true <-> OnlyDefault cs x c).
Proof.
  intro c. induction c as [t tx a ks IH] using xml_ind'. intros s x cs c' Hs T.
  set (c := Elem t tx a ks) in *. change ks with (xkids c) in IH. rewrite Forall_forall in IH.
  destruct (trim_parts _ _ _ T) as (P1 & P2 & _).
  assert (NK : no_kids c' = true <-> (forall k kc, In k (xkids c) -> Defines cs (xtag k) kc -> OnlyDefault kc c k)).
  { apply trim_inv in T. destruct T as (kss & HF & E).
    assert (EK : xkids c' = concat kss) by (rewrite E; apply set_kids_parts).
    unfold no_kids. rewrite EK. transitivity (concat kss = []).
    { destruct (concat kss); split; intro; auto; discriminate. }
    rewrite concat_nil_iff. split.
    - intros HN k kc Hk HD. destruct (Forall2_concat_In' _ _ _ k HF Hk) as (ys & R & _).
      destruct (trim_kid_inv _ _ _ _ R) as (kc' & k' & R1 & R2 & R3).
      assert (kc = kc') by (eapply Defines_schema_child; eauto). subst kc'.
      apply (IH k Hk cs c kc k' R1 R2). destruct (trim_drops kc (xkids c) k') eqn:ED; auto. exfalso.
      assert (X : forall l kss, Forall2 (fun c0 l0 => trim_kid cs (xkids c) c0 = Ok l0) l kss -> Forall (fun l0 => l0 = []) kss -> In k l -> ys = []).
      { clear - R. intros l kss HF. induction HF as [| z zs l kss H HF IH]; intros HN Hin; [destruct Hin |].
        inversion HN; subst. destruct Hin as [Hin | Hin]; auto. subst z. congruence. }
      specialize (X _ _ HF HN Hk). subst ys. discriminate.
    - intro H. apply (Forall2_right _ _ _ _ HF). intros k ys Hk R.
      destruct (trim_kid_inv _ _ _ _ R) as (kc & k' & R1 & R2 & R3). subst ys.
      assert (X : trim_drops kc (xkids c) k' = true).
      { apply (IH k Hk cs c kc k' R1 R2). apply H; auto. apply schema_child_Defines. auto. }
      rewrite X. reflexivity. }
  unfold trim_drops. destruct (sty cs) eqn:Et.
  - split.
    + destruct (s_default (si cs)) as [d |] eqn:Ed; [| discriminate]. intro E. apply ostr_eqb_ok in E.
      apply (od_leaf cs x c d); auto. congruence.
    + intro O. inversion O; subst; try congruence. rewrite H0. rewrite P2, H1. apply ostr_eqb_ok. reflexivity.
  - unfold ll_is_default. rewrite P1. split.
    + destruct (s_default (si cs)) as [d |] eqn:Ed; [| discriminate]. intro E.
      apply (od_leaf_list cs x c d (str_split "," d) (map xtext (kids_tagged (xtag c) (xkids x)))); auto.
      * apply split_Joined.
      * eexists. split; reflexivity.
      * destruct (s_user (si cs)); [apply (list_eqb_ok ostr_eqb ostr_eqb_ok); auto | apply set_eqb_iff; auto].
    + intro O. inversion O as [| ? ? ? d ds vs O1 O2 O3 O4 O5 | |]; subst; try congruence. rewrite O2.
      apply Joined_fun in O3. subst ds. destruct O4 as (l & E1 & E2). unfold kids_tagged. rewrite <- E2, <- E1.
      destruct (s_user (si cs)); [apply (list_eqb_ok ostr_eqb ostr_eqb_ok); auto | apply set_eqb_iff; auto].
  - rewrite andb_true_iff, NK, negb_true_iff. split.
    + intros [H1 H2]. apply od_container; auto.
    + intro O. inversion O; subst; try congruence. auto.
  - rewrite NK. split.
    + intro H1. apply od_list; auto.
    + intro O. inversion O; subst; try congruence. auto.
  - split; [discriminate |]. intro O; inversion O; congruence.
  - split; [discriminate |]. intro O; inversion O; congruence.
  - split; [discriminate |]. intro O; inversion O; congruence.
  - split; [discriminate |]. intro O; inversion O; congruence.
Qed.

(** ** The data left *)
Lemma keys_plain_kid : forall s k, keys_plain s = true -> In k (skids s) -> keys_plain k = true.
Proof.
  intros [i ks] k H Hin. cbn [keys_plain] in H. apply andb_true_iff in H. destruct H as [_ H].
  rewrite forallb_forall in H. auto.
Qed.

Lemma keys_plain_Through : forall k c, Through k c -> keys_plain k = true -> keys_plain c = true.
Proof. intros k c H. induction H; intro W; auto; apply IHThrough; eapply keys_plain_kid; eauto. Qed.

Lemma keys_plain_child : forall s t cs, keys_plain s = true -> schema_child s t = Ok cs -> keys_plain cs = true.
Proof.
  intros s t cs W H. apply schema_child_Defines in H. destruct H as (_ & k & Hin & HT).
  apply (keys_plain_Through k cs HT). eapply keys_plain_kid; eauto.
Qed.

Lemma keys_plain_default : forall s, keys_plain s = true -> s_is_key (si s) = true -> s_default (si s) = None.
Proof.
  intros [i ks] H K. cbn [keys_plain] in H. simpl in *. apply andb_true_iff in H. destruct H as [H _]. rewrite K in H.
  destruct (s_default i); auto. discriminate.
Qed.

Lemma trim_key : forall s all k kc l kss, Forall2 (fun c ys => trim_kid s all c = Ok ys) l kss ->
  schema_child s k = Ok kc -> sty kc = TLeaf -> s_default (si kc) = None ->
  Forall2 (fun c c' => trim kc c = Ok c') (kids_tagged k l) (kids_tagged k (concat kss)).
Proof.
  intros s all k kc l kss HF Hs Ht Hd. induction HF as [| c ys l kss H HF IH]; [constructor |].
  cbn [concat]. rewrite kids_tagged_app. destruct (trim_kid_inv s all c ys H) as (cs & c' & H1 & H2 & H3).
  destruct (trim_parts _ _ _ H2) as (E1 & _ & _).
  unfold kids_tagged at 1. cbn [filter]. fold (kids_tagged k l). destruct (String.eqb (xtag c) k) eqn:E.
  - apply String.eqb_eq in E. rewrite E, Hs in H1. inversion H1; subst cs. unfold trim_drops in H3. rewrite Ht, Hd in H3.
    subst ys. unfold kids_tagged at 2. cbn [filter]. rewrite E1, E, String.eqb_refl. cbn [app]. constructor; auto.
  - destruct (trim_drops cs all c'); subst ys; auto. unfold kids_tagged at 2. cbn [filter]. rewrite E1, E. auto.
Qed.

Lemma trim_uid : forall s cs c c' u, wfs cs = true -> keys_plain cs = true -> schema_child s (xtag c) = Ok cs ->
  trim cs c = Ok c' -> uid_of s c = Ok u -> uid_of s c' = Ok u.
Proof.
  intros s cs c c' u W KP Hs T Hu. destruct (trim_parts _ _ _ T) as (P1 & P2 & _).
  assert (Hs' : schema_child s (xtag c') = Ok cs) by congruence.
  destruct (sty cs) eqn:Ht.
  4: { apply (uid_list s c cs Hs Ht) in Hu. destruct Hu as (ts & H1 & H2). subst u.
    apply (uid_list s c' cs Hs' Ht). exists ts. split; [| congruence].
    apply trim_inv in T. destruct T as (kss & HF & E). assert (EK : xkids c' = concat kss) by (rewrite E; apply set_kids_parts).
    apply (key_tuple_congr cs c c' ts); auto. intros k kn Hk Hkn. rewrite EK.
    destruct (wfs_keys cs W Ht) as [_ WK]. destruct (WK k Hk) as (_ & kc & K1 & K2 & K3).
    assert (F := trim_key cs (xkids c) k kc (xkids c) kss HF K1 K2 (keys_plain_default kc (keys_plain_child cs k kc KP K1) K3)).
    rewrite Hkn in F. inversion F as [| ? kn' ? l' F1 F2]; subst. inversion F2; subst. exists kn'. split; auto.
    destruct (trim_parts _ _ _ F1) as (_ & Q & _). unfold parse_text. rewrite Q. reflexivity. }
  2: { unfold uid_of in *. rewrite Hs in Hu. rewrite Hs'. cbn [bind] in *. rewrite Ht in *. unfold parse_text in *. rewrite P1, P2.
    auto. }
  all: rewrite (uid_other s c cs) in Hu by (auto; congruence); rewrite (uid_other s c' cs) by (auto; congruence); congruence.
Qed.

(** Children of the result and of the argument *)
Definition trim_pair (s : snode) (x c c' : xml) : Prop :=
  exists cs, schema_child s (xtag c) = Ok cs /\ trim cs c = Ok c' /\ trim_drops cs (xkids x) c' = false.

Lemma trim_back : forall s x y c', trim s x = Ok y -> In c' (xkids y) -> exists c, In c (xkids x) /\ trim_pair s x c c'.
Proof.
  intros s x y c' T Hin. apply trim_inv in T. destruct T as (kss & HF & E).
  assert (EK : xkids y = concat kss) by (rewrite E; apply set_kids_parts). rewrite EK in Hin.
  destruct (Forall2_concat_In _ _ _ _ HF Hin) as (c0 & ys & H1 & H2 & H3).
  destruct (trim_kid_inv _ _ _ _ H2) as (cs & c1 & T1 & T2 & T3).
  destruct (trim_drops cs (xkids x) c1) eqn:ED; subst ys; [destruct H3 |]. destruct H3 as [H3 | []]. subst c1.
  exists c0. split; auto. exists cs. auto.
Qed.

Lemma trim_forth : forall s x y c, trim s x = Ok y -> In c (xkids x) -> exists cs c', schema_child s (xtag c) = Ok cs /\
  trim cs c = Ok c' /\ (trim_drops cs (xkids x) c' = false -> In c' (xkids y)).
Proof.
  intros s x y c T Hin. apply trim_inv in T. destruct T as (kss & HF & E).
  assert (EK : xkids y = concat kss) by (rewrite E; apply set_kids_parts). rewrite EK.
  destruct (Forall2_concat_In' _ _ _ c HF Hin) as (ys & R & G).
  destruct (trim_kid_inv _ _ _ _ R) as (cs & c' & T1 & T2 & T3). exists cs, c'. split; auto. split; auto.
  intro D. rewrite D in T3. subst ys. apply G. left. auto.
Qed.

Lemma trim_At : forall p s x y s' n', wfs s = true -> keys_plain s = true -> valid s x = true -> trim s x = Ok y ->
  At s y p s' n' -> exists n, KeptAt s x p s' n /\ trim s' n = Ok n'.
Proof.
  induction p as [| u p IH]; intros s x y s' n' W KP V T HA.
  - inversion HA; subst. exists x. split; auto. apply ka_here.
  - inversion HA as [| ? ? c' cs ? ? ? ? H1 H2 H3 H4]; subst.
    destruct (trim_back s x y c' T H1) as (c & Hc & cs' & Hs & Tc & Dc).
    destruct (trim_parts _ _ _ Tc) as (P1 & _ & _).
    rewrite P1 in H2. assert (cs = cs') by (eapply Defines_schema_child; eauto). subst cs'.
    destruct (valid_inv s x V) as (_ & (lx & Ix) & Kx). destruct (Kx c Hc) as (cs2 & Hs2 & Vc).
    assert (cs2 = cs) by congruence. subst cs2. destruct (Index_In s _ lx c Ix Hc) as (v & Hv).
    assert (Uv := Index_uid s _ lx v c Ix Hv).
    assert (Wc := wfs_child s _ cs W Hs). assert (KPc := keys_plain_child s _ cs KP Hs).
    assert (Uc := trim_uid s cs c c' v Wc KPc Hs Tc Uv).
    assert (Iv : Ident cs c' v) by (apply (Ident_uid s); auto; congruence).
    assert (v = u) by (eapply Ident_fun; eauto). subst v.
    destruct (IH cs c c' s' n' Wc KPc Vc Tc H4) as (n & K1 & K2). exists n. split; auto.
    apply (ka_down s x c cs u p s' n); auto.
    + apply (Ident_uid s); auto.
    + intro O. apply (drops_iff c s x cs c' Hs Tc) in O. congruence.
Qed.

Lemma trim_KeptAt : forall p s x y s' n, wfs s = true -> keys_plain s = true -> valid s x = true -> trim s x = Ok y ->
  KeptAt s x p s' n -> exists n', At s y p s' n' /\ trim s' n = Ok n'.
Proof.
  induction p as [| u p IH]; intros s x y s' n W KP V T HA.
  - inversion HA; subst. exists y. split; auto. apply at_here.
  - inversion HA as [| ? ? c cs ? ? ? ? H1 H2 H3 H5 H4]; subst.
    destruct (trim_forth s x y c T H1) as (cs' & c' & Hs & Tc & Dc).
    assert (cs = cs') by (eapply Defines_schema_child; eauto). subst cs'.
    destruct (valid_inv s x V) as (_ & (lx & Ix) & Kx). destruct (Kx c H1) as (cs2 & Hs2 & Vc).
    assert (cs2 = cs) by congruence. subst cs2.
    assert (Wc := wfs_child s _ cs W Hs). assert (KPc := keys_plain_child s _ cs KP Hs).
    destruct (valid_Ident s x lx c cs u V Ix H1 H2 H3) as (_ & _ & Hin). assert (Uv := Index_uid s _ lx u c Ix Hin).
    assert (Uc := trim_uid s cs c c' u Wc KPc Hs Tc Uv). destruct (trim_parts _ _ _ Tc) as (P1 & _ & _).
    destruct (IH cs c c' s' n Wc KPc Vc Tc H4) as (n' & K1 & K2). exists n'. split; auto.
    apply (at_down s y c' cs u p s' n'); auto.
    + apply Dc. destruct (trim_drops cs (xkids x) c') eqn:E; auto. exfalso. apply H5. apply (drops_iff c s x cs c' Hs Tc). auto.
    + rewrite P1. auto.
    + apply (Ident_uid s); auto. congruence.
Qed.

Lemma KeptAt_At : forall s x p s' n, KeptAt s x p s' n -> At s x p s' n.
Proof. intros s x p s' n H. induction H; [apply at_here | eapply at_down; eauto]. Qed.

Lemma trim_value : forall s x y, trim s x = Ok y -> value_of s y = value_of s x.
Proof. intros s x y T. destruct (trim_parts _ _ _ T) as (_ & P & _). unfold value_of. rewrite P. reflexivity. Qed.

Lemma At_wfs : forall p s x s' n, At s x p s' n -> valid s x = true -> wfs s = true -> keys_plain s = true ->
  wfs s' = true /\ keys_plain s' = true.
Proof.
  intros p s x s' n H. induction H as [| s x c cs u p s' n H1 H2 H3 H4 IH]; intros V W KP; auto.
  destruct (valid_inv s x V) as (_ & (lx & Ix) & Kx). destruct (Kx c H1) as (cs2 & Hs2 & Vc).
  assert (cs = cs2) by (eapply Defines_schema_child; eauto). subst cs2.
  apply IH; auto; [eapply wfs_child; eauto | eapply keys_plain_child; eauto].
Qed.

Lemma trim_order : forall s x y lx t us, wfs s = true -> keys_plain s = true -> Index s (xkids x) lx -> trim s x = Ok y ->
  Order s t (xkids y) us -> Subseq us (seqt t lx).
Proof.
  intros s x y lx t us W KP (E & HU & _) T HO. apply trim_inv in T. destruct T as (kss & HF & Ey).
  assert (EK : xkids y = concat kss) by (rewrite Ey; apply set_kids_parts). rewrite EK in HO. clear EK Ey.
  revert HF. generalize (xkids x) at 1 as all. intros all HF. rewrite <- E in HF. clear E.
  revert kss us HF HO. induction lx as [| [u c] r IH]; intros kss us HF HO.
  - inversion HF; subst. inversion HO; subst. constructor.
  - simpl in HF. inversion HF as [| ? ys ? kss' R HF']; subst. inversion HU as [| ? ? U HU']; subst. simpl in U.
    destruct (trim_kid_inv _ _ _ _ R) as (cs & c' & T1 & T2 & T3). destruct (trim_parts _ _ _ T2) as (P1 & _ & _).
    assert (SK : Subseq (seqt t r) (seqt t ((u, c) :: r))).
    { unfold seqt, uids. cbn [map filter fst]. destruct (String.eqb (fst u) t).
      - apply ss_skip. apply Subseq_subl. apply subl_refl.
      - apply Subseq_subl. apply subl_refl. }
    destruct (trim_drops cs all c') eqn:ED; subst ys; simpl in HO.
    + specialize (IH HU' kss' us HF' HO). clear - IH SK. apply Subseq_subl. apply Subseq_subl in IH, SK. eapply subl_trans; eauto.
    + assert (Uc := trim_uid s cs c c' u (wfs_child s _ cs W T1) (keys_plain_child s _ cs KP T1) T1 T2 U).
      assert (TG := uid_tag s c' u Uc).
      inversion HO as [| c2 cs2 u2 l2 us2 O1 O2 O3 O4 | c2 l2 us2 O1 O4]; subst.
      * assert (cs2 = cs).
        { eapply Defines_schema_child; [| exact O2]. congruence. }
        subst cs2. assert (Iu : Ident cs c' u) by (apply (Ident_uid s); auto; congruence).
        assert (u2 = u) by (eapply Ident_fun; eauto). subst u2.
        unfold seqt, uids. cbn [map filter fst]. rewrite TG, String.eqb_refl. apply ss_take. apply (IH HU' kss' us2); auto.
      * specialize (IH HU' kss' us HF' O4). apply Subseq_subl. apply Subseq_subl in IH, SK. eapply subl_trans; eauto.
Qed.

Theorem trim_spec : forall s x y, wfs s = true -> keys_plain s = true -> valid s x = true -> trim s x = Ok y -> TrimOf s x y.
Proof.
  intros s x y W KP V T. split.
  - intros p v. split.
    + intros (s' & n' & HA & HV). destruct (trim_At p s x y s' n' W KP V T HA) as (n & K1 & K2).
      exists s', n. split; auto. rewrite <- (trim_value _ _ _ K2). auto.
    + intros (s' & n & HA & HV). destruct (trim_KeptAt p s x y s' n W KP V T HA) as (n' & K1 & K2).
      exists s', n'. split; auto. rewrite (trim_value _ _ _ K2). auto.
  - intros p t us vs (s1 & n1 & c1 & A1 & D1 & U1 & L1 & O1) (s2 & n2 & c2 & A2 & D2 & U2 & L2 & O2).
    destruct (trim_At p s x y s1 n1 W KP V T A1) as (n & K1 & K2).
    destruct (At_fun p s x s1 n s2 n2 V (KeptAt_At _ _ _ _ _ K1) A2) as [E1 E2]. subst s2 n2.
    assert (Vn := At_valid p s x s1 n V A2). destruct (valid_inv s1 n Vn) as (_ & (ln & In_) & _).
    destruct (At_wfs p s x s1 n A2 V W KP) as [Wn KPn].
    rewrite (Order_seqt s1 n ln t vs c2 Vn In_ D2 O2). eapply trim_order; eauto.
Qed.

(** ** The result is well-formed *)
Lemma trim_Index : forall s x y lx, wfs s = true -> keys_plain s = true -> Index s (xkids x) lx -> trim s x = Ok y ->
  exists ly, Index s (xkids y) ly.
Proof.
  intros s x y lx W KP (E & HU & ND) T. apply trim_inv in T. destruct T as (kss & HF & Ey).
  assert (EK : xkids y = concat kss) by (rewrite Ey; apply set_kids_parts). rewrite EK. clear EK Ey.
  revert HF. generalize (xkids x) at 1 as all. intros all HF. rewrite <- E in HF. clear E.
  assert (G : exists ly, map snd ly = concat kss /\ Forall (fun e => uid_of s (snd e) = Ok (fst e)) ly /\
               NoDup (uids ly) /\ forall u, In u (uids ly) -> In u (uids lx)).
  { revert kss HF. induction lx as [| [u c] r IH]; intros kss HF.
    - inversion HF; subst. exists []. repeat split; auto; constructor.
    - simpl in HF. inversion HF as [| ? ys ? kss' R HF']; subst. inversion HU as [| ? ? U HU']; subst. simpl in U.
      simpl in ND. inversion ND as [| ? ? N ND']; subst. destruct (IH HU' ND' kss' HF') as (ly & L1 & L2 & L3 & L4).
      destruct (trim_kid_inv _ _ _ _ R) as (cs & c' & T1 & T2 & T3).
      destruct (trim_drops cs all c') eqn:ED; subst ys; simpl.
      + exists ly. repeat split; auto.
      + exists ((u, c') :: ly). split; [simpl; congruence |]. split; [constructor; auto |].
        * simpl. apply (trim_uid s cs c c' u (wfs_child s _ cs W T1) (keys_plain_child s _ cs KP T1) T1 T2 U).
        * split; [simpl; constructor; auto |]. simpl. intros v [H | H]; auto. }
  destruct G as (ly & G1 & G2 & G3 & _). exists ly. split; auto.
Qed.

Theorem trim_valid : forall x s y, wfs s = true -> keys_plain s = true -> valid s x = true -> trim s x = Ok y ->
  (np_container s = true -> xkids y <> []) -> valid s y = true.
Proof.
  intro x. induction x as [t tx a ks IH] using xml_ind'. intros s y W KP V T HN.
  set (x := Elem t tx a ks) in *. change ks with (xkids x) in IH. rewrite Forall_forall in IH.
  destruct (valid_inv s x V) as (Ha & (lx & Ix) & Kx). destruct (trim_Index s x y lx W KP Ix T) as (ly & Iy).
  destruct (trim_parts _ _ _ T) as (P1 & P2 & P3).
  assert (Ky : forall c, In c (xkids y) -> exists cs, schema_child s (xtag c) = Ok cs /\ valid cs c = true).
  { intros c' Hc'. destruct (trim_back s x y c' T Hc') as (c & Hc & cs & Hs & Tc & Dc). destruct (Kx c Hc) as (cs2 & Hs2 & Vc).
    assert (cs2 = cs) by congruence. subst cs2. destruct (trim_parts _ _ _ Tc) as (Q1 & _ & _). exists cs. split; [congruence |].
    apply (IH c Hc cs c'); auto.
    - eapply wfs_child; eauto.
    - eapply keys_plain_child; eauto.
    - intros NP X. unfold trim_drops in Dc. unfold np_container in NP. apply andb_true_iff in NP. destruct NP as [NP1 NP2].
      destruct (sty cs); try discriminate. unfold no_kids in Dc. rewrite X, NP2 in Dc. discriminate. }
  assert (Tx : forall b, nodeish (sty s) = b -> b = true -> xtext y = None).
  { intros b E B. rewrite P2. apply (valid_text s x V); intro X; rewrite X in E; simpl in E; congruence. }
  destruct (sty s) eqn:Et.
  - assert (E : xkids y = []).
    { destruct (xkids y) as [| c r] eqn:Ey; auto. exfalso. destruct (trim_back s x y c T) as (c0 & Hc0 & _).
      { rewrite Ey. left. auto. }
      unfold x in V, Hc0. cbn [valid] in V. rewrite Et in V. destruct ks; [destruct Hc0 |]. rewrite andb_false_r in V. discriminate. }
    destruct y as [ty txy ay ky]. simpl in *. subst. rewrite Et. reflexivity.
  - assert (E : xkids y = []).
    { destruct (xkids y) as [| c r] eqn:Ey; auto. exfalso. destruct (trim_back s x y c T) as (c0 & Hc0 & _).
      { rewrite Ey. left. auto. }
      unfold x in V, Hc0. cbn [valid] in V. rewrite Et in V. destruct ks; [destruct Hc0 |]. rewrite andb_false_r in V. discriminate. }
    destruct y as [ty txy ay ky]. simpl in *. subst. rewrite Et. reflexivity.
  - apply (valid_intro s y ly); auto; try congruence; [apply (Tx true); auto | rewrite Et; auto].
  - apply (valid_intro s y ly); auto; try congruence; [apply (Tx true); auto | rewrite Et; auto].
  - exfalso. unfold x in V. cbn [valid] in V. rewrite Et in V. rewrite andb_false_r in V. discriminate.
  - exfalso. unfold x in V. cbn [valid] in V. rewrite Et in V. rewrite andb_false_r in V. discriminate.
  - apply (valid_root s y ly); auto; try congruence. rewrite P2. apply (valid_text s x V); rewrite Et; discriminate.
  - exfalso. unfold x in V. cbn [valid] in V. rewrite Et in V. rewrite andb_false_r in V. discriminate.
Qed.
