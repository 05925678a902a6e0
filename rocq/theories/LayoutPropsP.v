(** Layout in containers: configs. *)
From Coq Require Import String Ascii List Bool Arith ZArith Lia.
From Verif Require Import Base BaseP XmlM CalcM CalcP NetconfM ConfigM DataSpec DataP DeltaSpec DeltaR ConfigSpec ConfigP NameP AddP OpsP DeltaPropsP WorkP LayoutSpec LayoutP LayoutSubP.
Import ListNotations.
Open Scope string_scope.
Open Scope list_scope.

(** ** The references of deltas *)
Lemma puts_none : forall cs c, get_attr insert_tag c = None -> puts_by cs c = None.
Proof. intros cs c H. unfold puts_by. rewrite H. destruct (op_of c), (sty cs), (s_user (si cs)); reflexivity. Qed.
Lemma puts_key : forall cs c p, puts_by cs c = Some p -> get_attr key_tag c = Some p.
Proof.
  intros cs c p. unfold puts_by. generalize (get_attr key_tag c). intros g H. destruct (op_of c), (sty cs), (s_user (si cs)), (get_attr insert_tag c) as [iv |]; try discriminate H;
    repeat (match type of H with context [match ?z with _ => _ end] => destruct z; try discriminate H end); exact H.
Qed.
Lemma bare_refs : forall x y, Bare x y -> forall s, KeyRefs s x.
Proof.
  intro x. induction x as [t tx a ks IH] using xml_ind'. intros y B s. inversion B as [x0 y0 T TX NE F]; subst. cbn [xkids] in F. rewrite Forall_forall in IH.
  assert (BK : forall c, In c ks -> exists c', Bare c c').
  { intros c Ic. clear - F Ic. induction F as [| u v l l' H F IHF]; [destruct Ic |]. destruct Ic as [-> | Ic]; eauto. }
  constructor.
  - intros c cs p ps k v kc Ic C P. destruct (BK c Ic) as (c' & Bc). inversion Bc as [c0 c1 T1 T2 NE1 F1]; subst. destruct NE1 as (_ & NI & _). rewrite (puts_none cs c NI) in P. discriminate.
  - intros c cs Ic C. destruct (BK c Ic) as (c' & Bc). apply (IH c Ic c' Bc).
Qed.
Lemma bares_refs : forall x l s, Forall2 Bare (xkids x) l -> KeyRefs s x.
Proof.
  intros x l s F. assert (BK : forall c, In c (xkids x) -> exists c', Bare c c').
  { intros c Ic. induction F as [| u v r r' H F IHF]; [destruct Ic |]. destruct Ic as [-> | Ic]; eauto. }
  constructor.
  - intros c cs p ps k v kc Ic C P. destruct (BK c Ic) as (c' & Bc). inversion Bc as [c0 c1 T1 T2 NE1 F1]; subst. destruct NE1 as (_ & NI & _). rewrite (puts_none cs c NI) in P. discriminate.
  - intros c cs Ic C. destruct (BK c Ic) as (c' & Bc). apply (bare_refs c c' Bc).
Qed.

Lemma chain_in : forall cs l prev e, Chain cs prev l -> In e l -> exists p, InsAttr cs p (snd e) /\ (p = prev \/ exists v, p = Some v /\ In v (map fst l)).
Proof.
  intros cs l. induction l as [| e0 r IH]; intros prev e H I; [destruct I |]. destruct H as (H1 & H2). destruct I as [-> | I]; [exists prev; auto |].
  destruct (IH _ _ H2 I) as (p & P1 & [P2 | (v & P2 & P3)]); exists p; split; auto; right; [exists (fst e0) | exists v]; cbn [map]; split; auto; [left | right]; auto.
Qed.

Lemma tup_length : forall s x cs vs, schema_child s (xtag x) = Ok cs -> sty cs = TList -> uid_of s x = Ok (xtag x, KTup (map Some vs)) -> length (s_keys (si cs)) = length vs.
Proof.
  intros s x cs vs C T U. apply (uid_list s x cs C T) in U. destruct U as (ts & K & E). assert (X : ts = map Some vs) by congruence. subst ts.
  apply key_tuple_Forall2 in K. rewrite <- (map_length Some vs). clear - K. induction K; cbn [length]; congruence.
Qed.

Lemma IsD_refs : forall {LK : late} n s ka kb kd, IsD n s ka kb kd -> wfs s = true -> (forall b, xkids b = kb -> orderable s b = true) -> forall y, xkids y = kd -> KeyRefs s y.
Proof.
  intro LK.
  assert (G : (forall n s ka kb kd, IsD n s ka kb kd -> wfs s = true -> (forall b, xkids b = kb -> orderable s b = true) -> forall y, xkids y = kd -> KeyRefs s y) /\
    (forall n s la lb oa ob od, EntD n s la lb oa ob od -> forall cd cs, od = Some cd -> wfs cs = true -> schema_child s (xtag cd) = Ok cs ->
       (forall ca, oa = Some ca -> xtag ca = xtag cd) -> (forall cb, ob = Some cb -> xtag cb = xtag cd /\ orderable cs cb = true) ->
       KeyRefs cs cd /\ (ob = None -> sty cs = TList -> puts_by cs cd = None))).
  { apply IsD_EntD_ind.
    - intros n s ka kb kd la lb ld Ia Ib Id _ IH OO W' OB y Ky.
      assert (OBK : orderable s (Elem "" None [] kb) = true) by (apply OB; reflexivity).
      assert (ENT : forall c cs, In c kd -> schema_child s (xtag c) = Ok cs -> exists u, In (u, c) ld /\ KeyRefs cs c /\ (assoc uid_eqb u lb = None -> sty cs = TList -> puts_by cs c = None)).
      { intros c cs Ic C. destruct (Index_In s kd ld c Id Ic) as (u & Iu). exists u. split; auto. assert (TU := Index_tag s kd ld u c Id Iu).
        apply (IH u c cs); auto.
        - apply (Index_assoc s kd ld u c Id). exact Iu.
        - apply (wfs_child s _ cs W' C).
        - intros ca E. apply (Index_assoc s ka la u ca Ia) in E. apply (Index_tag s ka la u ca Ia) in E. congruence.
        - intros cb E. apply (Index_assoc s kb lb u cb Ib) in E. assert (T2 := Index_tag s kb lb u cb Ib E). split; [congruence |].
          apply (orderable_kid s (Elem "" None [] kb) cb cs OBK); [apply (Index_kid s kb lb u cb Ib E) | congruence]. }
      constructor.
      + rewrite Ky. intros c cs p ps k v kc Ic C P PP Ik KC. destruct (ENT c cs Ic C) as (u & Iu & _ & NB). assert (TU := Index_tag s kd ld u c Id Iu).
        assert (LU : sty cs = TList /\ s_user (si cs) = true).
        { unfold puts_by in P. destruct (op_of c), (sty cs), (s_user (si cs)); try discriminate; auto. }
        destruct LU as (T & U). assert (US : is_user_seq cs = true) by (unfold is_user_seq; rewrite U, T; reflexivity).
        assert (IL : mem uid_eqb u (uids lb) = true).
        { destruct (assoc uid_eqb u lb) as [cb |] eqn:A; [| rewrite NB in P by auto; discriminate]. apply (Index_assoc s kb lb u cb Ib) in A. apply (mem_In uid_eqb uid_eqb_ok). apply (in_map fst) in A. exact A. }
        assert (DS : In (u, c) (dseq (xtag c) lb ld)) by (unfold dseq; apply filter_In; split; auto; cbn [fst]; rewrite TU, String.eqb_refl; exact IL).
        destruct (OO (xtag c) cs C US) as [Q1 Q2 | Q1 Q2 Q3 | Q1 Q2].
        * destruct (chain_in cs _ None (u, c) Q2 DS) as (pr & IA & PR). cbn [snd] in IA. destruct PR as [-> | (w & -> & Iw)].
          { cbn [InsAttr] in IA. unfold puts_by in P. rewrite IA in P. rewrite T, U in P. destruct (op_of c); discriminate. }
          assert (WB : In w (uids lb) /\ fst w = xtag c).
          { apply in_map_iff in Iw. destruct Iw as ([w' c'] & E & Iw). cbn [fst] in E. subst w'. unfold dseq in Iw. apply filter_In in Iw. destruct Iw as (_ & Iw). cbn [fst] in Iw.
            apply andb_true_iff in Iw. destruct Iw as (W1 & W2). apply String.eqb_eq in W1. apply (mem_In uid_eqb uid_eqb_ok) in W2. auto. }
          destruct WB as (WB & WT). assert (NU := orderable_NamU s (Elem "" None [] kb) lb w cs OBK Ib WB ltac:(rewrite WT; exact C) US). unfold NamU in NU. rewrite T in NU.
          destruct NU as (vs & VE & VF). destruct IA as (_ & IA). rewrite T in IA. assert (KA := IA vs VE).
          assert (PE : p = pstr (s_keys (si cs)) vs) by (apply puts_key in P; congruence).
          assert (LN : length (s_keys (si cs)) = length vs).
          { apply in_map_iff in WB. destruct WB as ([w' cw] & E & WB). cbn [fst] in E. subst w'. assert (UW := Index_uid s kb lb w cw Ib WB). assert (TW := Index_tag s kb lb w cw Ib WB).
            apply (tup_length s cw cs vs); auto; [congruence |]. rewrite UW. destruct w as [wt wk]. cbn [fst snd] in VE, TW. rewrite <- TW, VE. reflexivity. }
          destruct (wfs_keys cs (wfs_child s _ cs W' C) T) as (_ & WK).
          assert (X : ps = combine (s_keys (si cs)) vs).
          { subst p. rewrite parse_pstr in PP; auto; [congruence |]. apply Forall_forall. intros k' Ik'. apply (WK k' Ik'). }
          subst ps. apply in_combine_l in Ik. destruct (WK k Ik) as (_ & kc' & K1 & K2 & _). congruence.
        * rewrite Forall_forall in Q3. assert (N := Q3 (u, c) DS). cbn [snd] in N. rewrite (puts_none cs c N) in P. discriminate.
        * exfalso. assert (I2 : In u (seqt (xtag c) ld)).
          { unfold seqt. apply filter_In. split; [apply (in_map fst) in Iu; exact Iu | rewrite TU; apply String.eqb_refl]. }
          rewrite Q1 in I2. destruct I2.
      + rewrite Ky. intros c cs Ic C. destruct (ENT c cs Ic C) as (u & _ & KR & _). exact KR.
    - intros. discriminate.
    - intros. discriminate.
    - intros. discriminate.
    - intros n s la lb cb cd cs C OP (B1 & B2) cd' cs' E W' C' _ _. assert (cd' = cd) by congruence. subst cd'. split; [apply (bares_refs cd (xkids cb)); auto | discriminate].
    - intros n s la lb cb cd cs C T OP D IH cd' cs' E W' C' _ H. assert (cd' = cd) by congruence. subst cd'. destruct (H cb eq_refl) as (T1 & O1). assert (cs' = cs) by congruence. subst cs'.
      split; [| discriminate]. apply IH; auto. intros b Kb. apply (orderable_sub cs cb); auto. intros c Ic. congruence.
    - intros n s la lb cb cd cs ks C T OP KC D IH cd' cs' E W' C' _ H. assert (cd' = cd) by congruence. subst cd'. destruct (H cb eq_refl) as (T1 & O1). assert (cs' = cs) by congruence. subst cs'.
      split; [| discriminate]. apply IH; auto. intros b Kb. apply (orderable_sub cs cb); auto. intros c Ic. congruence.
    - intros n s la lb ca cd cs C OP _ K1 _ cd' cs' E W' C' _ _. assert (cd' = cd) by congruence. subst cd'. split.
      + constructor.
        * intros c kc p ps k v k' Ic KC P. destruct (K1 c Ic) as (_ & _ & NI & _). rewrite (puts_none kc c NI) in P. discriminate.
        * intros c kc Ic KC. destruct (K1 c Ic) as (NK & _). constructor; rewrite NK; intros; contradiction.
      + intros _ _. unfold puts_by. destruct OP as [-> | ->]; reflexivity.
    - intros n s la lb ca cd cs C NP OP _ D IH cd' cs' E W' C' H _. assert (cd' = cd) by congruence. subst cd'. assert (T1 := H ca eq_refl). assert (cs' = cs) by congruence. subst cs'. split.
      + apply IH; auto. intros [bt btx ba bk] Kb. cbn [xkids] in Kb. subst bk. reflexivity.
      + intros _ T. unfold np_container in NP. rewrite T in NP. discriminate.
    - intros n s la lb ca cb cd cs C LF OP (B1 & B2) cd' cs' E W' C' _ _. assert (cd' = cd) by congruence. subst cd'. split; [apply (bares_refs cd (xkids cb)); auto | discriminate].
    - intros n s la lb ca cb cd cs C LF OP (B1 & B2) _ cd' cs' E W' C' _ _. assert (cd' = cd) by congruence. subst cd'. split; [apply (bares_refs cd (xkids cb)); auto | discriminate].
    - intros n s la lb ca cb cd cs C ND OP _ D IH cd' cs' E W' C' HA H. assert (cd' = cd) by congruence. subst cd'. assert (T0 := HA ca eq_refl). destruct (H cb eq_refl) as (T1 & O1). assert (cs' = cs) by congruence. subst cs'.
      split; [| discriminate]. apply IH; auto. intros b Kb. apply (orderable_sub cs cb); auto. intros c Ic. congruence. }
  intros n s ka kb kd D. apply (proj1 G n s ka kb kd D).
Qed.

Theorem delta_refs : forall o s a b d, wfs s = true -> IsConfig s a -> IsConfig s b -> orderable s b = true -> delta_nc s (Delta a b o) = Ok d -> KeyRefs s d.
Proof.
  intros o s a b d W' (Va & _) (Vb & _) OB H. unfold delta_nc in H. cbn [d_src d_dst d_opts] in H.
  destruct (nc_sub_cases True o s a b W' (valid_validk _ _ Va) (valid_validk _ _ Vb) (proj1 (valid_inv s b Vb)) (or_intror I) (or_intror I)) as [(d' & D1 & [D2 | D2]) | [D1 _]]; [| | congruence].
  - assert (d' = d) by congruence. subst d'. apply (IsD_refs 0 s (xkids a) (xkids b) (xkids d) D2 W'); auto. intros b' K. apply (orderable_sub s b); auto. intros c. rewrite K. auto.
  - assert (d' = d) by congruence. subst d'. apply (bares_refs d (xkids b) s D2).
Qed.

(** References do not depend on layout. *)
Lemma refs_un : forall y s, KeyRefs s (unspaced s y) -> KeyRefs s y.
Proof.
  intro y. induction y as [t tx a ks IH] using xml_ind'. intros s K. inversion K as [s0 y0 K1 K2]; subst. rewrite un_kids in K1, K2. cbn [xkids] in *. rewrite Forall_forall in IH.
  assert (PB : forall cs c, puts_by cs (us s c) = puts_by cs c) by (intros cs c; unfold puts_by; rewrite us_op, !us_get; reflexivity).
  constructor; cbn [xkids].
  - intros c cs p ps k v kc Ic C P. apply (K1 (us s c) cs p ps k v kc); [apply in_map; auto | rewrite us_tag; exact C | rewrite PB; exact P].
  - intros c cs Ic C. apply (IH c Ic cs). rewrite <- (us_ok s c cs C). apply K2; [apply in_map; auto | rewrite us_tag; exact C].
Qed.
Lemma un_refs : forall y s, KeyRefs s y -> KeyRefs s (unspaced s y).
Proof.
  intro y. induction y as [t tx a ks IH] using xml_ind'. intros s K. inversion K as [s0 y0 K1 K2]; subst. cbn [xkids] in *. rewrite Forall_forall in IH.
  assert (PB : forall cs c, puts_by cs (us s c) = puts_by cs c) by (intros cs c; unfold puts_by; rewrite us_op, !us_get; reflexivity).
  constructor; rewrite un_kids; cbn [xkids].
  - intros c' cs p ps k v kc Ic C P. apply in_map_iff in Ic. destruct Ic as (c & <- & Ic). rewrite us_tag in C. rewrite PB in P. apply (K1 c cs p ps k v kc Ic C P).
  - intros c' cs Ic C. apply in_map_iff in Ic. destruct Ic as (c & <- & Ic). rewrite us_tag in C. rewrite (us_ok s c cs C). apply (IH c Ic cs). apply (K2 c cs Ic C).
Qed.
Lemma but_refs : forall s y y', SameBut s y y' -> KeyRefs s y -> KeyRefs s y'.
Proof. intros s y y' E K. apply refs_un. unfold SameBut in E. rewrite <- E. apply un_refs. exact K. Qed.

(** ** Configs *)
Theorem compare_but : forall s a a' b b', wfs s = true -> SameBut s a a' -> SameBut s b b' ->
  cmp_le s a b = cmp_le s a' b' /\ cmp_lt s a b = cmp_lt s a' b' /\ cmp_ge s a b = cmp_ge s a' b' /\ cmp_gt s a b = cmp_gt s a' b' /\ cmp_eq s a b = cmp_eq s a' b' /\ cmp_ne s a b = cmp_ne s a' b'.
Proof.
  intros s a a' b b' W' Ea Eb. assert (L : forall x x' y y', SameBut s x x' -> SameBut s y y' -> node_le s x y = node_le s x' y').
  { intros x x' y y' E1 E2. rewrite <- (le_un x s y W'), <- (le_un x' s y' W'). unfold SameBut in *. congruence. }
  unfold cmp_le, cmp_lt, cmp_ge, cmp_gt, cmp_eq, cmp_ne. rewrite (L a a' b b' Ea Eb), (L b b' a a' Eb Ea). repeat split.
Qed.

Lemma on_on : forall A B C (f : A -> B) (g : B -> C) r, on_ok g (on_ok f r) = on_ok (fun x => g (f x)) r.
Proof. intros A B C f g [x |]; reflexivity. Qed.
Lemma new_un : forall c rd s x y, retrieve y = unspaced s (retrieve x) -> config_new c rd s y = on_ok (unspaced s) (config_new c rd s x).
Proof.
  intros c rd s x y E. unfold config_new. rewrite E, trim_un. apply bind_on. intros e _. destruct c; [apply validate_un | reflexivity].
Qed.
Theorem new_but : forall c rd s x y, SameBut s (retrieve x) (retrieve y) -> OutBut s (config_new c rd s x) (config_new c rd s y).
Proof.
  intros c rd s x y E. unfold OutBut.
  assert (G : forall z, on_ok (unspaced s) (config_new c rd s z) = let! e := trim s (unspaced s (retrieve z)) in if c then validate rd s e else Ok e).
  { intro z. unfold config_new. rewrite trim_un. symmetry. apply bind_on. intros e _. destruct c; [apply validate_un | reflexivity]. }
  rewrite !G. unfold SameBut in E. rewrite E. reflexivity.
Qed.

Theorem delta_but : forall o s a a' b b', wfs s = true -> SameBut s a a' -> SameBut s b b' -> OutBut s (delta_nc s (Delta a b o)) (delta_nc s (Delta a' b' o)).
Proof.
  intros o s a a' b b' W' Ea Eb. unfold OutBut, delta_nc. cbn [d_src d_dst d_opts]. rewrite <- !delta_un by exact W'. unfold SameBut in *. congruence.
Qed.

Lemma retrieve_un : forall s r, unspaced s (retrieve r) = retrieve (unspaced s r) \/ xtag r <> config_tag.
Proof.
  intros s r. destruct (String.eqb_spec (xtag r) config_tag) as [E | E]; [left | right; exact E]. destruct r as [t tx a ks]. cbn [xtag] in E. subst t. rewrite un_eq.
  assert (R : forall tx0 a0 k0, retrieve (Elem config_tag tx0 a0 k0) = Elem config_tag None [] k0).
  { intros tx0 a0 k0. unfold retrieve. cbn [xp xtag xkids]. cbn. rewrite !app_nil_r. reflexivity. }
  rewrite !R, un_eq. destruct (sty s); reflexivity.
Qed.
Lemma sum_tag : forall s x y r, nc_add s x y = Ok r -> xtag r = xtag x.
Proof. intros s x y r H. unfold nc_add in H. apply (add_tag _ _ _ _ _ H). Qed.
Lemma config_add_un : forall s x y, wfs s = true -> KeyRefs s y -> xtag x = config_tag -> config_add s (unspaced s x) (unspaced s y) = on_ok (unspaced s) (config_add s x y).
Proof.
  intros s x y W' K T. unfold config_add. rewrite sum_un by auto. apply bind_on. intros r E. apply new_un. destruct (retrieve_un s r) as [H | H]; [congruence |]. apply sum_tag in E. congruence.
Qed.
Theorem sum_but : forall s x x' y y', wfs s = true -> KeyRefs s y -> xtag x = config_tag -> SameBut s x x' -> SameBut s y y' -> OutBut s (config_add s x y) (config_add s x' y').
Proof.
  intros s x x' y y' W' K T Ex Ey. unfold OutBut. rewrite <- !config_add_un; auto; [unfold SameBut in *; congruence | apply (but_refs s y y' Ey K) |].
  unfold SameBut in Ex. rewrite <- T, <- (un_tag s x), <- (un_tag s x'), Ex. reflexivity.
Qed.

Theorem layout_round_trip : forall o s a b, wfs s = true -> sty s = TRoot -> IsConfig s (unspaced s a) -> IsConfig s (unspaced s b) ->
  Comparable s (unspaced s a) (unspaced s b) -> RootKept o s (unspaced s a) (unspaced s b) ->
  exists r, config_add_delta s a (Delta a b o) = Ok r /\ IsConfig s (unspaced s r) /\ SameData s (unspaced s r) (unspaced s b) /\ cmp_eq s r b = Ok true.
Proof.
  intros o s a b W' R Ca Cb CM RK. destruct (reaches o s _ _ W' R Ca Cb CM RK) as (x & H & X1 & X2 & X3).
  unfold config_add_delta in H. apply bind_ok in H. destruct H as (d' & D & H). assert (KR := delta_refs o s _ _ d' W' Ca Cb (proj1 (proj2 CM)) D).
  unfold config_add_delta. unfold delta_nc in *. cbn [d_src d_dst d_opts] in *. rewrite delta_un in D by exact W'. destruct (nc_sub o s b a) as [d |]; cbn [on_ok bind] in *; [| discriminate].
  assert (E : d' = unspaced s d) by congruence. subst d'. apply refs_un in KR. assert (TA : xtag a = config_tag) by (destruct Ca as (_ & T & _); rewrite un_tag in T; exact T).
  rewrite config_add_un in H by auto. destruct (config_add s a d) as [r |]; cbn [on_ok] in H; [| discriminate]. assert (E : x = unspaced s r) by congruence. subst x.
  exists r. split; auto. split; auto. split; auto. unfold cmp_eq in *. rewrite !le_un in X3 by exact W'. exact X3.
Qed.
