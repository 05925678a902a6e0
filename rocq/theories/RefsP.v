(** Lemmas about RefsM.v. *)
From Coq Require Import String Ascii List Bool Arith Lia.
From Verif Require Import Base BaseP XmlM CalcM CalcP CacheM CacheSpec CacheP CachePropsP TagM TagSpec RefM RefSpec RefP IidSpec IidP RefsM RefsSpec
  DeltaSpec DataSpec DataP CompareP.
Import ListNotations.
Open Scope string_scope.
Open Scope list_scope.

(** Instance-identifiers that denote one path have one default form (C64). *)
Definition SayIid (T : table) (m m' : nsmap) (s s' : string) : Prop :=
  exists l l' d, s = to_s (show_items l) /\ s' = to_s (show_items l') /\
    Denotes T m None l d /\ Denotes T m' None l' d /\ Forall Tame l /\ Forall Tame l' /\
    l <> [] /\ l' <> [] /\ (forall u, In u (urls d) -> In u (map e_url T)).

Lemma one_meaning : forall T m l k d d2, Unambiguous T -> Nsmap m -> Denotes T m None l d -> Denotes T m None k d2 ->
  to_s (show_items l) = to_s (show_items k) -> l = k /\ d = d2.
Proof.
  intros T m l k d d2 U N D D2 E. apply (f_equal of_s) in E. rewrite !of_to in E.
  apply one_reading in E; [|eapply Denotes_shape; eassumption|eapply Denotes_shape; eassumption]. subst k.
  split; auto. apply (denotes_fun T m U) with (d := None) (l := l); auto.
Qed.
Lemma iid_pair : forall T w t m m' s s', Unambiguous T -> Prefixes T None -> In w (map e_url T) -> Name t ->
  Nsmap m -> Nsmap m' -> SayIid T m m s s -> SayIid T m' m' s' s' ->
  exists a b, iid_convert T (RNode (etree w t) m (Some s)) None = Ok a /\
    iid_convert T (RNode (etree w t) m' (Some s')) None = Ok b /\ (a = b <-> SayIid T m m' s s').
Proof.
  intros T w t m m' s s' U PX Iw Nt N N' (l & l0 & d & -> & E0 & D & D0 & Tm & _ & L & _ & Ud)
    (l' & l1 & d' & -> & E1 & D' & D1 & Tm' & _ & L' & _ & Ud').
  destruct (iid_same T w t m m' l l' d d' U PX Iw Nt N N' D D' Tm Tm' L L') as (b & E & I).
  { intros u Iu. apply in_app_or in Iu. destruct Iu; auto. }
  unfold ref_same, ref_text in E. cbn [r_text] in E.
  apply bind_ok in E. destruct E as (ov & Ev & E). apply bind_ok in Ev. destruct Ev as (a & Ea & Q). injection Q as <-.
  apply bind_ok in E. destruct E as (ow & Ew & E). apply bind_ok in Ew. destruct Ew as (c & Ec & Q). injection Q as <-.
  exists a, c. split; auto. split; auto. injection E as E. split.
  - intros ->. assert (H : b = true) by (rewrite <- E; apply String.eqb_refl). apply I in H. subst d'.
    exists l, l', d. auto 10.
  - intros (k & k' & d2 & F & F' & G & G' & Tk & Tk' & _).
    destruct (one_meaning T m l k d d2 U N D G F) as [_ ->].
    destruct (one_meaning T m' l' k' d' d2 U N' D' G' F') as [_ ->].
    assert (H : b = true) by (apply I; auto). subst b. apply String.eqb_eq in H. congruence.
Qed.
Lemma say_left : forall T m m' s s', SayIid T m m' s s' -> SayIid T m m s s /\ SayIid T m' m' s' s'.
Proof.
  intros T m m' s s' (l & l' & d & A & B & C & D & E & F & G & H & I). split.
  - exists l, l, d. auto 10.
  - exists l', l', d. auto 10.
Qed.

(** Trees that say the same have the same default form. *)
Lemma says_canon : forall T dt ns ns' b b', Unambiguous T -> Prefixes T None -> KnownTags T dt ->
  (forall p, Nsmap (ns b p)) -> (forall p, Nsmap (ns' b' p)) ->
  forall x y p ts, Says T dt (ns b) (ns' b') p ts x y ->
  canon (device_refs T dt ns) b p ts x = canon (device_refs T dt ns') b' p ts y.
Proof.
  intros T dt ns ns' b b' U PX K N N'. induction x as [t tx a ks IH] using xml_ind'. intros [t' tx' a' ks'] p ts H.
  cbn [Says] in H. destruct H as (<- & <- & ST & KS). rewrite !canon_eq.
  assert (E : canon_text (device_refs T dt ns) b p ts tx = canon_text (device_refs T dt ns') b' p ts tx').
  { unfold SayText in ST. unfold canon_text, device_refs. cbn [is_ref default].
    destruct (dt ts) eqn:D, tx as [s |], tx' as [s' |]; try discriminate ST; try (injection ST as ->); auto.
    - destruct ST as (u & n & Iu & R1 & R2). destruct (K ts (or_introl D)) as (w & t0 & L & Iw & Nt).
      unfold rnode_at. rewrite L, (id_default_ok T w t0 (ns b p) s u n), (id_default_ok T w t0 (ns' b' p) s' u n); auto.
    - destruct (K ts (or_intror D)) as (w & t0 & L & Iw & Nt). unfold rnode_at. rewrite L.
      destruct (say_left _ _ _ _ _ ST) as [S1 S2].
      destruct (iid_pair T w t0 (ns b p) (ns' b' p) s s' U PX Iw Nt (N p) (N' p) S1 S2) as (a1 & a2 & -> & -> & E).
      rewrite (proj2 E ST). reflexivity. }
  rewrite E. clear E ST. destruct (canon_text (device_refs T dt ns') b' p ts tx') as [tx0 | e]; [| reflexivity]. cbn [bind].
  assert (E : canon_kids (device_refs T dt ns) b p ts 0 ks = canon_kids (device_refs T dt ns') b' p ts 0 ks').
  { revert ks' KS. generalize 0. induction IH as [| c r C _ IHr]; intros i [| c' r'] KS; try contradiction; [reflexivity |].
    destruct KS as [K1 K2]. cbn [canon_kids].
    assert (TG : xtag c = xtag c') by (destruct c, c'; cbn [Says] in K1; apply K1).
    rewrite (C _ _ _ K1), TG, (IHr _ _ K2). reflexivity. }
  rewrite E. reflexivity.
Qed.

(** The other way round: trees with the same default form say the same. *)
Lemma canon_says : forall T dt ns ns' b b', Unambiguous T -> Prefixes T None -> KnownTags T dt ->
  (forall p, Nsmap (ns b p)) -> (forall p, Nsmap (ns' b' p)) ->
  forall x y p ts v, Says T dt (ns b) (ns b) p ts x x -> Says T dt (ns' b') (ns' b') p ts y y ->
  canon (device_refs T dt ns) b p ts x = Ok v -> canon (device_refs T dt ns') b' p ts y = Ok v ->
  Says T dt (ns b) (ns' b') p ts x y.
Proof.
  intros T dt ns ns' b b' U PX K N N'. induction x as [t tx a ks IH] using xml_ind'. intros [t' tx' a' ks'] p ts v Hx Hy E E'.
  rewrite canon_eq in E, E'.
  apply bind_ok in E. destruct E as (w & E1 & E). apply bind_ok in E. destruct E as (kv & E2 & E). injection E as <-.
  apply bind_ok in E'. destruct E' as (w' & F1 & E'). apply bind_ok in E'. destruct E' as (kv' & F2 & E'). injection E' as <- <- <- <-.
  cbn [Says] in *. destruct Hx as (_ & _ & STx & KSx). destruct Hy as (_ & _ & STy & KSy). split; auto. split; auto. split.
  - clear -E1 F1 STx STy U PX K N N'. unfold SayText in *. unfold canon_text, device_refs in *. cbn [is_ref default] in *.
    destruct (dt ts) eqn:D;
      destruct tx as [s |], tx' as [s' |]; repeat match goal with H : Ok _ = Ok _ |- _ => injection H as H end; try congruence.
    + destruct STx as (u & n & Iu & R1 & _). destruct STy as (u' & n' & Iu' & R1' & _).
      destruct (K ts (or_introl D)) as (z & t0 & L & Iw & Nt). unfold rnode_at in E1, F1.
      rewrite L, (id_default_ok T z t0 (ns b p) s u n) in E1; auto.
      rewrite L, (id_default_ok T z t0 (ns' b' p) s' u' n') in F1; auto.
      apply bind_ok in E1. destruct E1 as (a1 & E1 & Q1). apply bind_ok in F1. destruct F1 as (a2 & F1 & Q2).
      assert (a1 = a2) by congruence. subst a2.
      destruct (compose_inj T z u n u' n' a1 U Iu Iu' (Refers_Ident _ _ _ _ _ R1) (Refers_Ident _ _ _ _ _ R1') E1 F1) as [<- <-].
      eauto.
    + apply bind_ok in E1. destruct E1 as (? & _ & Q). congruence.
    + apply bind_ok in F1. destruct F1 as (? & _ & Q). congruence.
    + destruct (K ts (or_intror D)) as (z & t0 & L & Iw & Nt). unfold rnode_at in E1, F1. rewrite L in E1, F1.
      destruct (iid_pair T z t0 (ns b p) (ns' b' p) s s' U PX Iw Nt (N p) (N' p) STx STy) as (a1 & a2 & A1 & A2 & E).
      rewrite A1 in E1. rewrite A2 in F1. apply E. cbn [bind] in E1, F1. congruence.
    + apply bind_ok in E1. destruct E1 as (? & _ & Q). congruence.
    + apply bind_ok in F1. destruct F1 as (? & _ & Q). congruence.
  - clear -E2 F2 KSx KSy IH. revert kv' ks' E2 F2 KSx KSy. generalize 0.
    induction IH as [| c r C _ IHr]; intros i kv [| c' r'] E2 F2 KSx KSy; cbn [canon_kids] in *; auto.
    + injection E2 as <-. apply bind_ok in F2. destruct F2 as (? & _ & F2). apply bind_ok in F2. destruct F2 as (? & _ & F2). discriminate.
    + injection F2 as <-. apply bind_ok in E2. destruct E2 as (? & _ & E2). apply bind_ok in E2. destruct E2 as (? & _ & E2). discriminate.
    + apply bind_ok in E2. destruct E2 as (d & D & E2). apply bind_ok in E2. destruct E2 as (rv & E2 & Q). injection Q as <-.
      apply bind_ok in F2. destruct F2 as (d' & D' & F2). apply bind_ok in F2. destruct F2 as (rv' & F2 & Q). injection Q as -> ->.
      destruct KSx as [X1 X2], KSy as [Y1 Y2].
      assert (TG : xtag c = xtag c').
      { destruct c as [t1 x1 a1 k1], c' as [t2 x2 a2 k2]. rewrite canon_eq in D, D'. cbn [xtag].
        apply bind_ok in D. destruct D as (? & _ & D). apply bind_ok in D. destruct D as (? & _ & D).
        apply bind_ok in D'. destruct D' as (? & _ & D'). apply bind_ok in D'. destruct D' as (? & _ & D'). congruence. }
      split; [| eapply IHr; eauto]. eapply C; eauto; rewrite TG; auto.
Qed.

Lemma prefixes_same : forall T dt ns ns' dev max qs x1 y1 x2 y2 x' y',
  Unambiguous T -> Prefixes T None -> KnownTags T dt -> (forall b p, Nsmap (ns b p) /\ Nsmap (ns' b p)) ->
  wfs dev = true -> sty dev = TRoot -> PlainKeys dev (device_refs T dt ns) ->
  Says T dt (ns true) (ns' true) [] [] x1 x2 -> Says T dt (ns false) (ns' false) [] [] y1 y2 ->
  canon (device_refs T dt ns) true [] [] x1 = Ok x' -> canon (device_refs T dt ns) false [] [] y1 = Ok y' ->
  calculator dev (device_refs T dt ns) max (map (fun q => (q, (x1, y1))) qs) =
  calculator dev (device_refs T dt ns') max (map (fun q => (q, (x2, y2))) qs).
Proof.
  intros T dt ns ns' dev max qs x1 y1 x2 y2 x' y' U PX K N W TR PK S1 S2 C1 C2.
  assert (D1 := says_canon T dt ns ns' true true U PX K (fun p => proj1 (N true p)) (fun p => proj2 (N true p)) _ _ _ _ S1).
  assert (D2 := says_canon T dt ns ns' false false U PX K (fun p => proj1 (N false p)) (fun p => proj2 (N false p)) _ _ _ _ S2).
  assert (PK' : PlainKeys dev (device_refs T dt ns')) by exact PK.
  assert (X : forall R x y, PlainKeys dev R -> canon R true [] [] x = Ok x' -> canon R false [] [] y = Ok y' ->
    calculator dev R max (map (fun q => (q, (x, y))) qs) = map (fun q => cmp q dev x' y') qs).
  { intros R x y P E1 E2. rewrite calculator_right; auto.
    - rewrite map_map. apply map_ext. intro q. cbn [fst snd]. rewrite E1, E2. reflexivity.
    - intros q u v I. apply in_map_iff in I. destruct I as (? & Q & _). injection Q as _ <- <-. eauto.
    - intros q u v q' u' v' I I'. apply in_map_iff in I, I'. destruct I as (? & Q & _), I' as (? & Q' & _).
      injection Q as _ <- <-. injection Q' as _ <- <-. split; apply TextAlike_refl. }
  rewrite !X; auto; congruence.
Qed.
