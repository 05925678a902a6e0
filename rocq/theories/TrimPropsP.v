(** Consequences of the specification of trimming. *)
From Coq Require Import String Ascii List Bool Arith ZArith Lia Permutation.
From Verif Require Import Base BaseP XmlM CalcM CalcP NetconfM ConfigM ListP DataSpec DataP DeltaSpec ConfigSpec
  NameP TrimSpec TrimP ConfigP CompatP ExampleM.
Import ListNotations.
Open Scope string_scope.
Open Scope list_scope.

Lemma config_of_config : forall rd s x y, config_new false rd s x = Ok y -> config_new false rd s y = Ok y.
Proof.
  intros rd s x y H. unfold config_new in *. apply bind_ok in H. destruct H as (e & T & H). inversion H; subst e.
  assert (R : retrieve y = y).
  { destruct (trim_parts _ _ _ T) as (P1 & P2 & P3). rewrite retrieve_config by (rewrite P1; reflexivity).
    destruct y as [t tx a k]. simpl in *. subst. reflexivity. }
  rewrite R, (trim_idem _ _ _ T). reflexivity.
Qed.

Lemma kept_or_default : forall p s x y s' n, wfs s = true -> keys_plain s = true -> valid s x = true -> trim s x = Ok y ->
  At s x p s' n -> KeptAt s x p s' n \/
  exists q s1 n1 c cs u r, p = q ++ u :: r /\ At s x q s1 n1 /\ In c (xkids n1) /\ Defines s1 (xtag c) cs /\ Ident cs c u /\
    OnlyDefault cs n1 c.
Proof.
  induction p as [| u p IH]; intros s x y s' n W KP V T HA.
  - inversion HA; subst. left. constructor.
  - inversion HA as [| ? ? c cs ? ? ? ? A1 A2 A3 A4]; subst.
    destruct (trim_forth s x y c T A1) as (cs' & c' & Hs & Tc & Dc).
    assert (cs = cs') by (eapply Defines_schema_child; eauto). subst cs'.
    destruct (trim_drops cs (xkids x) c') eqn:ED.
    + right. exists [], s, x, c, cs, u, p. split; auto. split; [constructor |]. split; auto. split; auto. split; auto.
      apply (drops_iff c s x cs c' Hs Tc). auto.
    + destruct (valid_inv s x V) as (_ & _ & Kx). destruct (Kx c A1) as (cs2 & Hs2 & Vc).
      assert (cs2 = cs) by congruence. subst cs2.
      destruct (IH cs c c' s' n (wfs_child s _ cs W Hs) (keys_plain_child s _ cs KP Hs) Vc Tc A4) as [K | (q & s1 & n1 & c1 & cs1 & u1 & r & E & B1 & B2)].
      * left. apply (ka_down s x c cs u p s' n); auto. intro O. apply (drops_iff c s x cs c' Hs Tc) in O. congruence.
      * right. exists (u :: q), s1, n1, c1, cs1, u1, r. split; [simpl; congruence |]. split; auto.
        apply (at_down s x c cs); auto.
Qed.

Theorem trim_removed : forall s x y p v, wfs s = true -> keys_plain s = true -> valid s x = true -> trim s x = Ok y ->
  Holds s x p v -> ~ Holds s y p v ->
  exists q s' n c cs u r, p = q ++ u :: r /\ At s x q s' n /\ In c (xkids n) /\ Defines s' (xtag c) cs /\ Ident cs c u /\
    OnlyDefault cs n c.
Proof.
  intros s x y p v W KP V T (s' & n & A & E) N.
  destruct (kept_or_default p s x y s' n W KP V T A) as [K | K]; auto. exfalso. apply N.
  apply (trim_spec s x y W KP V T). exists s', n. auto.
Qed.

Lemma KeptAt_snoc : forall s x p s' n, KeptAt s x p s' n -> forall c cs u, In c (xkids n) -> Defines s' (xtag c) cs -> Ident cs c u ->
  ~ OnlyDefault cs n c -> KeptAt s x (p ++ [u]) cs c.
Proof.
  intros s x p s' n H. induction H as [s x | s x c cs u p s' n A1 A2 A3 A4 A5 IH]; intros c0 cs0 u0 B1 B2 B3 B4.
  - simpl. apply (ka_down s x c0 cs0); auto. constructor.
  - simpl. apply (ka_down s x c cs); auto.
Qed.

Lemma At_split : forall s x q p s' n, At s x (p ++ q) s' n -> exists s1 n1, At s x p s1 n1 /\ At s1 n1 q s' n.
Proof.
  intros s x q p. revert s x. induction p as [| u p IH]; intros s x s' n H; simpl in H.
  - exists s, x. split; auto. constructor.
  - inversion H as [| ? ? c cs ? ? ? ? A1 A2 A3 A4]; subst. destruct (IH cs c s' n A4) as (s1 & n1 & B1 & B2).
    exists s1, n1. split; auto. apply (at_down s x c cs); auto.
Qed.

Theorem trim_keys_stay : forall s x y p s' n k v, wfs s = true -> keys_plain s = true -> valid s x = true -> trim s x = Ok y ->
  At s y p s' n -> sty s' = TList -> In k (s_keys (si s')) ->
  Holds s x (p ++ [(k, KNone)]) v -> Holds s y (p ++ [(k, KNone)]) v.
Proof.
  intros s x y p s' n k v W KP V T A L K (s2 & n2 & B & E).
  destruct (trim_At p s x y s' n W KP V T A) as (n0 & K1 & _). assert (A0 := KeptAt_At _ _ _ _ _ K1).
  destruct (At_wfs p s x s' n0 A0 V W KP) as [W' KP'].
  apply At_split in B. destruct B as (s1 & n1 & B1 & B2). destruct (At_fun p s x s1 n1 s' n0 V B1 A0) as [E1 E2]. subst s1 n1.
  inversion B2 as [| ? ? c cs ? ? ? ? C1 C2 C3 C4]; subst. inversion C4; subst.
  apply (trim_spec s x y W KP V T). exists s2, n2. split; auto.
  apply (KeptAt_snoc s x p s' n0 K1 n2 s2 (k, KNone)); auto.
  assert (TG : xtag n2 = k) by (inversion C3; auto). subst k.
  destruct (wfs_keys s' W' L) as (_ & WK). destruct (WK _ K) as (_ & kc & D1 & D2 & D3).
  rewrite (Defines_schema_child s' _ kc s2 D1 C2). 
  assert (DF := keys_plain_default kc (keys_plain_child s' _ kc KP' D1) D3).
  intro O. inversion O; congruence.
Qed.

(** RFC 7950 allows a key leaf to have a default. *)
Definition ex_key_schema : snode :=
  s_root [ s_list "peer" false ["id"] [ SNode (SInfo "id" TLeaf false false (Some "1") true [] "" "read-write") []; s_leaf "as" ] ].
Definition ex_key_data : xml := e_config [ e_node "peer" [ e_leaf "id" "1"; e_leaf "as" "9" ] ].

Lemma key_default_refuted : exists s x y p s' n k v,
  wfs s = true /\ valid s x = true /\ trim s x = Ok y /\
  At s x p s' n /\ sty s' = TList /\ In k (s_keys (si s')) /\ Holds s x (p ++ [(k, KNone)]) v /\
  (exists c, xkids y = [c] /\ find_kid k (xkids c) = None /\ xkids c <> []).
Proof.
  exists ex_key_schema, ex_key_data. eexists. exists [("peer", KTup [Some "1"])]. eexists. eexists. exists "id", (Some "1").
  split; [vm_compute; reflexivity |]. split; [vm_compute; reflexivity |]. split; [vm_compute; reflexivity |].
  split; [apply get_at_iff; vm_compute; reflexivity |]. split; [reflexivity |]. split; [left; reflexivity |].
  split; [apply get_holds; vm_compute; reflexivity |]. eexists. split; [reflexivity |]. split; [reflexivity | discriminate].
Qed.
