(** Example data and existential witnesses for PropsDevice. *)
From Coq Require Import String List Bool.
From Verif Require Import Base BaseP XmlM CalcM DataSpec DataP TagM DeviceM DeviceSpec DeviceP.
Import ListNotations.
Open Scope string_scope.
Open Scope list_scope.

Definition dnode (t : string) (ty : stype) (ks : list snode) : snode :=
  SNode (SInfo t ty false false None false [] "" "") ks.
Definition d_leaf : snode := dnode "{urn:a}mtu" TLeaf [].
Definition d_leaf2 : snode := dnode "{urn:a}mtu" TLeafList [].
Definition d_box (l : snode) : snode := dnode "{urn:a}box" TContainer [dnode "{urn:a}alt" TChoice [dnode "{urn:a}one" TCase [l]]].
Definition d_mod (n : string) (l : snode) : model := Model n (dnode n TOther [d_box l]).
Definition d_other : model := Model "b" (dnode "b" TOther [dnode "{urn:b}top" TContainer []]).
Definition d_tab (p : string) : table := [Entry "a" p "urn:a"].

(** Load, look up, reload with another definition, look up. *)
Definition d_hist : list dcall :=
  [DScan (d_tab "p"); DLoad (d_mod "a" d_leaf); DLookup ["{urn:a}box"; "{urn:a}mtu"];
   DLoad d_other; DLookup ["{urn:b}top"]; DLoad (d_mod "a" d_leaf2)].

Lemma d_owned : Owned d_hist.
Proof.
  intros m m' r A B (k & I & E) (k' & I' & E').
  simpl in A, B.
  repeat match goal with H : _ \/ _ |- _ => destruct H | H : False |- _ => destruct H end;
    try discriminate;
    repeat match goal with H : DLoad _ = DLoad _ |- _ => injection H as <- end; try reflexivity;
    simpl in I, I'; destruct I as [<- | []]; destruct I' as [<- | []]; vm_compute in E, E'; congruence.
Qed.

Lemma d_after : fst (get_schema_node ["{urn:a}box"; "{urn:a}mtu"] (drun d_hist)) = Ok d_leaf2.
Proof. vm_compute. reflexivity. Qed.

Lemma Data_inv : forall ms path s, Data ms path s ->
  (exists m r, path = [r] /\ ms m /\ Defines (m_tree m) r s) \/
  (exists p t q, path = p ++ [t] /\ Data ms p q /\ Defines q t s).
Proof. intros ms path s H. destruct H as [m r s' C D | p t q s' HD D]; [left; eauto | right; eauto 8]. Qed.
Lemma Data_one : forall ms a s, Data ms [a] s -> exists m, ms m /\ Defines (m_tree m) a s.
Proof.
  intros ms a s H. apply Data_inv in H. destruct H as [(m & r & E & C & D) | (p & t & q & E & HD & _)].
  - injection E as ->. eauto.
  - change [a] with ([] ++ [a]) in E. apply app_inj_tail in E. destruct E as [<- _].
    exfalso. apply (Data_nonempty _ _ _ HD). reflexivity.
Qed.
Lemma Data_two : forall ms a b s, Data ms [a; b] s -> exists q, Data ms [a] q /\ Defines q b s.
Proof.
  intros ms a b s H. apply Data_inv in H. destruct H as [(m & r & E & _) | (p & t & q & E & HD & D)]; [discriminate |].
  change [a; b] with ([a] ++ [b]) in E. apply app_inj_tail in E. destruct E as [<- <-]. eauto.
Qed.

Lemma Defines_in : forall s t cs, Defines s t cs -> In cs (map ce_node (flat s)).
Proof. intros s t cs H. apply Defines_flat in H. destruct H as (e & I & <- & _). apply in_map. exact I. Qed.

(** Two models with the same root. *)
Lemma shared_root : exists l path s,
  fst (get_schema_node path (drun l)) = Ok s /\ ~ Data (Current l) path s.
Proof.
  exists [DLoad (d_mod "a" d_leaf); DLookup ["{urn:a}box"; "{urn:a}mtu"]; DLoad (d_mod "b" d_leaf2);
          DLoad (Model "a" (dnode "a" TOther []))], ["{urn:a}box"; "{urn:a}mtu"], d_leaf.
  split; [vm_compute; reflexivity |].
  intro H. apply Data_two in H. destruct H as (q & H & Df). apply Data_one in H. destruct H as (m & C & D).
  unfold Current in C.
    destruct (last_load_In _ _ _ C) as [I _]. simpl in I.
    destruct I as [I | [I | [I | [I | []]]]]; try discriminate; injection I as I; subst m; simpl in C; try discriminate.
    + apply Defines_in in D. vm_compute in D. destruct D as [<- | []].
      apply Defines_in in Df. vm_compute in Df. destruct Df as [Df | []]. discriminate Df.
    + apply Defines_in in D. destruct D.
Qed.

(** A data node in a top level choice. *)
Definition d_choice : model :=
  Model "c" (dnode "c" TOther [dnode "{urn:c}alt" TChoice [dnode "{urn:c}one" TCase [dnode "{urn:c}x" TLeaf []]]]).
Lemma d_choice_data : forall l, Current l d_choice -> Data (Current l) ["{urn:c}x"] (dnode "{urn:c}x" TLeaf []).
Proof.
  intros l C. apply (data_root _ d_choice); auto. split; auto. eexists. split; [left; reflexivity |].
  eapply th_choice; [reflexivity | left; reflexivity |].
  eapply th_case; [reflexivity | left; reflexivity |]. apply th_here; discriminate.
Qed.
Lemma choice_owned : Owned [DScan []; DLoad d_choice].
Proof.
  intros m m' r [A | [A | []]] [B | [B | []]] _ _; try discriminate. congruence.
Qed.
Lemma choice_missing : exists l path s, Owned l /\ Data (Current l) path s /\
  (forall s', Data (Current l) path s' -> s' = s) /\
  fst (get_schema_node path (drun l)) = Err ModelMissing.
Proof.
  exists [DScan []; DLoad d_choice], ["{urn:c}x"], (dnode "{urn:c}x" TLeaf []).
  split; [exact choice_owned |]. split; [apply d_choice_data; reflexivity |]. split; [| vm_compute; reflexivity].
  intros s' H. apply Data_one in H. destruct H as (m & C & D).
  unfold Current in C. destruct (last_load_In _ _ _ C) as [I _].
    destruct I as [I | [I | []]]; [discriminate |]. injection I as <-.
    apply Defines_in in D. vm_compute in D. destruct D as [<- | []]. reflexivity.
Qed.

(** Rescans. *)
Lemma stale_table : exists l T T', T <> T' /\ fst (namespaces (drun (l ++ [DScan T]))) = Ok T'.
Proof. exists [DScan (d_tab "p"); DNamespaces], (d_tab "q"), (d_tab "p"). split; [discriminate | reflexivity]. Qed.

Definition d_quiet : list dcall :=
  [DNamespaces; DScan (d_tab "p"); DLoad (d_mod "a" d_leaf); DLookup ["{urn:a}box"; "{urn:a}mtu"]].
Lemma d_quiet_unread : Unread d_quiet.
Proof.
  intros p c q E M (T & I). unfold d_quiet in E.
  destruct p as [| c1 p]; [destruct I |]. injection E as <- E.
  destruct p as [| c2 p]; [injection E as <- E; destruct M |]. injection E as <- E.
  destruct p as [| c3 p]; [injection E as <- E; destruct M |]. injection E as <- E.
  destruct p as [| c4 p].
  - injection E as <- E. apply M. exists (d_mod "a" d_leaf), "{urn:a}box", ["{urn:a}mtu"].
    split; [reflexivity |]. split; [reflexivity |]. eexists. split; [left; reflexivity |]. reflexivity.
  - injection E as <- E. destruct p; discriminate.
Qed.

(** Distinct names for the example history. *)
Lemma d_hist_current : forall m, Current d_hist m -> m = d_mod "a" d_leaf2 \/ m = d_other.
Proof.
  intros m C. unfold Current in C. destruct (last_load_In _ _ _ C) as [I _]. simpl in I.
  destruct I as [I | [I | [I | [I | [I | [I | []]]]]]]; try discriminate; injection I as I; subst m; auto.
  simpl in C. left. congruence.
Qed.
Lemma d_hist_data : forall p s, Data (Current d_hist) p s ->
  s = d_leaf2 \/ s = d_box d_leaf2 \/ s = dnode "{urn:b}top" TContainer [].
Proof.
  intros p s H. induction H as [m r s C D | p t q s HD IH Df].
  - apply d_hist_current in C. apply Defines_in in D. destruct C as [-> | ->]; vm_compute in D; destruct D as [<- | []]; auto.
  - apply Defines_in in Df. destruct IH as [-> | [-> | ->]]; vm_compute in Df; [destruct Df | destruct Df as [<- | []]; auto | destruct Df].
Qed.
Lemma d_hist_distinct : DistinctNames (Current d_hist).
Proof.
  split.
  - intros m C. apply d_hist_current in C. destruct C as [-> | ->]; vm_compute; repeat constructor; simpl; tauto.
  - intros p s D. apply d_hist_data in D. destruct D as [-> | [-> | ->]]; vm_compute; repeat constructor; simpl; tauto.
Qed.
Lemma d_hist_nochoice : forall m k, Current d_hist m -> In k (skids (m_tree m)) -> sty k <> TChoice /\ sty k <> TCase.
Proof.
  intros m k C I. apply d_hist_current in C. destruct C as [-> | ->]; destruct I as [<- | []]; split; discriminate.
Qed.
