(** Example data and existential witnesses for PropsMDiff. *)
From Coq Require Import String List Bool Permutation.
From Verif Require Import Base BaseP XmlM PruneP MDiffM MDiffSpec MDiffP.
Import ListNotations.
Open Scope string_scope.
Open Scope list_scope.

(** All nodes of a tree with their paths. *)
Fixpoint nodes (x : xml) : list (list string * xml) :=
  let '(Elem _ _ _ ks) := x in
  flat_map (fun c => ([xtag c], c) :: map (fun e => (xtag c :: fst e, snd e)) (nodes c)) ks.
Lemma nodes_At : forall x p y, At x p y -> In (p, y) (nodes x).
Proof.
  intro x. induction x as [x IH] using xml_ind'. intros p y H. apply At_inv in H. destruct H as (c & I & H).
  destruct x as [t tx a ks]. cbn [nodes xkids] in *. apply in_flat_map. exists c. split; auto.
  destruct H as [[-> ->] | (p' & -> & H)]; [left; reflexivity |]. right.
  apply in_map_iff. exists (p', y). split; auto.
Qed.
Lemma At_nodes : forall x p y, In (p, y) (nodes x) -> At x p y.
Proof.
  intro x. induction x as [x IH] using xml_ind'. intros p y H. destruct x as [t tx a ks]. cbn [nodes] in H.
  apply in_flat_map in H. destruct H as (c & I & [H | H]).
  - injection H as <- <-. apply at_kid. exact I.
  - apply in_map_iff in H. destruct H as ([p' z] & E & H). injection E as <- <-. apply at_down; [exact I |].
    apply IH; auto.
Qed.
Lemma Exists_nodes : forall x p, Exists x p <-> In p (map fst (nodes x)).
Proof.
  intros x p. split.
  - intros (y & A). apply nodes_At in A. apply in_map_iff. exists (p, y). auto.
  - intro I. apply in_map_iff in I. destruct I as ([p' y] & <- & I). exists y. apply At_nodes. exact I.
Qed.
Lemma all_nodes : forall (P : list string -> xml -> Prop) x, Forall (fun e => P (fst e) (snd e)) (nodes x) ->
  forall p y, At x p y -> P p y.
Proof. intros P x F p y A. rewrite Forall_forall in F. apply (F (p, y)). apply nodes_At. exact A. Qed.

Definition el (t ty : string) (a : list (string * string)) (ks : list xml) : xml := Elem t None (("type", ty) :: a) ks.
Definition md_old : xml :=
  Elem "m" None []
    [el "{u}box" "container" [] [el "{u}mtu" "leaf" [("datatype", "int8")] []; el "{u}old" "leaf" [] []];
     el "{u}gone" "container" [] [el "{u}x" "leaf" [] []]].
Definition md_new : xml :=
  Elem "m" None []
    [el "{u}more" "list" [("key", "k")] [el "{u}k" "leaf" [] []];
     el "{u}box" "container" [] [el "{u}mtu" "leaf" [("datatype", "int16")] []; el "{u}new" "leaf" [] []]].
Definition md_diff : xml := match model_diff false md_old md_new with Ok d => d | Err _ => md_old end.
Lemma md_ok : model_diff false md_old md_new = Ok md_diff.
Proof. vm_compute. reflexivity. Qed.

(** Reordered siblings and attributes. *)
Definition md_turned : xml :=
  Elem "m" None []
    [el "{u}gone" "container" [] [el "{u}x" "leaf" [] []];
     el "{u}box" "container" [] [el "{u}old" "leaf" [] []; Elem "{u}mtu" None [("datatype", "int8"); ("type", "leaf")] []]].
Lemma md_turned_ok : exists d, model_diff false md_old md_turned = Ok d /\ nonempty d = false.
Proof. eexists. split; vm_compute; reflexivity. Qed.

Ltac nodes_case := repeat first [apply Forall_nil | apply Forall_cons]; cbn; 
  first [ left; split; [first [left; reflexivity | right; reflexivity] | reflexivity]
        | right; split; [first [left; reflexivity | right; left; reflexivity | right; right; left; reflexivity | right; right; right; reflexivity] | discriminate] ].
Lemma data_nodes : forall t, Forall (fun e => (LeafType (snd e) /\ xkids (snd e) = []) \/ (InnerType (snd e) /\ xkids (snd e) <> [])) (nodes t) -> DataOnly t.
Proof. intros t F p x A. exact (all_nodes (fun _ x => (LeafType x /\ xkids x = []) \/ (InnerType x /\ xkids x <> [])) t F p x A). Qed.
Lemma md_old_data : DataOnly md_old.
Proof. apply data_nodes. nodes_case. Qed.
Lemma md_new_data : DataOnly md_new.
Proof. apply data_nodes. nodes_case. Qed.
Fixpoint nodupb (l : list string) : bool := match l with [] => true | a :: r => negb (mem String.eqb a r) && nodupb r end.
Lemma mem_in : forall a l, In a l -> mem String.eqb a l = true.
Proof. intros a l. induction l as [| b r IH]; simpl; [tauto |]. intros [-> | H]; [rewrite String.eqb_refl; reflexivity |]. rewrite IH; auto. apply orb_true_r. Qed.
Lemma nodup_dec : forall l : list string, nodupb l = true -> NoDup l.
Proof.
  intro l. induction l as [| a r IH]; simpl; intro H; constructor; apply andb_true_iff in H; destruct H as [H1 H2]; auto.
  intro I. apply mem_in in I. rewrite I in H1. discriminate.
Qed.
Lemma distinct_nodes : forall x, forallb (fun e => nodupb (map xtag (xkids (snd e)))) (([], x) :: nodes x) = true ->
  DistinctTags x.
Proof.
  intros x H. rewrite forallb_forall in H. split.
  - apply nodup_dec. apply (H ([], x)). left. reflexivity.
  - intros p y A. apply nodup_dec. apply (H (p, y)). right. apply nodes_At. exact A.
Qed.
Lemma md_old_distinct : DistinctTags md_old.
Proof. apply distinct_nodes. vm_compute. reflexivity. Qed.
Lemma md_new_distinct : DistinctTags md_new.
Proof. apply distinct_nodes. vm_compute. reflexivity. Qed.
Lemma typed_nodes : forall x, forallb (fun e => match get_attr "type" (snd e) with Some _ => true | None => false end) (nodes x) = true -> Typed x.
Proof.
  intros x H p y A. rewrite forallb_forall in H. specialize (H (p, y) (nodes_At _ _ _ A)). cbn [snd] in H.
  destruct (get_attr "type" y); discriminate.
Qed.
Lemma md_new_typed : Typed md_new.
Proof. apply typed_nodes. vm_compute. reflexivity. Qed.

Lemma keeps_nodes : forall x y, forallb (fun e => forallb (fun f =>
    negb (list_eqb String.eqb (fst e) (fst f)) || negb (match get_attr "type" (snd f) with Some t => is_leaf_type t | None => false end)
    || match xkids (snd e) with [] => true | _ => false end) (nodes y)) (nodes x) = true -> KeepsKind x y.
Proof.
  intros x y H p a b A B L. rewrite forallb_forall in H. specialize (H (p, a) (nodes_At _ _ _ A)).
  rewrite forallb_forall in H. specialize (H (p, b) (nodes_At _ _ _ B)). cbn [fst snd] in H.
  rewrite !orb_true_iff in H. destruct H as [[H | H] | H].
  - exfalso. apply negb_true_iff in H. assert (X : list_eqb String.eqb p p = true).
    { apply list_eqb_ok; auto. intros u v. apply String.eqb_eq. }
    congruence.
  - exfalso. destruct L as [L | L]; rewrite L in H; discriminate.
  - destruct (xkids a); [reflexivity | discriminate].
Qed.
Lemma md_keeps : KeepsKind md_old md_new.
Proof. apply keeps_nodes. vm_compute. reflexivity. Qed.

Lemma md_added : Added md_old md_new ["{u}box"; "{u}new"].
Proof. split; [| intro X]; [apply Exists_nodes | apply Exists_nodes in X]; vm_compute in *; intuition discriminate. Qed.
Lemma md_deleted : Deleted md_old md_new ["{u}gone"; "{u}x"].
Proof. split; [| intro X]; [apply Exists_nodes | apply Exists_nodes in X]; vm_compute in *; intuition discriminate. Qed.
Lemma md_modified : Modified md_old md_new ["{u}box"; "{u}mtu"].
Proof.
  exists (el "{u}mtu" "leaf" [("datatype", "int8")] []), (el "{u}mtu" "leaf" [("datatype", "int16")] []).
  split; [apply At_nodes; vm_compute; auto |]. split; [apply At_nodes; vm_compute; auto 8 |]. split; [left; reflexivity |].
  intro S. apply Same_inv in S. destruct S as (_ & _ & A & _). specialize (A "datatype"). discriminate.
Qed.

(** An empty container is added: nothing is reported as added. *)
Lemma empty_container : exists t1 t2 d p, model_diff false t1 t2 = Ok d /\ Added t1 t2 p /\ part "added" d = None.
Proof.
  exists (Elem "m" None [] []), (Elem "m" None [] [el "{u}box" "container" [("presence", "true")] []]).
  eexists. exists ["{u}box"]. split; [vm_compute; reflexivity |]. split; [| reflexivity].
  split; [| intro X]; [apply Exists_nodes | apply Exists_nodes in X]; vm_compute in *; intuition discriminate.
Qed.

(** A leaf below the input of an rpc is modified: [added] and [deleted] show it. *)
Lemma rpc_shown : exists t1 t2 d p, model_diff false t1 t2 = Ok d /\
  (forall q, ~ Added t1 t2 q) /\ (forall q, ~ Deleted t1 t2 q) /\
  Shown (part "added" d) p /\ Shown (part "deleted" d) p.
Proof.
  exists (Elem "m" None [] [el "{u}go" "rpc" [] [el "{u}input" "input" [] [el "{u}a" "leaf" [("datatype", "int8")] []]]]).
  exists (Elem "m" None [] [el "{u}go" "rpc" [] [el "{u}input" "input" [] [el "{u}a" "leaf" [("datatype", "int16")] []]]]).
  eexists. exists ["{u}go"]. split; [vm_compute; reflexivity |].
  split. { intros q [A B]. apply B. apply Exists_nodes. apply Exists_nodes in A. vm_compute in A. vm_compute. exact A. }
  split. { intros q [A B]. apply B. apply Exists_nodes. apply Exists_nodes in A. vm_compute in A. vm_compute. exact A. }
  split; (eexists; split; [vm_compute; reflexivity | apply Exists_nodes; vm_compute; auto]).
Qed.

(** An attribute of a container changes: the diff is not empty, its three parts are. *)
Lemma attribute_lost : exists t1 t2 d, model_diff false t1 t2 = Ok d /\ nonempty d = true /\
  part "added" d = None /\ part "deleted" d = None /\ part "modified" d = None.
Proof.
  exists (Elem "m" None [] [el "{u}box" "container" [("presence", "true")] [el "{u}a" "leaf" [] []]]).
  exists (Elem "m" None [] [el "{u}box" "container" [] [el "{u}a" "leaf" [] []]]).
  eexists. split; [vm_compute; reflexivity |]. split; [reflexivity |]. split; [reflexivity |]. split; reflexivity.
Qed.

(** A container becomes a leaf: its children are not reported as deleted. *)
Lemma became_leaf : exists t1 t2 d p, model_diff false t1 t2 = Ok d /\ DataOnly t1 /\ DataOnly t2 /\
  Deleted t1 t2 p /\ part "deleted" d = None.
Proof.
  exists (Elem "m" None [] [el "{u}box" "container" [] [el "{u}a" "leaf" [] []]]).
  exists (Elem "m" None [] [el "{u}box" "leaf" [] []]).
  eexists. exists ["{u}box"; "{u}a"]. split; [vm_compute; reflexivity |].
  split. { apply data_nodes. nodes_case. }
  split. { apply data_nodes. nodes_case. }
  split; [| reflexivity].
  split; [| intro X]; [apply Exists_nodes | apply Exists_nodes in X]; vm_compute in *; intuition discriminate.
Qed.
