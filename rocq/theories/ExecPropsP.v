(** Example data and counterexamples for C72. *)
From Coq Require Import String Ascii List Bool Arith Permutation Lia.
From Verif Require Import Base BaseP XmlM TagM MDiffM MDiffSpec MDiffP MDiffPropsP DataSpec CalcM DepictM DepictP DepictPropsP CompatM CompatSpec CompatDevP CompatPropsP ExecM ExecSpec ExecP.
Import ListNotations.
Open Scope string_scope.
Open Scope list_scope.

(** A device with two models; the first one is the module [dp_kids] compiled. *)
Definition ex_nodes : list xml := Eval vm_compute in match compile_nodes dp_ns dp_kids with Ok l => l | Err _ => [] end.
Lemma ex_compiled : compile_nodes dp_ns dp_kids = Ok ex_nodes. Proof. vm_compute. reflexivity. Qed.
Definition ex_m : xml := Elem "m" None [("prefix", "m")] ex_nodes.
Definition ex_d : vdev := VDev 1 [("m", ex_m); ("x", cx_m1); ("e", Elem "e" None [] [])] ["m"; "x"; "e"] None.
Definition ex_ops : list (string * oper) := [("get", Get); ("get_config", GetConfig); ("edit_config", EditConfig); ("lock", OtherOp 0)].
Lemma ex_fine : Fine ex_d. Proof. apply fine_of. vm_compute. reflexivity. Qed.
Lemma ex_one : OneTop ex_d.
Proof. intros n t [E | [E | [E | []]]]; injection E as <- <-; apply nodup_dec; vm_compute; reflexivity. Qed.
Lemma ex_loads : Loads ex_d "m" ex_m. Proof. left. reflexivity. Qed.

(** ** A target given by position *)
Lemma positional_target : forall ops caps d x f t kw, In cap_running caps -> ~ In cap_candidate caps -> kw_get "target" kw = None ->
  exists args' kw', execute ops caps d (inr EditConfig) [ACfg x; f; t] kw = Ok (EditConfig, args', kw') /\ bind_args edit_params args' kw' = Err TypeError /\
  kw_get "target" kw' = Some (AStr "running").
Proof.
  intros ops caps d x f t kw R C T. eexists. eexists. split; [reflexivity |].
  assert (M : forall s, mem String.eqb s caps = true <-> In s caps) by (intro s; apply (mem_In String.eqb String.eqb_eq)).
  assert (mem String.eqb cap_candidate caps = false) as -> by (apply not_true_iff_false; rewrite M; exact C).
  assert (mem String.eqb cap_running caps = true) as -> by (apply M; exact R).
  unfold kw_in. rewrite T. cbn [negb andb]. rewrite dset_get. split; [| reflexivity].
  unfold bind_args, edit_params. cbn [bind_pos bind].
  match goal with |- (if ?b then _ else _) = _ => assert (b = false) as ->; [| reflexivity] end.
  apply not_true_iff_false. intro H. rewrite forallb_forall in H.
  specialize (H ("target", AStr "running")). rewrite andb_true_iff in H. destruct H as (_ & H).
  - clear. induction kw as [| (a, b) l IH]; cbn [dset]; [left; reflexivity |]. destruct (String.eqb_spec "target" a) as [<- |]; [left; reflexivity | right; exact IH].
  - cbn in H. discriminate.
Qed.

(** ** The order of the parameters *)
Lemma order_wrong : exists has b l, edit_request has b = Ok l /\ ~ InOrder l.
Proof.
  exists (fun _ => true), [("config", AStr "c"); ("error_option", AStr "stop-on-error"); ("default_operation", AStr "merge")]. eexists. split; [reflexivity |].
  intro H. cbn in H. inversion H as [| p l _ H1]; subst. inversion H1 as [| p l H2 _]; subst. specialize (H2 _ (or_introl eq_refl)). cbn in H2. lia.
Qed.

(** ** Other formats *)
Lemma format_lost : forall has c s b, s <> "xml" -> s <> "text" -> kw_get "config" b = Some c -> kw_get "format" b = Some (AStr s) ->
  forall l, edit_request has b = Ok l -> forall a, ~ In (PConfig a) l /\ ~ In (PText a) l.
Proof.
  intros has c s b N1 N2 C F l H a. unfold edit_request in H. rewrite C, F in H.
  apply bind_ok in H. destruct H as (e & He & H). apply bind_ok in H. destruct H as (t & Ht & H).
  apply String.eqb_neq in N1, N2. rewrite N1, N2 in H. rewrite !app_nil_r in H.
  match type of H with Ok ?y = _ => assert (l = y) by congruence end. subst l.
  assert (Fe : forall p, In p e -> exists v, p = PError v).
  { destruct (opt_arg (kw_get "error_option" b)) as [v |]; [| assert (e = []) as -> by congruence; intros p []].
    assert (e = [PError v]) as ->.
    { destruct v; try congruence. destruct (String.eqb s0 "rollback-on-error"); [destruct (has _) |]; congruence. }
    intros p [<- | []]. eauto. }
  assert (Ft : forall p, In p t -> exists v, p = PTest v).
  { destruct (opt_arg (kw_get "test_option" b)) as [v |]; [| assert (t = []) as -> by congruence; intros p []]. destruct (has ":validate"); [| exfalso; congruence]. assert (t = [PTest v]) as -> by congruence. intros p [<- | []]. eauto. }
  split; intros [X | X]; try discriminate; rewrite !in_app_iff in X; destruct X as [X | [X | X]];
    try (apply Fe in X; destruct X; discriminate); try (apply Ft in X; destruct X; discriminate);
    (destruct (opt_arg (kw_get "default_operation" b)); [destruct X as [X | []]; discriminate | destruct X]).
Qed.

(** ** What is asked although it is no data *)
Lemma notification_asked : forall ns kids l d n t s r, compile_nodes ns kids = Ok l -> Fine d -> Loads d n t -> xkids t = l ->
  In s kids -> is_kw "notification" s = true -> Names ns s r -> RootOf d [n] ["read-write"; "read-only"] r.
Proof. intros ns kids l d n t s r C F L K I N Nm. apply (proj2 (compiled_asked ns kids l d n t C F L K)). exists s. auto. Qed.

(** A choice at the top of a module *)
Definition ch_leaf : ystmt := YStmt (y0 "leaf" "host" "m") [].
Definition ch_kids : list ystmt := [YStmt (y0 "choice" "how" "m") [YStmt (y0 "case" "one" "m") [ch_leaf]]].
Definition ch_nodes : list xml := Eval vm_compute in match compile_nodes dp_ns ch_kids with Ok l => l | Err _ => [] end.
Lemma ch_compiled : compile_nodes dp_ns ch_kids = Ok ch_nodes. Proof. vm_compute. reflexivity. Qed.
Definition ch_m : xml := Elem "m" None [("prefix", "m")] ch_nodes.
Definition ch_d : vdev := VDev 1 [("m", ch_m)] ["m"] None.
Lemma ch_fine : Fine ch_d. Proof. apply fine_of. vm_compute. reflexivity. Qed.
Lemma ch_one : OneTop ch_d. Proof. intros n t [E | []]; injection E as <- <-; apply nodup_dec; vm_compute; reflexivity. Qed.
Lemma choice_asked : exists ns kids l d n t kw out roots,
  compile_nodes ns kids = Ok l /\ Fine d /\ OneTop d /\ Loads d n t /\ xkids t = l /\ Given kw [n] /\
  execute [] [] d (inr GetConfig) [] kw = Ok (GetConfig, [AStr "running"], out) /\ kw_get "filter" out = Some (AFilter roots) /\
  (exists k s, In k l /\ Through (read_node k) s /\ stag s = "{urn:m}host") /\ ~ In "{urn:m}host" roots /\
  In "{urn:m}how" roots /\ forall k s, In k l -> Through (read_node k) s -> stag s <> "{urn:m}how".
Proof.
  exists dp_ns, ch_kids, ch_nodes, ch_d, "m", ch_m, [("models", AStr "m")]. eexists. exists ["{urn:m}how"].
  split; [exact ch_compiled |]. split; [exact ch_fine |]. split; [exact ch_one |]. split; [left; reflexivity |]. split; [reflexivity |].
  split; [right; exists "m"; split; reflexivity |]. split; [vm_compute; reflexivity |]. split; [reflexivity |].
  split; [| split; [intros [X | []]; discriminate |]; split; [left; reflexivity |]].
  - eexists. eexists. split; [left; reflexivity |]. split; [| shelve].
    eapply th_choice; [vm_compute; reflexivity | left; reflexivity |]. eapply th_case; [vm_compute; reflexivity | left; reflexivity |].
    apply th_here; vm_compute; discriminate. Unshelve. vm_compute. reflexivity.
  - intros k s [<- | []] H. vm_compute in H. inversion H as [s1 N1 N2 | s1 k1 c1 E1 I1 T1 | s1 k1 c1 E1 I1 T1]; subst; [exfalso; apply N1; reflexivity | | discriminate].
    clear H E1. destruct I1 as [<- | []]. inversion T1 as [s2 N1 N2 | s2 k2 c2 E2 I2 T2 | s2 k2 c2 E2 I2 T2]; subst; [exfalso; apply N2; reflexivity | discriminate |].
    clear T1 E2. destruct I2 as [<- | []]. inversion T2 as [s3 N1 N2 | s3 k3 c3 E3 I3 T3 | s3 k3 c3 E3 I3 T3]; subst; try discriminate.
Qed.

(** ** A request *)
Definition ex_kw : kwargs := [("default_operation", AStr "merge"); ("test_option", AStr "set")].
Lemma ex_options : Options ex_kw. Proof. intros k [<- | [<- | []]]; cbn; auto 10. Qed.
