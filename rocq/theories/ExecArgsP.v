(** Proofs about what [execute] passes on and what the edit-config request carries. *)
From Coq Require Import String List Bool.
From Verif Require Import Base XmlM TagM MDiffM CompatM CompatSpec ExecM ExecSpec ExecP.
Import ListNotations.
Open Scope string_scope.
Open Scope list_scope.

Lemma get_del : forall k j kw, k <> j -> kw_get k (kw_del j kw) = kw_get k kw.
Proof.
  intros k j kw N. unfold kw_get, kw_del. induction kw as [| [q a] kw IH]; [reflexivity |].
  cbn [filter fst]. destruct (String.eqb_spec q j) as [-> | Q]; cbn [negb assoc].
  - rewrite IH. destruct (String.eqb_spec k j); [contradiction | reflexivity].
  - destruct (String.eqb k q); [reflexivity | exact IH].
Qed.
Lemma get_set : forall k j v (kw : kwargs), k <> j -> kw_get k (dset String.eqb j v kw) = kw_get k kw.
Proof.
  intros k j v kw N. unfold kw_get. induction kw as [| [q a] kw IH]; cbn [dset assoc].
  - destruct (String.eqb_spec k j); [contradiction | reflexivity].
  - destruct (String.eqb_spec j q) as [-> | Q]; cbn [assoc].
    + destruct (String.eqb_spec k q); [contradiction | reflexivity].
    + destruct (String.eqb k q); [reflexivity | exact IH].
Qed.
Lemma pop_keeps : forall kw o kw', pop_models kw = Ok (o, kw') -> forall k, k <> "models" -> kw_get k kw' = kw_get k kw.
Proof.
  intros kw o kw' E k N. unfold pop_models in E.
  destruct (kw_get "models" kw) as [[] |]; try discriminate; injection E as _ <-; apply get_del; exact N.
Qed.
Lemma filter_keeps : forall d accs kw kw', models_filter d accs kw = Ok kw' ->
  forall k, k <> "models" -> k <> "filter" -> kw_get k kw' = kw_get k kw.
Proof.
  intros d accs kw kw' E k N1 N2. unfold models_filter in E.
  destruct (pop_models kw) as [[o k2] |] eqn:P; cbn [bind] in E; [| discriminate].
  destruct o as [ms |].
  - destruct (check_loaded d ms) as [[] |]; cbn [bind] in E; [| discriminate].
    destruct (pick_roots d ms accs) as [[| r rs] |]; cbn [bind] in E; try discriminate.
    destruct (build_filter d ms (r :: rs)) as [f |]; cbn [bind] in E; [| discriminate].
    injection E as <-. rewrite get_set by exact N2. exact (pop_keeps _ _ _ P k N1).
  - injection E as <-. exact (pop_keeps _ _ _ P k N1).
Qed.

Theorem execute_passes : forall ops caps d o args kw c args' kw', execute ops caps d o args kw = Ok (c, args', kw') ->
  (o = inr c \/ exists s, o = inl s /\ assoc String.eqb s ops = Some c) /\
  Unchanged ["models"; "filter"; "target"] kw kw' /\
  (c <> EditConfig -> kw_get "target" kw' = kw_get "target" kw) /\
  (c <> Get -> c <> GetConfig -> kw_get "models" kw' = kw_get "models" kw /\ kw_get "filter" kw' = kw_get "filter" kw) /\
  tl args' = tl args /\ (args <> [] -> c <> EditConfig -> args' = args) /\
  (c <> Get -> c <> GetConfig -> c <> EditConfig -> args' = args /\ kw' = kw).
Proof.
  intros ops caps d o args kw c args' kw' E. unfold execute in E.
  destruct (find_oper ops o) as [cls |] eqn:F; cbn [bind] in E; [| discriminate].
  assert (O : o = inr cls \/ exists s, o = inl s /\ assoc String.eqb s ops = Some cls).
  { destruct o as [s | c0]; cbn in F.
    - right. exists s. destruct (assoc String.eqb s ops); [injection F as ->; auto | discriminate].
    - left. congruence. }
  assert (M : forall k, ~ In k ["models"; "filter"; "target"] -> k <> "models" /\ k <> "filter" /\ k <> "target").
  { intros k N. cbn in N. repeat split; intros ->; tauto. }
  destruct cls.
  - destruct (models_filter d _ kw) as [k2 |] eqn:Mf; cbn [bind] in E; [| discriminate]. injection E as <- <- <-.
    split; [exact O |]. split. { intros k N. destruct (M k N) as (A & B & _). exact (filter_keeps _ _ _ _ Mf k A B). }
    split. { intros _. apply (filter_keeps _ _ _ _ Mf); discriminate. }
    split; [intros N; contradiction |]. split; [reflexivity |]. split; [reflexivity |]. intros N; contradiction.
  - destruct (models_filter d _ kw) as [k2 |] eqn:Mf; cbn [bind] in E; [| discriminate]. injection E as <- <- <-.
    split; [exact O |]. split. { intros k N. destruct (M k N) as (A & B & _). exact (filter_keeps _ _ _ _ Mf k A B). }
    split. { intros _. apply (filter_keeps _ _ _ _ Mf); discriminate. }
    split; [intros _ N; contradiction |]. split. { destruct args; [destruct (kw_in "source" kw) |]; reflexivity. }
    split. { intros N _. destruct args; [contradiction | reflexivity]. } intros _ N; contradiction.
  - injection E as <- <- <-. split; [exact O |].
    assert (K : forall k, k <> "target" -> kw_get k (if negb (kw_in "target" kw) && negb (mem String.eqb cap_candidate caps) && mem String.eqb cap_running caps
                 then dset String.eqb "target" (AStr "running") kw else kw) = kw_get k kw).
    { intros k N. destruct (_ && _); [apply get_set; exact N | reflexivity]. }
    split. { intros k N. apply K. apply M. exact N. }
    split; [intros N; contradiction |]. split. { intros _ _. split; apply K; discriminate. }
    split. { destruct args as [| [] r]; reflexivity. }
    split; [intros _ N; contradiction | intros _ _ N; contradiction].
  - injection E as <- <- <-. split; [exact O |]. split; [intros k _; reflexivity |].
    split; [reflexivity |]. split; [split; reflexivity |]. split; [reflexivity |]. split; [reflexivity |]. split; reflexivity.
Qed.

Theorem request_carries : forall has b l, edit_request has b = Ok l ->
  exists c, kw_get "config" b = Some c /\
  (forall a, In (PConfig a) l <-> a = c /\ (kw_get "format" b = None \/ kw_get "format" b = Some (AStr "xml"))) /\
  (forall a, In (PText a) l <-> a = c /\ kw_get "format" b = Some (AStr "text")).
Proof.
  intros has b l E. unfold edit_request in E. destruct (kw_get "config" b) as [c |]; [| discriminate]. exists c. split; [reflexivity |].
  assert (I : exists l1 l2, l = l1 ++ l2 /\ (forall a, ~ In (PConfig a) l1 /\ ~ In (PText a) l1) /\
    l2 = (let is s := match match kw_get "format" b with Some a => a | None => AStr "xml" end with AStr g => String.eqb g s | _ => false end in
          (if is "xml" then [PConfig c] else []) ++ (if is "text" then [PText c] else []))).
  { set (er := match opt_arg (kw_get "error_option" b) with None => _ | _ => _ end) in E.
    destruct er as [e |] eqn:Er; cbn [bind] in E; [| discriminate].
    set (tr := match opt_arg (kw_get "test_option" b) with None => _ | _ => _ end) in E.
    destruct tr as [t |] eqn:Tr; cbn [bind] in E; [| discriminate]. injection E as <-.
    set (dd := match opt_arg (kw_get "default_operation" b) with None => _ | _ => _ end).
    eexists (_ :: e ++ t ++ dd), _. split. { cbn [app]. rewrite <- !app_assoc. reflexivity. } split; [| reflexivity].
    assert (He : forall a, ~ In (PConfig a) e /\ ~ In (PText a) e).
    { unfold er in Er. destruct (opt_arg (kw_get "error_option" b)) as [[] |];
        repeat match type of Er with context [if ?c then _ else _] => destruct c end; try discriminate Er; injection Er as <-;
        intros z; cbn; intuition discriminate. }
    assert (Ht : forall a, ~ In (PConfig a) t /\ ~ In (PText a) t).
    { unfold tr in Tr. destruct (opt_arg (kw_get "test_option" b));
        repeat match type of Tr with context [if ?c then _ else _] => destruct c end; try discriminate Tr; injection Tr as <-;
        intros z; cbn; intuition discriminate. }
    assert (Hd : forall a, ~ In (PConfig a) dd /\ ~ In (PText a) dd).
    { unfold dd. destruct (opt_arg (kw_get "default_operation" b)); intros z; cbn; intuition discriminate. }
    intros a. destruct (He a), (Ht a), (Hd a). split; intros [X | X]; try discriminate; apply in_app_or in X as [X | X]; try contradiction;
      apply in_app_or in X as [X | X]; contradiction. }
  destruct I as (l1 & l2 & -> & N & ->). cbv zeta.
  split; intros a; destruct (N a) as [N1 N2]; rewrite in_app_iff;
    (destruct (kw_get "format" b) as [[| s | | | |] |];
     [ | destruct (String.eqb_spec s "xml") as [X | X]; [subst s | destruct (String.eqb_spec s "text") as [Y | Y]; [subst s |]] | | | | | ]);
    cbn; intuition (try congruence; try discriminate).
Qed.

Theorem keyword_config : forall ops caps d has x, exists args' kw' b l,
  execute ops caps d (inr EditConfig) [] [("config", ACfg x)] = Ok (EditConfig, args', kw') /\
  bind_args edit_params args' kw' = Ok b /\ edit_request has b = Ok l /\
  In (PConfig (ACfg x)) l /\ ~ In (PConfig (AEle x)) l.
Proof.
  intros ops caps d has x. unfold execute. cbn [find_oper bind].
  change (kw_in "target" [("config", ACfg x)]) with false. cbn [negb andb].
  destruct (negb (mem String.eqb cap_candidate caps) && mem String.eqb cap_running caps);
    do 4 eexists; (split; [reflexivity |]; split; [reflexivity |]; split; [reflexivity |]; cbn; split; [auto | intuition discriminate]).
Qed.
