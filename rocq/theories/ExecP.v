(** Proofs about ExecM.v. *)
From Coq Require Import String Ascii List Bool Arith Permutation Lia.
From Verif Require Import Base BaseP XmlM TagM MDiffM MDiffSpec MDiffP DepictM DepictP CompatM CompatSpec CompatDevP ExecM ExecSpec.
Import ListNotations.
Open Scope string_scope.
Open Scope list_scope.

Lemma dset_get : forall k v kw k', kw_get k' (dset String.eqb k v kw) = if String.eqb k' k then Some v else kw_get k' kw.
Proof.
  intros k v kw k'. unfold kw_get. induction kw as [| (a, b) l IH]; cbn [dset assoc]; [reflexivity |].
  destruct (String.eqb_spec k a) as [<- | N]; cbn [assoc].
  - destruct (String.eqb k' k); reflexivity.
  - rewrite IH. destruct (String.eqb_spec k' a) as [-> |]; [| reflexivity]. destruct (String.eqb_spec a k); [congruence | reflexivity].
Qed.
Lemma del_get : forall k kw k', kw_get k' (kw_del k kw) = if String.eqb k' k then None else kw_get k' kw.
Proof.
  intros k kw k'. unfold kw_get, kw_del. induction kw as [| (a, b) l IH]; cbn [filter assoc fst]; [destruct (String.eqb k' k); reflexivity |].
  destruct (String.eqb_spec a k) as [-> | N]; cbn [negb].
  - rewrite IH. destruct (String.eqb_spec k' k); reflexivity.
  - cbn [assoc]. rewrite IH. destruct (String.eqb_spec k' a) as [-> | N2]; [| reflexivity]. destruct (String.eqb_spec a k); [contradiction | reflexivity].
Qed.

Lemma pop_given : forall kw ms, Given kw ms -> pop_models kw = Ok (Some ms, kw_del "models" kw).
Proof. intros kw ms [H | (s & H & ->)]; unfold pop_models; rewrite H; reflexivity. Qed.
Lemma pop_none : forall kw, NotGiven kw -> pop_models kw = Ok (None, kw_del "models" kw).
Proof. intros kw [H | H]; unfold pop_models; rewrite H; reflexivity. Qed.

Lemma loaded_In : forall d n, In n (v_loaded d) <-> Loaded d n.
Proof.
  intros d n. unfold v_loaded, Loaded, Loads. rewrite in_map_iff. split.
  - intros ((a, b) & <- & I). exists b. exact I.
  - intros (t & I). exists (n, t). auto.
Qed.
Lemma check_loaded_ok : forall d l, (check_loaded d l = Ok tt /\ forall m, In m l -> Loaded d m) \/ (check_loaded d l = Err ModelMissing /\ exists m, In m l /\ ~ Loaded d m).
Proof.
  intros d l. unfold check_loaded. destruct (forallb _ l) eqn:E.
  - left. split; auto. rewrite forallb_forall in E. intros m I. apply loaded_In. apply (mem_In String.eqb String.eqb_eq). apply E. exact I.
  - right. split; auto. induction l as [| a l IH]; [discriminate |]. cbn [forallb] in E. apply andb_false_iff in E.
    destruct (mem String.eqb a (v_loaded d)) eqn:M.
    + destruct E as [E | E]; [discriminate |]. destruct (IH E) as (m & I & N). exists m. split; [right |]; auto.
    + exists a. split; [left; reflexivity |]. rewrite <- loaded_In. intro I. apply (mem_In String.eqb String.eqb_eq) in I. congruence.
Qed.

(** The roots are listed once each. *)
Lemma dset_keys : forall k (v : string) (l : list (string * string)), NoDup (map fst l) -> NoDup (map fst (dset String.eqb k v l)).
Proof.
  intros k v l N. induction l as [| (a, b) l IH]; cbn [dset map fst] in *; [repeat constructor; intros [] |].
  inversion N as [| ? ? N1 N2]; subst. destruct (String.eqb_spec k a) as [-> | X]; [constructor; auto |].
  cbn [map fst]. constructor; [| auto]. intro I. apply N1. clear - I X. induction l as [| (c, d) l IH]; cbn [dset map fst] in *.
  - destruct I as [-> | []]. contradiction.
  - destruct (String.eqb_spec k c) as [-> | Y]; [exact I |]. cbn [map fst] in I. destruct I as [I | I]; [left; exact I | right; auto].
Qed.
Lemma v_roots_nodup : forall d, NoDup (map fst (v_roots d)).
Proof.
  intro d. unfold v_roots. assert (G : forall l (acc : list (string * string)), NoDup (map fst acc) -> NoDup (map fst (fold_left (fun acc '(n, t) => fold_left (fun a c => dset String.eqb (xtag c) n a) (xkids t) acc) l acc))).
  { induction l as [| (n, t) l IH]; intros acc N; cbn [fold_left]; [exact N |]. apply IH.
    assert (G : forall ks (a : list (string * string)), NoDup (map fst a) -> NoDup (map fst (fold_left (fun a (c : xml) => dset String.eqb (xtag c) n a) ks a))).
    { induction ks as [| c ks IHk]; intros a Na; cbn [fold_left]; [exact Na |]. apply IHk. apply dset_keys. exact Na. }
    apply G. exact N. }
  apply G. constructor.
Qed.
Lemma assoc_iff : forall (l : list (string * string)) k v, NoDup (map fst l) -> (In (k, v) l <-> assoc String.eqb k l = Some v).
Proof.
  intros l k v N. induction l as [| (a, b) l IH]; cbn [In assoc]; [split; [tauto | discriminate] |].
  cbn [map fst] in N. inversion N as [| ? ? N1 N2]; subst. destruct (String.eqb_spec k a) as [-> | X].
  - split; [intros [E | I] | intro E; left; congruence]; [congruence |]. exfalso. apply N1. apply (in_map fst) in I. exact I.
  - rewrite <- (IH N2). split; [intros [E | I]; [congruence | exact I] | auto].
Qed.
Lemma roots_In : forall d r n, Fine d -> (In (r, n) (v_roots d) <-> exists t, Loads d n t /\ has r t).
Proof.
  intros d r n F. rewrite (assoc_iff _ _ _ (v_roots_nodup d)). split; [apply v_roots_some |]. intros (t & L & H). exact (v_roots_fine d r n t F L H).
Qed.

Lemma access_ok : forall d n r t, Fine d -> OneTop d -> Loads d n t -> has r t ->
  exists c, In c (xkids t) /\ xtag c = r /\ (forall c', In c' (xkids t) -> xtag c' = r -> c' = c) /\ access_type d n r = Ok (get_attr "access" c).
Proof.
  intros d n r t F O L (c & I & E). unfold access_type.
  destruct (check_loaded_ok d [n]) as [(-> & _) | (_ & m & [<- | []] & X)]; [| exfalso; apply X; exists t; exact L]. cbn [bind].
  rewrite (model_of_fine d n t (proj1 F) L). cbn [bind].
  assert (U : forall c', In c' (xkids t) -> xtag c' = r -> c' = c).
  { intros c' I' E'. assert (N := O n t L). clear - N I E I' E'. induction (xkids t) as [| k l IH]; [destruct I |]. cbn [map] in N. inversion N as [| ? ? N1 N2]; subst.
    destruct I as [<- | I], I' as [<- | I']; auto; exfalso; apply N1; [rewrite <- E' | rewrite E']; apply in_map; assumption. }
  destruct (filter _ (xkids t)) as [| c0 l] eqn:Fl.
  - exfalso. assert (X : In c (filter (fun c => String.eqb (xtag c) r) (xkids t))) by (apply filter_In; split; [exact I | apply String.eqb_eq; exact E]).
    rewrite Fl in X. destruct X.
  - assert (X : In c0 (filter (fun c => String.eqb (xtag c) r) (xkids t))) by (rewrite Fl; left; reflexivity).
    apply filter_In in X. destruct X as (X1 & X2). apply String.eqb_eq in X2. exists c. split; auto. split; auto. split; auto. rewrite (U c0 X1 X2). reflexivity.
Qed.
Lemma pick_ok : forall d ms accs, Fine d -> OneTop d ->
  exists l, pick_roots d ms accs = Ok l /\ NoDup l /\ forall r, In r l <-> RootOf d ms accs r.
Proof.
  intros d ms accs F O.
  set (want := fun (p : string * string) => exists t c a, In (snd p) ms /\ Loads d (snd p) t /\ In c (xkids t) /\ xtag c = fst p /\ get_attr "access" c = Some a /\ In a accs).
  assert (G : forall k acc, (forall p, In p k -> In p (v_roots d)) -> NoDup (map fst k) -> NoDup acc -> (forall r, In r acc -> ~ In r (map fst k)) ->
    exists l, foldM (fun acc '(r, n) => if mem String.eqb n ms then
      let! a := access_type d n r in match a with Some v => if mem String.eqb v accs then Ok (acc ++ [r]) else Ok acc | None => Ok acc end else Ok acc) acc k = Ok l /\
    NoDup l /\ forall r, In r l <-> In r acc \/ exists n, In (r, n) k /\ want (r, n)).
  { induction k as [| (r, n) k IH]; intros acc S N Na D; cbn [foldM].
    - exists acc. split; auto. split; auto. intro r. split; [auto | intros [I | (n & [] & _)]; exact I].
    - cbn [map fst] in N. inversion N as [| ? ? N1 N2]; subst.
      destruct (proj1 (roots_In d r n F) (S (r, n) (or_introl eq_refl))) as (t & L & Ht).
      destruct (access_ok d n r t F O L Ht) as (c & Ic & Ec & Uc & Ac).
      assert (STEP : exists acc', (if mem String.eqb n ms then let! a := access_type d n r in
          match a with Some v => if mem String.eqb v accs then Ok (acc ++ [r]) else Ok acc | None => Ok acc end else Ok acc) = Ok acc' /\
          ((acc' = acc /\ ~ want (r, n)) \/ (acc' = acc ++ [r] /\ want (r, n)))).
      { destruct (mem String.eqb n ms) eqn:M.
        - apply (mem_In String.eqb String.eqb_eq) in M. rewrite Ac. cbn [bind]. destruct (get_attr "access" c) as [v |] eqn:Ev.
          + destruct (mem String.eqb v accs) eqn:Mv.
            * apply (mem_In String.eqb String.eqb_eq) in Mv. exists (acc ++ [r]). split; auto. right. split; auto. exists t, c, v. cbn [fst snd]. auto 10.
            * exists acc. split; auto. left. split; auto. intros (t' & c' & a & I1 & L' & I2 & E2 & Ha & Ia). cbn [fst snd] in *.
              assert (t' = t) by (apply (Loads_one d n); auto; apply F). subst t'. assert (c' = c) by (apply Uc; auto). subst c'.
              assert (a = v) by congruence. subst a. apply (mem_In String.eqb String.eqb_eq) in Ia. congruence.
          + exists acc. split; auto. left. split; auto. intros (t' & c' & a & I1 & L' & I2 & E2 & Ha & Ia). cbn [fst snd] in *.
            assert (t' = t) by (apply (Loads_one d n); auto; apply F). subst t'. assert (c' = c) by (apply Uc; auto). subst c'. congruence.
        - exists acc. split; auto. left. split; auto. intros (t' & c' & a & I1 & _). cbn [fst snd] in *. apply (mem_In String.eqb String.eqb_eq) in I1. congruence. }
      destruct STEP as (acc' & -> & C). cbn [bind].
      destruct (IH acc') as (l & El & Nl & Hl).
      + intros p I. apply S. right. exact I.
      + exact N2.
      + destruct C as [(-> & _) | (-> & _)]; auto. apply (Permutation_NoDup (Permutation_app_comm [r] acc)). cbn [app]. constructor; auto. intro I. apply (D r I). left. reflexivity.
      + intros x I. destruct C as [(-> & _) | (-> & _)].
        * intro X. apply (D x I). right. exact X.
        * apply in_app_iff in I. destruct I as [I | [<- | []]]; [intro X; apply (D x I); right; exact X | exact N1].
      + exists l. split; auto. split; auto. intro x. rewrite Hl. destruct C as [(-> & W) | (-> & W)].
        * split; intros [I | (n' & I & W')]; auto; [right; exists n'; split; [right |]; auto |].
          destruct I as [I | I]; [| right; exists n'; auto]. injection I as <- <-. contradiction.
        * rewrite in_app_iff. split.
          -- intros [[I | [<- | []]] | (n' & I & W')]; auto; right; [exists n | exists n']; split; auto; [left; reflexivity | right; exact I].
          -- intros [I | (n' & [I | I] & W')]; auto; [injection I as <- <-; left; right; left; reflexivity | right; exists n'; auto]. }
  destruct (G (v_roots d) []) as (l & E & N & H); auto; [apply v_roots_nodup | constructor |].
  exists l. split; [exact E |]. split; auto. intro r. rewrite H. unfold RootOf. split.
  - intros [[] | (n & _ & t & c & a & W)]. exists n, t, c, a. exact W.
  - intros (n & t & c & a & I1 & L & I2 & E2 & Ha & Ia). right. exists n. split; [| exists t, c, a; cbn [fst snd]; auto 10].
    apply (roots_In d r n F). exists t. split; auto. exists c. auto.
Qed.
Lemma asks_ok : forall d accs kw, Fine d -> OneTop d -> Asks d accs kw (models_filter d accs kw).
Proof.
  intros d accs kw F O. split.
  - intros ms Gv. unfold models_filter. rewrite (pop_given kw ms Gv). cbn [bind].
    destruct (check_loaded_ok d ms) as [(E & A) | (E & m & I & N)]; rewrite E; cbn [bind].
    2: { split; [reflexivity |]. split; intro A; exfalso; apply N, A; exact I. }
    destruct (pick_ok d ms accs F O) as (l & El & Nl & Hl). rewrite El. cbn [bind]. split; [intros (m & I & N); exfalso; apply N, A; exact I |]. split.
    + intros _ NR. destruct l as [| r l]; [reflexivity |]. exfalso. apply (NR r). apply Hl. left. reflexivity.
    + intros _ (r & R). apply Hl in R. destruct l as [| r0 l]; [destruct R |]. unfold build_filter. rewrite E. cbn [bind].
      eexists. exists (r0 :: l). split; [reflexivity |]. rewrite dset_get. cbn [String.eqb Ascii.eqb Bool.eqb]. split; [reflexivity |]. split; auto. split; auto.
      split; [rewrite dset_get, del_get; reflexivity |]. intros k Nk. rewrite dset_get, del_get.
      destruct (String.eqb_spec k "filter") as [-> |]; [exfalso; apply Nk; left; reflexivity |].
      destruct (String.eqb_spec k "models") as [-> |]; [exfalso; apply Nk; right; left; reflexivity | reflexivity].
  - intro Ng. unfold models_filter. rewrite (pop_none kw Ng). cbn [bind]. eexists. split; [reflexivity |]. split; [rewrite del_get; reflexivity |].
    intros k Nk. rewrite del_get. destruct (String.eqb_spec k "models") as [-> |]; [exfalso; apply Nk; left; reflexivity | reflexivity].
Qed.

(** ** The operations *)
Theorem exec_get : forall ops caps d args kw, Fine d -> OneTop d ->
  exists out, Asks d ["read-write"; "read-only"] kw out /\
  execute ops caps d (inr Get) args kw = match out with Ok kw' => Ok (Get, args, kw') | Err e => Err e end.
Proof. intros ops caps d args kw F O. exists (models_filter d ["read-write"; "read-only"] kw). split; [apply asks_ok; auto |]. unfold execute. cbn [find_oper bind]. destruct (models_filter _ _ kw); reflexivity. Qed.
Theorem exec_get_config : forall ops caps d args kw, Fine d -> OneTop d ->
  exists out args', Asks d ["read-write"] kw out /\
  (args = [] -> kw_get "source" kw = None -> args' = [AStr "running"]) /\
  (args <> [] \/ kw_get "source" kw <> None -> args' = args) /\
  execute ops caps d (inr GetConfig) args kw = match out with Ok kw' => Ok (GetConfig, args', kw') | Err e => Err e end.
Proof.
  intros ops caps d args kw F O. exists (models_filter d ["read-write"] kw). eexists. split; [apply asks_ok; auto |].
  split; [| split; [| unfold execute; cbn [find_oper bind]; destruct (models_filter _ _ kw); reflexivity]].
  - intros -> H. unfold kw_in. rewrite H. reflexivity.
  - intros H. destruct args; [| reflexivity]. unfold kw_in. destruct (kw_get "source" kw); [reflexivity |]. destruct H; contradiction.
Qed.
Theorem exec_edit : forall ops caps d args kw,
  exists args' kw', execute ops caps d (inr EditConfig) args kw = Ok (EditConfig, args', kw') /\
  (forall x r, args = ACfg x :: r -> args' = AEle x :: r) /\
  ((forall x r, args <> ACfg x :: r) -> args' = args) /\
  Unchanged ["target"] kw kw' /\
  (kw_get "target" kw = None -> ~ In cap_candidate caps -> In cap_running caps -> kw_get "target" kw' = Some (AStr "running")) /\
  (kw_get "target" kw <> None \/ In cap_candidate caps \/ ~ In cap_running caps -> kw_get "target" kw' = kw_get "target" kw).
Proof.
  intros ops caps d args kw. eexists. eexists. split; [reflexivity |]. split; [intros x r ->; reflexivity |].
  split; [intro H; destruct args as [| [] r]; auto; exfalso; eapply H; reflexivity |].
  assert (M : forall s, mem String.eqb s caps = true <-> In s caps) by (intro s; apply (mem_In String.eqb String.eqb_eq)).
  destruct (negb (kw_in "target" kw) && negb (mem String.eqb cap_candidate caps) && mem String.eqb cap_running caps) eqn:E.
  - rewrite !andb_true_iff, !negb_true_iff in E. destruct E as ((E1 & E2) & E3). apply M in E3. unfold kw_in in E1. destruct (kw_get "target" kw) eqn:T; [discriminate |].
    split; [| split].
    + intros k Nk. rewrite dset_get. destruct (String.eqb_spec k "target") as [-> |]; [exfalso; apply Nk; left; reflexivity | reflexivity].
    + intros _ _ _. rewrite dset_get. reflexivity.
    + intros [H | [H | H]]; [contradiction | apply M in H; congruence | contradiction].
  - split; [intros k _; reflexivity |]. split; [| reflexivity]. intros H1 H2 H3. exfalso. apply not_true_iff_false in E. apply E.
    rewrite !andb_true_iff, !negb_true_iff. unfold kw_in. rewrite H1. split; [split; [reflexivity |] | apply M; exact H3].
    apply not_true_iff_false. rewrite M. exact H2.
Qed.
Theorem exec_name : forall ops caps d s args kw,
  (assoc String.eqb s ops = None -> execute ops caps d (inl s) args kw = Err ValueError) /\
  (forall c, assoc String.eqb s ops = Some c -> execute ops caps d (inl s) args kw = execute ops caps d (inr c) args kw).
Proof. intros. unfold execute. cbn [find_oper]. split; [intros -> | intros c ->]; reflexivity. Qed.

(** ** The request *)
Lemma get_not_in : forall k kw, ~ In k (map fst kw) -> kw_get k kw = None.
Proof.
  intros k kw H. unfold kw_get. induction kw as [| (a, b) l IH]; [reflexivity |]. cbn [assoc map fst] in *.
  destruct (String.eqb_spec k a) as [-> |]; [exfalso; apply H; left; reflexivity | apply IH; intro I; apply H; right; exact I].
Qed.
Definition Options (kw : kwargs) : Prop := forall k, In k (map fst kw) -> In k ["format"; "target"; "default_operation"; "test_option"; "error_option"].
Theorem edit_sent : forall ops caps has d x kw args' kw' b,
  Options kw -> kw_get "format" kw = None \/ kw_get "format" kw = Some (AStr "xml") ->
  execute ops caps d (inr EditConfig) [ACfg x] kw = Ok (EditConfig, args', kw') -> bind_args edit_params args' kw' = Ok b ->
  (exists l, edit_request has b = Ok l /\ NoDup (map rank l) /\
    (forall a, In (PConfig a) l <-> a = AEle x) /\ (forall a, ~ In (PText a) l) /\
    (forall a, In (PTarget a) l <-> a = match kw_get "target" kw with Some a => a | None =>
       if negb (mem String.eqb cap_candidate caps) && mem String.eqb cap_running caps then AStr "running" else AStr "candidate" end) /\
    (forall a, In (PDefault a) l <-> kw_get "default_operation" kw = Some a /\ a <> ANone) /\
    (forall a, In (PTest a) l <-> kw_get "test_option" kw = Some a /\ a <> ANone) /\
    (forall a, In (PError a) l <-> kw_get "error_option" kw = Some a /\ a <> ANone)) \/
  (edit_request has b = Err ConfigError /\
    ((exists a, kw_get "test_option" kw = Some a /\ a <> ANone /\ has ":validate" = false) \/
     (kw_get "error_option" kw = Some (AStr "rollback-on-error") /\ has ":rollback-on-error" = false))).
Proof.
  intros ops caps has d x kw args' kw' b Op Fm E B.
  destruct (exec_edit ops caps d [ACfg x] kw) as (a2 & k2 & E2 & HA & _ & U & T1 & T2). rewrite E in E2. injection E2 as <- <-.
  rewrite (HA x [] eq_refl) in B. clear HA E.
  unfold bind_args in B. cbn [bind_pos edit_params bind app] in B. destruct (forallb _ kw') eqn:Fb; [| discriminate].
  assert (b = ("config", AEle x) :: kw') by congruence. subst b. clear B.
  assert (G : forall k, k <> "config" -> kw_get k (("config", AEle x) :: kw') = kw_get k kw').
  { intros k N. unfold kw_get. cbn [assoc]. destruct (String.eqb_spec k "config"); [contradiction | reflexivity]. }
  assert (G0 : kw_get "config" (("config", AEle x) :: kw') = Some (AEle x)) by reflexivity.
  unfold edit_request. rewrite G0, !G by discriminate. rewrite (U "format"), (U "error_option"), (U "test_option"), (U "default_operation") by (cbn; intuition discriminate).
  assert (FF : match kw_get "format" kw with Some a => a | None => AStr "xml" end = AStr "xml") by (destruct Fm as [-> | ->]; reflexivity).
  rewrite FF. cbn [String.eqb Ascii.eqb Bool.eqb].
  assert (TG : match kw_get "target" kw' with Some a => a | None => AStr "candidate" end = match kw_get "target" kw with Some a => a | None =>
       if negb (mem String.eqb cap_candidate caps) && mem String.eqb cap_running caps then AStr "running" else AStr "candidate" end).
  { assert (M : forall s, mem String.eqb s caps = true <-> In s caps) by (intro s; apply (mem_In String.eqb String.eqb_eq)).
    destruct (kw_get "target" kw) eqn:T; [rewrite T2 by (left; discriminate); reflexivity |].
    destruct (mem String.eqb cap_candidate caps) eqn:C; [rewrite T2 by (right; left; apply M; exact C); reflexivity |].
    destruct (mem String.eqb cap_running caps) eqn:R; cbn [negb andb].
    - rewrite T1; auto; [| apply M; exact R]. rewrite <- M. congruence.
    - rewrite T2; [reflexivity |]. right. right. rewrite <- M. congruence. }
  rewrite TG. set (tg := match kw_get "target" kw with Some a => a | None => _ end). clearbody tg. clear TG T1 T2 U Fb G G0 FF Fm.
  assert (OPT : forall o, (opt_arg o = None /\ forall a, o = Some a -> a = ANone) \/ exists a, o = Some a /\ a <> ANone /\ opt_arg o = Some a).
  { intros [a |]; [| left; split; [reflexivity | discriminate]]. destruct a; [left; split; [reflexivity |]; congruence | | | | |]; right; eexists; (split; [reflexivity |]); (split; [discriminate | reflexivity]). }
  set (oe := kw_get "error_option" kw). set (ot := kw_get "test_option" kw). set (od := kw_get "default_operation" kw). clearbody oe ot od.
  destruct (OPT od) as [(D1 & D2) | (ad & D1 & D2 & D3)]; destruct (OPT ot) as [(X1 & X2) | (at_ & X1 & X2 & X3)]; destruct (OPT oe) as [(Y1 & Y2) | (ae & Y1 & Y2 & Y3)].
  Ltac fin := left; eexists; split; [reflexivity |]; split; [repeat constructor; cbn; intuition discriminate |]; cbn [In app]; repeat split; intros; subst; intuition (try congruence; try discriminate);
    try (exfalso; match goal with H : forall a, _ = Some a -> a = ANone, K : _ = Some _ |- _ => pose proof (H _ K); congruence end).
  all: rewrite ?D3, ?X3, ?Y3, ?D1, ?X1, ?Y1.
  all: try (destruct ae as [| s | | | |]; [congruence | destruct (String.eqb_spec s "rollback-on-error") as [-> |]; [destruct (has ":rollback-on-error") eqn:Hr |] | | | |]).
  all: try (destruct (has ":validate") eqn:Hv).
  all: cbn [bind]; try (right; split; [reflexivity |]; first [left; eexists; split; [eassumption || reflexivity |]; split; [assumption | assumption || reflexivity] | right; split; [assumption || reflexivity | assumption || reflexivity]]; fail).
  all: fin.
Qed.

(** ** Compiled modules *)
Lemma depict_top : forall ns m t x, depict ns m t = Ok x ->
  exists u k, assoc String.eqb (y_module (yi t)) ns = Some u /\ y_kw (yi t) = Kw k /\ xtag x = ("{" ++ u ++ "}" ++ y_arg (yi t))%string /\
  get_attr "access" x = Some (access m (yi t)).
Proof.
  intros ns m [i ks] x H. rewrite depict_eq in H. cbn [yi]. destruct (assoc String.eqb (y_module i) ns) as [u |]; [| discriminate].
  destruct (y_kw i) as [k |] eqn:K; [| discriminate]. apply bind_ok in H. destruct H as (l & Hl & H).
  match type of H with Ok ?e = _ => assert (x = e) by congruence end. subst x. clear H.
  exists u, k. split; auto. split; auto. split; [reflexivity |]. rewrite node_attr by discriminate. apply at_access.
Qed.
(** The name of a statement at the top of a module *)
Definition Names (ns : list (string * string)) (t : ystmt) (r : string) : Prop :=
  exists u, assoc String.eqb (y_module (yi t)) ns = Some u /\ r = ("{" ++ u ++ "}" ++ y_arg (yi t))%string.
Lemma is_kw_eq : forall k t, is_kw k t = true <-> y_kw (yi t) = Kw k.
Proof. intros k t. unfold is_kw. destruct (y_kw (yi t)) as [w |]; [rewrite String.eqb_eq |]; split; congruence. Qed.
Lemma data_kw : forall t k, is_data t = true -> y_kw (yi t) = Kw k -> In k data_keywords.
Proof.
  intros t k H E. unfold is_data in H. apply existsb_exists in H. destruct H as (w & I & H). apply is_kw_eq in H. assert (w = k) by congruence. subst w. exact I.
Qed.
Lemma access_data : forall t k, is_data t = true -> y_kw (yi t) = Kw k -> access MNone (yi t) = match y_config (yi t) with Some true => "read-write" | _ => "read-only" end.
Proof.
  intros t k H E. assert (I := data_kw t k H E). unfold access. rewrite E. cbn in I. repeat (destruct I as [<- | I]; [reflexivity |]). destruct I.
Qed.
Lemma compiled_tops : forall ns kids l, compile_nodes ns kids = Ok l -> forall r a,
  (exists c, In c l /\ xtag c = r /\ get_attr "access" c = Some a) <->
  exists t, In t kids /\ Names ns t r /\
    ((is_data t = true /\ a = match y_config (yi t) with Some true => "read-write" | _ => "read-only" end) \/
     (is_kw "rpc" t = true /\ a = "write") \/ (is_kw "notification" t = true /\ a = "read-only")).
Proof.
  intros ns kids l H r a. unfold compile_nodes in H. apply bind_ok in H. destruct H as (la & Ha & H). apply bind_ok in H. destruct H as (lb & Hb & H).
  apply bind_ok in H. destruct H as (lc & Hc & H). assert (l = la ++ lb ++ lc) by congruence. subst l. clear H.
  rewrite mapM_ok in Ha, Hb, Hc.
  assert (G : forall m f lx, Forall2 (fun x y => depict ns m x = Ok y) (filter f kids) lx ->
    ((exists c, In c lx /\ xtag c = r /\ get_attr "access" c = Some a) <-> exists t, In t kids /\ f t = true /\ Names ns t r /\ a = access m (yi t) /\ exists k, y_kw (yi t) = Kw k)).
  { intros m f lx F. split.
    - intros (c & I & E & A). destruct (Forall2_In_r _ _ _ _ F I) as (t & It & D). apply filter_In in It. destruct It as (It & Ft).
      destruct (depict_top _ _ _ _ D) as (u & k & Eu & Ek & Et & Ea). exists t. split; auto. split; auto. split; [exists u; split; [auto | congruence] |]. split; [congruence | eauto].
    - intros (t & It & Ft & (u & Eu & ->) & -> & _). assert (I : In t (filter f kids)) by (apply filter_In; auto).
      destruct (Forall2_In_l _ _ _ _ F I) as (c & Ic & D). destruct (depict_top _ _ _ _ D) as (u' & k & Eu' & Ek & Et & Ea). exists c. split; auto. split; auto. congruence. }
  specialize (G MNone is_data la Ha) as GA. specialize (G MRpc (is_kw "rpc") lb Hb) as GB. specialize (G MNotification (is_kw "notification") lc Hc) as GC. clear G.
  split.
  - intros (c & I & E & A). rewrite !in_app_iff in I. destruct I as [I | [I | I]].
    + destruct (proj1 GA) as (t & It & Ft & N & Ea & k & K); [exists c; auto |]. exists t. split; [exact It |]. split; [exact N |]. left. split; [exact Ft |]. rewrite Ea. apply (access_data t k); auto.
    + destruct (proj1 GB) as (t & It & Ft & N & Ea & k & K); [exists c; auto |]. exists t. split; [exact It |]. split; [exact N |]. right. left. split; [exact Ft | exact Ea].
    + destruct (proj1 GC) as (t & It & Ft & N & Ea & k & K); [exists c; auto |]. exists t. split; [exact It |]. split; [exact N |]. right. right. split; [exact Ft |].
      rewrite Ea. apply is_kw_eq in Ft. unfold access. rewrite Ft. reflexivity.
  - intros (t & It & N & [(Ft & Ea) | [(Ft & Ea) | (Ft & Ea)]]).
    + destruct (existsb_exists (fun k => is_kw k t) data_keywords) as (X & _). destruct (X Ft) as (k & _ & K). apply is_kw_eq in K.
      destruct (proj2 GA) as (c & I & E & A); [exists t; split; auto; split; auto; split; auto; split; [rewrite Ea, (access_data t k); auto | eauto] |].
      exists c. rewrite !in_app_iff. auto.
    + assert (K := proj1 (is_kw_eq _ _) Ft). destruct (proj2 GB) as (c & I & E & A); [exists t; split; auto; split; auto; split; auto; split; [exact Ea | eauto] |].
      exists c. rewrite !in_app_iff. auto.
    + assert (K := proj1 (is_kw_eq _ _) Ft). destruct (proj2 GC) as (c & I & E & A).
      { exists t. split; auto. split; auto. split; auto. split; [| eauto]. rewrite Ea. unfold access. rewrite K. reflexivity. }
      exists c. rewrite !in_app_iff. auto.
Qed.
(** What is asked of a module that was compiled *)
Theorem compiled_asked : forall ns kids l d n t, compile_nodes ns kids = Ok l -> Fine d -> Loads d n t -> xkids t = l ->
  (forall r, RootOf d [n] ["read-write"] r <-> exists s, In s kids /\ Names ns s r /\ is_data s = true /\ y_config (yi s) = Some true) /\
  (forall r, RootOf d [n] ["read-write"; "read-only"] r <->
    exists s, In s kids /\ Names ns s r /\ (is_data s = true \/ is_kw "notification" s = true)).
Proof.
  intros ns kids l d n t C F L K.
  assert (G : forall accs r, RootOf d [n] accs r <-> exists a, In a accs /\ exists c, In c l /\ xtag c = r /\ get_attr "access" c = Some a).
  { intros accs r. unfold RootOf. split.
    - intros (n' & t' & c & a & [<- | []] & L' & I & E & A & Ia). assert (t' = t) by (apply (Loads_one d n); auto; apply F). subst t'. rewrite K in I. eauto 10.
    - intros (a & Ia & c & I & E & A). exists n, t, c, a. rewrite K. split; [left; reflexivity |]. auto 10. }
  split; intro r; rewrite G; split.
  - intros (a & [<- | []] & H). apply (compiled_tops ns kids l C) in H. destruct H as (s & I & N & [(D & E) | [(_ & E) | (_ & E)]]); try discriminate.
    exists s. split; auto. split; auto. split; auto. destruct (y_config (yi s)) as [[|] |]; [reflexivity | discriminate | discriminate].
  - intros (s & I & N & D & E). exists "read-write". split; [left; reflexivity |]. apply (compiled_tops ns kids l C). exists s. split; auto. split; auto. left. rewrite E. auto.
  - intros (a & Ia & H). apply (compiled_tops ns kids l C) in H. destruct H as (s & I & N & [(D & E) | [(_ & E) | (D & E)]]).
    + exists s. auto 10.
    + exfalso. subst a. destruct Ia as [X | [X | []]]; discriminate.
    + exists s. auto 10.
  - intros (s & I & N & [D | D]).
    + exists (match y_config (yi s) with Some true => "read-write" | _ => "read-only" end).
      split; [destruct (y_config (yi s)) as [[|] |]; cbn; auto |]. apply (compiled_tops ns kids l C). exists s. auto 10.
    + exists "read-only". split; [cbn; auto |]. apply (compiled_tops ns kids l C). exists s. auto 10.
Qed.
