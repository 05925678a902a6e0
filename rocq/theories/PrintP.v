(** Proofs about PrintM.v. *)
From Coq Require Import String Ascii List Bool Arith Lia.
From Verif Require Import Base BaseP XmlM CalcP TagM TagSpec TagP ReorderM XPathM XPathP DepictM DepictSpec DepictP PrintM PrintSpec.
Import ListNotations.
Open Scope string_scope.
Open Scope list_scope.
Open Scope nat_scope.

(** ** Names *)
Lemma look_In : forall k v l, NoDup (map fst l) -> In (k, v) l -> look k l = Some v.
Proof.
  intros k v l HD Hin. induction l as [| (p, w) l IH]; [destruct Hin |]. cbn in HD. inversion HD as [| ? ? N HD']; subst. cbn [look].
  destruct Hin as [Hin | Hin].
  - injection Hin as -> ->. rewrite look_none by auto. rewrite String.eqb_refl. reflexivity.
  - rewrite IH; auto.
Qed.
Lemma dset_In : forall (d : list (string * string)) k v, ~ In k (map fst d) -> dset String.eqb k v d = d ++ [(k, v)].
Proof.
  induction d as [| (a, b) d IH]; intros k v H; cbn; [reflexivity |].
  destruct (String.eqb_spec k a) as [-> | N]; [exfalso; apply H; left; reflexivity |].
  rewrite IH; [reflexivity |]. intro G. apply H. right. exact G.
Qed.
Lemma set_all_id : forall l, NoDup (map fst l) -> set_all l = l.
Proof.
  intros l H. unfold set_all.
  assert (G : forall d, NoDup (map fst (d ++ l)) -> fold_left (fun d '(k, v) => dset String.eqb k v d) l d = d ++ l).
  { clear H. induction l as [| (k, v) l IH]; intros d H; cbn [fold_left]; [symmetry; apply app_nil_r |].
    rewrite map_app in H. cbn in H. rewrite dset_In.
    - rewrite IH; rewrite <- app_assoc; [reflexivity |]. rewrite map_app. exact H.
    - intro G. apply NoDup_remove_2 in H. apply H. apply in_or_app. auto. }
  apply (G []). exact H.
Qed.
Lemma model_known : forall prefix l m u, Known l -> model_init prefix l = Ok m -> In (prefix, u) l ->
  m_prefix m = prefix /\ m_url m = u /\
  (forall p v, In (p, v) l -> assoc String.eqb p (m_prefixes m) = Some v) /\
  (forall p v, In (p, v) l -> assoc String.eqb v (m_urls m) = Some p).
Proof.
  intros prefix l m u (K1 & K2 & K3) E Hin. unfold model_init, model_ns in E.
  change (fold_left (fun d '(p, u0) => dset String.eqb p u0 d) l []) with (set_all l) in E.
  rewrite (set_all_id l K1) in E.
  assert (HA : forall p v, In (p, v) l -> assoc String.eqb p l = Some v).
  { intros p v H. rewrite <- (set_all_id l K1), set_all_look. apply look_In; auto. }
  rewrite (HA prefix u Hin) in E. cbn [bind] in E. injection E as <-. cbn.
  split; auto. split; auto. split; auto. intros p v H.
  assert (EQ : forall (q d : list (string * string)), fold_left (fun d '(p0, u0) => dset String.eqb u0 p0 d) q d =
                           fold_left (fun d '(k, v0) => dset String.eqb k v0 d) (map (fun '(a, b) => (b, a)) q) d).
  { induction q as [| (a, b) q IH]; intros d; cbn; auto. }
  rewrite EQ. fold (set_all (map (fun '(a, b) => (b, a)) l)).
  rewrite set_all_look. apply look_In.
  - rewrite map_map. replace (map (fun x => fst (let '(a, b) := x in (b, a))) l) with (map snd l); auto. apply map_ext. intros (a, b). reflexivity.
  - apply in_map_iff. exists (p, v). auto.
Qed.

Lemma Identifier_colon : forall n, Identifier n -> ~ In ":"%char (chars n).
Proof. intros n H. apply (Identifier_not n ":"%char H). cbn. tauto. Qed.
Lemma Identifier_line : forall n, Identifier n -> ~ In newline (chars n).
Proof. intros n H. apply (Identifier_not n newline H). cbn. tauto. Qed.
Lemma Identifier_brace : forall n, Identifier n -> ~ In "}"%char (chars n).
Proof. intros n H. apply (Identifier_not n "}"%char H). cbn. tauto. Qed.

Lemma to_prefix : forall prefix l m u0 p u n, Known l -> model_init prefix l = Ok m -> In (prefix, u0) l -> In (p, u) l -> Identifier n ->
  url_to_prefix m (etree u n) = Ok (p ++ ":" ++ n)%string.
Proof.
  intros prefix l m u0 p u n K E H0 H Hn. destruct (model_known prefix l m u0 K E H0) as (_ & _ & _ & G).
  unfold url_to_prefix. rewrite re_brace_app; [| apply (proj2 (proj2 K) p u H) | apply Identifier_Word; auto | apply Identifier_brace; auto].
  rewrite (G p u H). reflexivity.
Qed.
Lemma to_url : forall prefix l m u0 p u n, Known l -> model_init prefix l = Ok m -> In (prefix, u0) l -> In (p, u) l -> Identifier n ->
  prefix_to_url m (p ++ ":" ++ n)%string = Ok (etree u n) /\ prefix_to_url m n = Ok (etree u0 n).
Proof.
  intros prefix l m u0 p u n K E H0 H Hn. destruct (model_known prefix l m u0 K E H0) as (_ & GU & GP & _).
  unfold prefix_to_url. change (p ++ ":" ++ n)%string with (p ++ String ":" n)%string.
  rewrite split_at_cut by (apply Identifier_colon; apply (proj2 (proj2 K) p u H)).
  rewrite split_at_none by (apply Identifier_colon; auto). rewrite (GP p u H), GU. split; reflexivity.
Qed.

Lemma rx_same : forall p r, rx_prefix p (p ++ r)%string = Some r.
Proof.
  induction p as [| a p IH]; intros r; [destruct r; reflexivity |]. cbn [append rx_prefix].
  rewrite Ascii.eqb_refl, orb_true_r. apply IH.
Qed.
Lemma rx_other : forall p q r, ~ In "."%char (chars p) -> ~ In ":"%char (chars p) -> ~ In ":"%char (chars q) -> p <> q ->
  rx_prefix (p ++ ":")%string (q ++ String ":" r)%string = None.
Proof.
  induction p as [| a p IH]; intros [| b q] r H1 H2 H3 H4; cbn [append rx_prefix].
  - congruence.
  - destruct (Ascii.eqb_spec ":" b) as [<- |]; [exfalso; apply H3; left; reflexivity |]. reflexivity.
  - destruct (Ascii.eqb_spec a ".") as [-> |]; [exfalso; apply H1; left; reflexivity |].
    destruct (Ascii.eqb_spec a ":") as [-> |]; [exfalso; apply H2; left; reflexivity |]. reflexivity.
  - destruct (Ascii.eqb_spec a ".") as [-> |]; [exfalso; apply H1; left; reflexivity |].
    destruct (Ascii.eqb_spec a b) as [-> |]; cbn [orb]; [| reflexivity].
    apply IH; [intro G; apply H1; right; auto | intro G; apply H2; right; auto | intro G; apply H3; right; auto | congruence].
Qed.
Lemma remove_own : forall m n, Identifier (m_prefix m) -> Identifier n ->
  remove_model_prefix m (m_prefix m ++ ":" ++ n)%string = n.
Proof.
  intros m n Hp Hn. unfold remove_model_prefix. rewrite line_plain.
  - replace (m_prefix m ++ ":" ++ n)%string with ((m_prefix m ++ ":") ++ n)%string by apply app_assoc_s.
    rewrite rx_same. destruct n as [| a n]; [destruct Hn; congruence |]. reflexivity.
  - rewrite !chars_app. intro G. apply in_app_or in G. destruct G as [G | G]; [exact (Identifier_line _ Hp G) |].
    destruct G as [G | G]; [discriminate | exact (Identifier_line _ Hn G)].
Qed.
Lemma remove_other : forall m p n, Identifier (m_prefix m) -> ~ In "."%char (chars (m_prefix m)) -> Identifier p -> Identifier n ->
  p <> m_prefix m -> remove_model_prefix m (p ++ ":" ++ n)%string = (p ++ ":" ++ n)%string.
Proof.
  intros m p n Hm Hdot Hp Hn N. unfold remove_model_prefix. rewrite line_plain.
  - change (p ++ ":" ++ n)%string with (p ++ String ":" n)%string.
    rewrite rx_other; auto using Identifier_colon.
  - rewrite !chars_app. intro G. apply in_app_or in G. destruct G as [G | G]; [exact (Identifier_line _ Hp G) |].
    destruct G as [G | G]; [discriminate | exact (Identifier_line _ Hn G)].
Qed.

(** The printed name leads back to the tag. *)
Lemma display_back : forall prefix l m u0 p u n, Known l -> model_init prefix l = Ok m -> In (prefix, u0) l -> In (p, u) l -> Identifier n ->
  ~ In "."%char (chars prefix) ->
  exists d, url_to_prefix m (etree u n) = Ok d /\
    remove_model_prefix m d = (if String.eqb p prefix then n else p ++ ":" ++ n)%string /\
    prefix_to_url m (remove_model_prefix m d) = Ok (etree u n).
Proof.
  intros prefix l m u0 p u n K E H0 H Hn Hdot. exists (p ++ ":" ++ n)%string.
  destruct (model_known prefix l m u0 K E H0) as (GX & _). destruct (to_url prefix l m u0 p u n K E H0 H Hn) as (T1 & T2).
  assert (IP : Identifier prefix) by apply (proj2 (proj2 K) prefix u0 H0).
  assert (Ip : Identifier p) by apply (proj2 (proj2 K) p u H).
  split; [exact (to_prefix prefix l m u0 p u n K E H0 H Hn) |].
  destruct (String.eqb_spec p prefix) as [-> | N].
  - assert (ER : remove_model_prefix m (prefix ++ ":" ++ n)%string = n)
      by (rewrite <- GX; apply remove_own; [rewrite GX |]; auto).
    rewrite ER. split; auto. replace u with u0; auto.
    destruct K as (K1 & _). pose proof (look_In prefix u0 l K1 H0). pose proof (look_In prefix u l K1 H). congruence.
  - rewrite remove_other; try rewrite GX; auto.
Qed.

(** ** Drawing *)
Lemma draw_eq : forall pre last s ks,
  draw pre last (LNode s ks) = (pre ++ "+--" ++ s)%string :: draws (pre ++ if last then "   " else "|  ")%string ks.
Proof.
  intros pre last s ks. cbn [draw]. f_equal. set (p := (pre ++ (if last then "   " else "|  "))%string).
  induction ks as [| c r IH]; [reflexivity |]. cbn [draws]. rewrite IH. reflexivity.
Qed.
Lemma ltree_all : forall (P : ltree -> Prop), (forall s ks, Forall P ks -> P (LNode s ks)) -> forall t, P t.
Proof.
  intros P H. fix IH 1. intros [s ks]. apply H. induction ks as [| c ks IHk]; constructor; [apply IH | exact IHk].
Qed.

Lemma mapM_app : forall {A B} (f : A -> res B) a b l, mapM f (a ++ b) = Ok l ->
  exists la lb, mapM f a = Ok la /\ mapM f b = Ok lb /\ l = la ++ lb.
Proof.
  intros A B f a b l H. apply mapM_ok in H. apply Forall2_app_inv_l in H. destruct H as (la & lb & H1 & H2 & ->).
  exists la, lb. rewrite !mapM_ok. auto.
Qed.
Lemma node_at_app : forall p q x, node_at x (p ++ q) = match node_at x p with Some y => node_at y q | None => None end.
Proof.
  induction p as [| i p IH]; intros q x; [reflexivity |]. cbn [app node_at]. destruct (nth_error (xkids x) i); auto.
Qed.

Lemma ancestors_app : forall p i, ancestors (p ++ [i]) = ancestors p ++ [p].
Proof.
  induction p as [| j p IH]; intros i; [reflexivity |]. cbn [app ancestors]. rewrite IH, map_app. reflexivity.
Qed.
Definition above (tree : xml) (section : string) (pos : list nat) : string :=
  (" " ++ String.concat "" (map (bar tree section) (ancestors pos)))%string.
Lemma depth_above : forall tree section pos, depth_str tree section pos = (above tree section pos ++ "+--")%string.
Proof. intros. unfold depth_str, above. rewrite <- app_assoc_s. reflexivity. Qed.
Lemma above_app : forall tree section pos i, above tree section (pos ++ [i]) = (above tree section pos ++ bar tree section pos)%string.
Proof.
  intros. unfold above. rewrite ancestors_app, map_app, concat_app. cbn [map]. rewrite concat_cons. cbn [String.concat].
  rewrite app_nil_s, app_assoc_s. reflexivity.
Qed.

Lemma next_sibs_app : forall tree pos i x, node_at tree pos = Some x -> next_siblings tree (pos ++ [i]) = skipn (S i) (xkids x).
Proof. intros tree pos i x H. unfold next_siblings. rewrite rev_app_distr. cbn [rev app]. rewrite rev_involutive, H. reflexivity. Qed.

Definition iter_go (pos : list nat) : nat -> list xml -> list (list nat * xml) :=
  fix go (i : nat) (l : list xml) : list (list nat * xml) :=
    match l with [] => [] | c :: r => iter (pos ++ [i]) c ++ go (S i) r end.
Lemma iter_eq : forall pos x, iter pos x = (pos, x) :: iter_go pos 0 (xkids x).
Proof. intros pos [t tx a ks]. reflexivity. Qed.

Lemma spaces_blanks : forall n, Blanks (spaces n) /\ String.length (spaces n) = n.
Proof.
  induction n as [| n (IH1 & IH2)]; cbn; [split; [constructor | reflexivity] |]. split; [constructor; auto | auto].
Qed.

Lemma fold_max : forall l w, (forall n, In n l -> String.length n <= fold_left (fun w s => Nat.max w (String.length s)) l w) /\
  w <= fold_left (fun w s => Nat.max w (String.length s)) l w /\
  (fold_left (fun w s => Nat.max w (String.length s)) l w = w \/
   exists n, In n l /\ String.length n = fold_left (fun w s => Nat.max w (String.length s)) l w).
Proof.
  induction l as [| a l IH]; intros w; cbn [fold_left].
  - split; [intros n [] |]. split; auto.
  - destruct (IH (Nat.max w (String.length a))) as (I1 & I2 & I3). split; [| split].
    + intros n [<- | Hn]; [| auto]. eapply Nat.le_trans; [| exact I2]. apply Nat.le_max_r.
    + eapply Nat.le_trans; [| exact I2]. apply Nat.le_max_l.
    + destruct I3 as [I3 | (n & Hn & I3)]; [| right; exists n; split; [right |]; auto].
      destruct (Nat.max_spec w (String.length a)) as [(_ & M) | (_ & M)]; rewrite I3, M; [right; exists a; split; [left |]; auto | left; reflexivity].
Qed.
Lemma width_ok : forall nm parent w, width nm parent = Ok w ->
  exists names, Forall2 (fun x n => nm x = Ok n) (xkids parent) names /\ Width names w.
Proof.
  intros nm parent w H. unfold width in H. apply bind_ok in H. destruct H as (l & Hl & H).
  assert (Ew : w = (fold_left (fun w s => Nat.max w (String.length s)) l 0 + 3 + 2) / 3 * 3) by congruence. clear H.
  exists l. split; [apply mapM_ok; exact Hl |].
  destruct (fold_max l 0) as (F1 & _ & F3). set (mx := fold_left (fun w s => Nat.max w (String.length s)) l 0) in *.
  assert (D : mx + 3 <= (mx + 3 + 2) / 3 * 3 < mx + 6).
  { pose proof (Nat.div_mod (mx + 3 + 2) 3 ltac:(lia)) as D1. pose proof (Nat.mod_upper_bound (mx + 3 + 2) 3 ltac:(lia)) as D2.
    rewrite (Nat.mul_comm 3) in D1. lia. }
  split; [eexists; exact Ew |]. rewrite <- Ew in D. clear Ew. split.
  - intros n Hn. specialize (F1 n Hn). lia.
  - intros Hne. destruct F3 as [F3 | (n & Hn & F3)].
    + destruct l as [| a l]; [congruence |]. exists a. split; [left; reflexivity |]. specialize (F1 a (or_introl eq_refl)). lia.
    + exists n. split; auto. lia.
Qed.

Lemma bar_inner : forall tree section pos i x, pos <> [] -> node_at tree pos = Some x ->
  bar tree section (pos ++ [i]) = match skipn (S i) (xkids x) with [] => "   " | _ => "|  " end.
Proof.
  intros tree section pos i x Hne H. unfold bar. rewrite <- (next_sibs_app tree pos i x H).
  destruct (pos ++ [i]) as [| a [| b r]] eqn:E; auto.
  destruct pos as [| j [| k p]]; [congruence | discriminate | discriminate].
Qed.

Section Draw.
Variables (nm : xml -> res string) (tail : xml -> option (string -> string)) (tree : xml) (section : string).
Let NM := fun x n => nm x = Ok n.

Lemma line_ok : forall pos i parent x s, node_at tree pos = Some parent -> In x (xkids parent) ->
  emit_line nm tail tree section (pos ++ [i], x) = Ok s ->
  exists n lab, NM x n /\ s = (above tree section (pos ++ [i]) ++ "+--" ++ lab)%string /\
    match tail x with
    | None => lab = n
    | Some f => exists names w sp, Forall2 NM (xkids parent) names /\ Width names w /\ Blanks sp /\
                  String.length n + String.length sp = w /\ lab = (n ++ f sp)%string
    end.
Proof.
  intros pos i parent x s HP Hin H. unfold emit_line in H. apply bind_ok in H. destruct H as (n & Hn & H).
  rewrite depth_above in H. destruct (tail x) as [f |] eqn:ET.
  - rewrite removelast_last, HP in H. apply bind_ok in H. destruct H as (w & Hw & H).
    destruct (width_ok nm parent w Hw) as (names & HF & HW).
    assert (L : String.length n + 3 <= w).
    { apply (proj1 (proj2 HW)). clear -HF Hin Hn. induction HF as [| y b ks names Hb HF IH]; [destruct Hin |].
      destruct Hin as [-> | Hin]; [left; congruence | right; auto]. }
    destruct (spaces_blanks (w - String.length n)) as (B1 & B2).
    exists n, (n ++ f (spaces (w - String.length n)))%string. split; [exact Hn |].
    split; [rewrite <- app_assoc_s; congruence |].
    exists names, w, (spaces (w - String.length n)). split; [exact HF |]. split; [exact HW |]. split; [exact B1 |]. split; [lia | reflexivity].
  - exists n, n. split; [exact Hn |]. split; [rewrite <- app_assoc_s; congruence | reflexivity].
Qed.

Lemma iter_draw : forall x pos i parent (last : bool) lines, node_at tree pos = Some parent -> nth_error (xkids parent) i = Some x ->
  bar tree section (pos ++ [i]) = (if last then "   " else "|  ") ->
  mapM (emit_line nm tail tree section) (iter (pos ++ [i]) x) = Ok lines ->
  exists t, Labelled NM tail (xkids parent) x t /\ lines = draw (above tree section (pos ++ [i])) last t.
Proof.
  induction x as [t tx a ks IH] using xml_ind'; intros pos i parent last lines HP HI HB HM.
  set (x := Elem t tx a ks) in *. rewrite iter_eq in HM. cbn [mapM] in HM. apply bind_ok in HM. destruct HM as (s & Hs & HM).
  apply bind_ok in HM. destruct HM as (rest & Hr & HM). injection HM as <-.
  destruct (line_ok pos i parent x s HP (nth_error_In _ _ HI) Hs) as (n & lab & Hn & Es & Hlab).
  assert (HX : node_at tree (pos ++ [i]) = Some x) by (rewrite node_at_app, HP; cbn [node_at]; rewrite HI; reflexivity).
  assert (G : forall l done lines', ks = done ++ l -> Forall (fun c => In c ks) l ->
    mapM (emit_line nm tail tree section) (iter_go (pos ++ [i]) (length done) l) = Ok lines' ->
    exists ts, Forall2 (Labelled NM tail ks) l ts /\ lines' = draws (above tree section (pos ++ [i]) ++ if last then "   " else "|  ")%string ts).
  { induction l as [| c l IHl]; intros done lines' Eks Hall HM.
    - injection HM as <-. exists []. split; [constructor | reflexivity].
    - cbn [iter_go] in HM. apply mapM_app in HM. destruct HM as (l1 & l2 & M1 & M2 & ->).
      inversion Hall as [| ? ? Hc Hl]; subst.
      assert (Hnth : nth_error (xkids x) (length done) = Some c).
      { unfold x. cbn [xkids]. rewrite nth_error_app2 by lia. rewrite Nat.sub_diag. reflexivity. }
      assert (Hbar : bar tree section ((pos ++ [i]) ++ [length done]) = (if match l with [] => true | _ => false end then "   " else "|  ")).
      { rewrite (bar_inner tree section (pos ++ [i]) (length done) x) by (auto; destruct pos; discriminate).
        unfold x. cbn [xkids]. replace (done ++ c :: l) with ((done ++ [c]) ++ l) by (rewrite <- app_assoc; reflexivity).
        replace (S (length done)) with (length (done ++ [c])) by (rewrite app_length; cbn; lia).
        rewrite skipn_app, skipn_all, Nat.sub_diag. cbn [app skipn]. destruct l; reflexivity. }
      rewrite Forall_forall in IH.
      destruct (IH c Hc (pos ++ [i]) (length done) x _ l1 HX Hnth Hbar M1) as (t1 & L1 & ->).
      destruct (IHl (done ++ [c]) l2) as (ts & L2 & ->).
      + rewrite <- app_assoc. reflexivity.
      + exact Hl.
      + rewrite app_length. cbn [length]. rewrite Nat.add_1_r. exact M2.
      + exists (t1 :: ts). split; [constructor; auto |]. cbn [draws]. rewrite above_app, HB.
        replace (match ts with [] => true | _ => false end) with (match l with [] => true | _ => false end); [reflexivity |].
        inversion L2; reflexivity. }
  destruct (G ks [] rest eq_refl) as (ts & HF & ->).
  - apply Forall_forall. auto.
  - exact Hr.
  - exists (LNode lab ts). split; [| rewrite draw_eq, Es; reflexivity].
    apply (labelled NM tail (xkids parent) x n lab ts Hn Hlab). exact HF.
Qed.
End Draw.

(** ** Sections *)
Definition in_section (section : string) : xml -> bool :=
  if String.eqb section "rpc" then in_rpcs else if String.eqb section "notification" then in_notifications else in_data.
Lemma is_type_in : forall section x, In section ["other"; "rpc"; "notification"] -> get_attr "type" x <> Some "other" ->
  is_type section x = in_section section x /\ following section x = in_section section x.
Proof.
  intros section x H N. unfold is_type, following, in_section, in_data, in_rpcs, in_notifications, eq_opt.
  destruct H as [<- | [<- | [<- | []]]]; cbn [String.eqb Ascii.eqb Bool.eqb orb].
  - destruct (get_attr "type" x) as [ty |]; [| auto].
    destruct (String.eqb_spec ty "other"); [congruence |]. destruct (String.eqb ty "rpc"), (String.eqb ty "notification"); auto.
  - destruct (get_attr "type" x) as [ty |]; [| auto]. destruct (String.eqb ty "rpc"); auto.
  - destruct (get_attr "type" x) as [ty |]; [| auto]. destruct (String.eqb ty "notification"); auto.
Qed.

Lemma emit_draws : forall nm tail tree section lines, In section ["other"; "rpc"; "notification"] ->
  (forall x, In x (xkids tree) -> get_attr "type" x <> Some "other") ->
  emit_children nm tail tree section = Ok lines ->
  exists ts, Forall2 (Labelled (fun x n => nm x = Ok n) tail (xkids tree)) (filter (in_section section) (xkids tree)) ts /\
    lines = draws "    " ts.
Proof.
  intros nm tail tree section lines Hs Hot H. unfold emit_children in H.
  assert (G : forall l done lines', xkids tree = done ++ l ->
    mapM (emit_line nm tail tree section) (roots_of (length done) section l) = Ok lines' ->
    exists ts, Forall2 (Labelled (fun x n => nm x = Ok n) tail (xkids tree)) (filter (in_section section) l) ts /\ lines' = draws "    " ts).
  { induction l as [| c l IH]; intros done lines' E HM.
    - injection HM as <-. exists []. split; [constructor | reflexivity].
    - cbn [roots_of] in HM. apply mapM_app in HM. destruct HM as (l1 & l2 & M1 & M2 & ->).
      assert (Hc : In c (xkids tree)) by (rewrite E; apply in_or_app; right; left; reflexivity).
      destruct (is_type_in section c Hs (Hot c Hc)) as (I1 & I2). rewrite I1 in M1. cbn [filter].
      destruct (IH (done ++ [c]) l2) as (ts & L2 & ->).
      + rewrite <- app_assoc. exact E.
      + rewrite app_length. cbn [length]. rewrite Nat.add_1_r. exact M2.
      + destruct (in_section section c) eqn:Ec.
        * assert (Hnth : nth_error (xkids tree) (length done) = Some c).
          { rewrite E, nth_error_app2 by lia. rewrite Nat.sub_diag. reflexivity. }
          assert (EB : bar tree section ([] ++ [length done]) = (if match ts with [] => true | _ => false end then "   " else "|  ")).
          { cbn [app bar]. pose proof (next_sibs_app tree [] (length done) tree eq_refl) as NS. cbn [app] in NS. rewrite NS. clear NS.
            rewrite E. replace (done ++ c :: l) with ((done ++ [c]) ++ l) by (rewrite <- app_assoc; reflexivity).
            replace (S (length done)) with (length (done ++ [c])) by (rewrite app_length; cbn; lia).
            rewrite skipn_app, skipn_all, Nat.sub_diag. cbn [app skipn].
            rewrite (filter_ext_in (following section) (in_section section)).
            - inversion L2; reflexivity.
            - intros y Hy. apply is_type_in; auto. apply Hot. rewrite E. apply in_or_app. right. right. exact Hy. }
          destruct (iter_draw nm tail tree section c [] (length done) tree _ l1 eq_refl Hnth EB M1) as (t & T1 & ->).
          exists (t :: ts). split; [constructor; auto |]. reflexivity.
        * injection M1 as <-. exists ts. split; [exact L2 | reflexivity]. }
  exact (G (xkids tree) [] lines eq_refl H).
Qed.

Lemma emit_page : forall nm tail tree text, (forall x, In x (xkids tree) -> get_attr "type" x <> Some "other") ->
  emit_tree nm tail tree = Ok text ->
  exists a b c, Forall2 (Labelled (fun x n => nm x = Ok n) tail (xkids tree)) (filter in_data (xkids tree)) a /\
    Forall2 (Labelled (fun x n => nm x = Ok n) tail (xkids tree)) (filter in_rpcs (xkids tree)) b /\
    Forall2 (Labelled (fun x n => nm x = Ok n) tail (xkids tree)) (filter in_notifications (xkids tree)) c /\
    text = String.concat (String newline "") (page (xtag tree) a b c).
Proof.
  intros nm tail tree text Hot H. unfold emit_tree in H.
  apply bind_ok in H. destruct H as (la & HA & H). apply bind_ok in H. destruct H as (lb & HB & H). apply bind_ok in H. destruct H as (lc & HC & H).
  destruct (emit_draws nm tail tree "other" la ltac:(cbn; tauto) Hot HA) as (a & A1 & A2).
  destruct (emit_draws nm tail tree "rpc" lb ltac:(cbn; tauto) Hot HB) as (b & B1 & B2).
  destruct (emit_draws nm tail tree "notification" lc ltac:(cbn; tauto) Hot HC) as (c & C1 & C2).
  exists a, b, c. split; [exact A1 |]. split; [exact B1 |]. split; [exact C1 |].
  assert (N : forall title f, section_text title f = match draws "    " f with [] => [] | l => [""; title] ++ l end).
  { intros title [| [s ks] f]; [reflexivity |]. unfold section_text. cbn [draws]. rewrite draw_eq. reflexivity. }
  unfold page. rewrite !N, <- A2, <- B2, <- C2. destruct lb, lc; congruence.
Qed.

(** ** Lines join *)
Lemma plus_line : forall pre s, ~ In "+"%char (chars pre) -> plus (pre ++ "+--" ++ s)%string = String.length pre.
Proof.
  induction pre as [| a pre IH]; intros s H; [reflexivity |]. cbn [append plus String.length].
  destruct (Ascii.eqb_spec a "+") as [-> |]; [exfalso; apply H; left; reflexivity |].
  f_equal. apply IH. intro G. apply H. right. exact G.
Qed.
Lemma get_app : forall a b c, c < String.length a -> String.get c (a ++ b)%string = String.get c a.
Proof.
  induction a as [| x a IH]; intros b c H; cbn in H; [lia |]. destruct c as [| c]; [reflexivity |]. cbn. apply IH. lia.
Qed.
Lemma get_app2 : forall a b c, String.get (String.length a + c) (a ++ b)%string = String.get c b.
Proof. induction a as [| x a IH]; intros b c; [reflexivity |]. cbn. apply IH. Qed.
Lemma length_app_s : forall a b, String.length (a ++ b)%string = String.length a + String.length b.
Proof. induction a; intros b; cbn; auto. Qed.
Definition pbar (pre : string) (c : nat) : Prop := c < String.length pre /\ String.get c pre = Some "|"%char.
Lemma bar_line : forall pre s c, ~ In "+"%char (chars pre) -> bar_at (pre ++ "+--" ++ s)%string c <-> pbar pre c.
Proof.
  intros pre s c H. unfold bar_at, pbar. rewrite plus_line by auto. split; intros (L & G); split; auto.
  - rewrite get_app in G; auto.
  - rewrite get_app; auto.
Qed.
Definition fits (pre : string) (r : list string) : Prop :=
  match r with
  | [] => forall c, ~ pbar pre c
  | b :: _ => (forall c, pbar pre c -> bar_at b c \/ plus b = c) /\ pbar pre (plus b)
  end.
Lemma pbar_more : forall pre (last : bool) c, pbar (pre ++ if last then "   " else "|  ")%string c <->
  pbar pre c \/ (last = false /\ c = String.length pre).
Proof.
  intros pre last c. unfold pbar. rewrite length_app_s. split.
  - intros (L & G). destruct (Nat.lt_ge_cases c (String.length pre)) as [C | C].
    + rewrite get_app in G by auto. auto.
    + right. replace c with (String.length pre + (c - String.length pre)) in G by lia. rewrite get_app2 in G.
      destruct last; cbn in L; remember (c - String.length pre) as k.
      * destruct k as [| [| [| k]]]; cbn in G; try discriminate.
      * destruct k as [| [| [| k]]]; cbn in G; try discriminate. split; auto. lia.
  - intros [(L & G) | (-> & ->)].
    + split; [lia | rewrite get_app by auto; auto].
    + split; [cbn; lia |]. rewrite <- (Nat.add_0_r (String.length pre)) at 1. rewrite get_app2. reflexivity.
Qed.
Lemma clean_more : forall pre (last : bool), ~ In "+"%char (chars pre) -> ~ In "+"%char (chars (pre ++ if last then "   " else "|  ")%string).
Proof.
  intros pre last H G. rewrite chars_app in G. apply in_app_or in G. destruct G as [G | G]; [auto |].
  destruct last; cbn in G; intuition discriminate.
Qed.

Lemma draws_join : forall n l pre r, length (draws pre l) <= n -> ~ In "+"%char (chars pre) -> Joins r -> fits pre r -> Joins (draws pre l ++ r).
Proof.
  induction n as [| n IH]; intros l pre r Hn Hp HR HF.
  - destruct l as [| [s ks] q]; [exact HR |]. cbn [draws] in Hn. rewrite draw_eq in Hn. cbn in Hn. lia.
  - destruct l as [| [s ks] q]; [exact HR |]. cbn [draws] in *. rewrite draw_eq in *. cbn [app] in *.
    set (last := match q with [] => true | _ => false end) in *.
    set (pre' := (pre ++ if last then "   " else "|  ")%string) in *.
    cbn [length] in Hn. rewrite app_length in Hn. rewrite <- app_assoc.
    assert (J1 : Joins (draws pre q ++ r)) by (apply IH; auto; lia).
    assert (Hp' : ~ In "+"%char (chars pre')) by (apply clean_more; auto).
    assert (F1 : fits pre' (draws pre q ++ r)).
    { destruct q as [| [s2 k2] q2].
      - cbn [draws app]. unfold fits in *. destruct r as [| b r].
        + intros c G. apply (pbar_more pre last) in G. destruct G as [G | (G & _)]; [exact (HF c G) | unfold last in G; discriminate].
        + destruct HF as (H1 & H2). split.
          * intros c G. apply (pbar_more pre last) in G. destruct G as [G | (G & _)]; [auto | unfold last in G; discriminate].
          * apply (pbar_more pre last). auto.
      - cbn [draws]. rewrite draw_eq. cbn [app]. unfold fits. rewrite plus_line by auto. split.
        + intros c G. apply (pbar_more pre last) in G. rewrite bar_line by auto. destruct G as [G | (_ & ->)]; auto.
        + apply (pbar_more pre last). auto. }
    assert (J2 : Joins (draws pre' ks ++ draws pre q ++ r)) by (apply IH; auto; lia).
    destruct ks as [| [s3 k3] q3].
    + cbn [draws app] in J2 |- *. destruct (draws pre q ++ r) as [| b r'] eqn:EB.
      * constructor. intros c G. apply bar_line in G; auto. apply (F1 c). apply (pbar_more pre last). auto.
      * constructor; [| exact J2]. destruct F1 as (G1 & G2). unfold below. rewrite plus_line by auto. split.
        -- intros c G. apply bar_line in G; auto. apply G1. apply (pbar_more pre last). auto.
        -- apply (pbar_more pre last) in G2. destruct G2 as [G2 | (_ & G2)]; [| right; left; exact G2]. right. right. apply bar_line; auto.
    + cbn [draws] in J2 |- *. rewrite draw_eq in *. cbn [app] in *. constructor; [| exact J2].
      unfold below. rewrite !plus_line by auto. split.
      * intros c G. apply bar_line in G; auto. left. apply bar_line; auto. apply (pbar_more pre last). auto.
      * left. unfold pre'. rewrite length_app_s. destruct last; reflexivity.
Qed.
Lemma draws_joins : forall l, Joins (draws "    " l).
Proof.
  intros l. rewrite <- (app_nil_r (draws "    " l)). apply (draws_join (length (draws "    " l))).
  - auto.
  - cbn. intuition discriminate.
  - constructor.
  - intros c (L & G). cbn in L. do 4 (destruct c as [| c]; [discriminate |]). lia.
Qed.

(** ** The drawing can be read *)
Definition short (d : nat) (r : list string) : Prop := match r with [] => True | b :: _ => plus b < d end.
Lemma line_inj : forall p1 p2 a b, String.length p1 = String.length p2 ->
  (p1 ++ "+--" ++ a)%string = (p2 ++ "+--" ++ b)%string -> a = b.
Proof.
  induction p1 as [| x p1 IH]; intros [| y p2] a b L E; try discriminate.
  - injection E as E. exact E.
  - injection E as _ E. injection L as L. exact (IH p2 a b L E).
Qed.
Lemma draws_read : forall n l1 l2 p1 p2 r1 r2, length (draws p1 l1) <= n ->
  ~ In "+"%char (chars p1) -> ~ In "+"%char (chars p2) -> String.length p1 = String.length p2 ->
  short (String.length p1) r1 -> short (String.length p1) r2 ->
  draws p1 l1 ++ r1 = draws p2 l2 ++ r2 -> l1 = l2 /\ r1 = r2.
Proof.
  induction n as [| n IH]; intros l1 l2 p1 p2 r1 r2 Hn C1 C2 L S1 S2 E.
  - destruct l1 as [| [s ks] q]; [| cbn [draws] in Hn; rewrite draw_eq in Hn; cbn in Hn; lia].
    destruct l2 as [| [s ks] q]; [auto |]. cbn [draws app] in E. rewrite draw_eq in E. cbn [app] in E.
    rewrite E in S1. cbn [short] in S1. rewrite plus_line in S1 by auto. lia.
  - destruct l1 as [| [s ks] q]; destruct l2 as [| [s2 k2] q2].
    + auto.
    + cbn [draws app] in E. rewrite draw_eq in E. cbn [app] in E. rewrite E in S1. cbn [short] in S1. rewrite plus_line in S1 by auto. lia.
    + cbn [draws app] in E. rewrite draw_eq in E. cbn [app] in E. rewrite <- E in S2. cbn [short] in S2. rewrite plus_line in S2 by auto. lia.
    + cbn [draws] in E, Hn. rewrite !draw_eq in E. rewrite draw_eq in Hn. cbn [app length] in E, Hn. rewrite app_length in Hn.
      assert (E1 := f_equal (hd "") E). assert (E2 := f_equal (@tl _) E). cbn [hd tl] in E1, E2. clear E.
      apply line_inj in E1; auto. subst s2. rewrite <- !app_assoc in E2.
      assert (SS : forall p l r, String.length p = String.length p1 -> ~ In "+"%char (chars p) -> short (String.length p1) r ->
                   forall (last : bool), short (String.length (p1 ++ if last then "   " else "|  ")%string) (draws p l ++ r)).
      { intros p [| [s3 k3] q3] r Lp Cp Sr last; rewrite length_app_s.
        - cbn [draws app]. destruct r as [| b r]; cbn [short] in *; auto. lia.
        - cbn [draws]. rewrite draw_eq. cbn [app short]. rewrite plus_line by auto. destruct last; cbn; lia. }
      apply IH in E2.
      * destruct E2 as (-> & E2). apply IH in E2; auto; [| lia]. destruct E2 as (-> & ->). auto.
      * lia.
      * apply clean_more; auto.
      * apply clean_more; auto.
      * rewrite !length_app_s, L. destruct q, q2; reflexivity.
      * apply SS; auto.
      * apply SS; auto.
Qed.
Lemma draws_inj : forall l1 l2, draws "    " l1 = draws "    " l2 -> l1 = l2.
Proof.
  intros l1 l2 E. apply (draws_read (length (draws "    " l1)) l1 l2 "    " "    " [] []); auto; cbn; try (intuition discriminate).
  rewrite !app_nil_r. exact E.
Qed.

(** The whole page *)
Inductive OneLine : ltree -> Prop := oneline : forall s ks, ~ In newline (chars s) -> Forall OneLine ks -> OneLine (LNode s ks).
Lemma concat_lines_inj : forall l1 l2, l1 <> [] -> l2 <> [] -> Forall (fun s => ~ In newline (chars s)) l1 -> Forall (fun s => ~ In newline (chars s)) l2 ->
  String.concat (String newline "") l1 = String.concat (String newline "") l2 -> l1 = l2.
Proof.
  assert (CC : forall a b r, String.concat (String newline "") (a :: b :: r) = (a ++ String newline (String.concat (String newline "") (b :: r)))%string) by reflexivity.
  assert (CUT : forall a b r s, ~ In newline (chars a) -> ~ In newline (chars b) -> (a ++ String newline r)%string = (b ++ String newline s)%string -> a = b /\ r = s).
  { induction a as [| x a IH]; intros [| y b] r s Ha Hb E; cbn in E.
    - injection E as ->. auto.
    - injection E as <- _. exfalso. apply Hb. left. reflexivity.
    - injection E as -> _. exfalso. apply Ha. left. reflexivity.
    - injection E as -> E. destruct (IH b r s) as (-> & ->); auto; intro G; [apply Ha | apply Hb]; right; auto. }
  assert (NO : forall a b r, ~ In newline (chars a) -> a <> (b ++ String newline r)%string).
  { intros a b r H ->. apply H. rewrite chars_app. apply in_or_app. right. left. reflexivity. }
  induction l1 as [| a l1 IH]; intros [| b l2] N1 N2 F1 F2 E; try congruence.
  inversion F1 as [| ? ? A1 A2]; subst. inversion F2 as [| ? ? B1 B2]; subst.
  destruct l1 as [| a1 l1], l2 as [| b1 l2]; try rewrite CC in E; try rewrite CC in E.
  - cbn in E. congruence.
  - cbn [String.concat] in E. exfalso. exact (NO _ _ _ A1 E).
  - cbn [String.concat] in E. exfalso. symmetry in E. exact (NO _ _ _ B1 E).
  - destruct (CUT _ _ _ _ A1 B1 E) as (-> & E'). f_equal. apply IH; auto; discriminate.
Qed.
Lemma draws_oneline : forall n l pre, length (draws pre l) <= n -> ~ In newline (chars pre) -> Forall OneLine l -> Forall (fun s => ~ In newline (chars s)) (draws pre l).
Proof.
  induction n as [| n IH]; intros [| [s ks] q] pre Hn Hp HO.
  - constructor.
  - cbn [draws] in Hn. rewrite draw_eq in Hn. cbn in Hn. lia.
  - constructor.
  - cbn [draws] in *. rewrite draw_eq in *. cbn [app length] in *. rewrite app_length in Hn.
    inversion HO as [| ? ? O1 O2]; subst. inversion O1 as [? ? O3 O4]; subst. constructor.
    + rewrite !chars_app. intro G. apply in_app_or in G. destruct G as [G | G]; [auto |]. cbn in G.
      destruct G as [G | [G | [G | G]]]; try discriminate. auto.
    + apply Forall_app. split; apply IH; auto; try lia. rewrite chars_app. intro G. apply in_app_or in G.
      destruct G as [G | G]; [auto |]. destruct q; cbn in G; intuition discriminate.
Qed.

Lemma draws_full : forall l, Forall (fun s => exists r, s = ("    " ++ r)%string) (draws "    " l).
Proof.
  intros l.
  assert (G : forall n l pre, length (draws pre l) <= n -> (exists p, pre = ("    " ++ p)%string) -> Forall (fun s => exists r, s = ("    " ++ r)%string) (draws pre l)).
  { clear l. induction n as [| n IH]; intros [| [s ks] q] pre Hn (p & ->).
    - constructor.
    - cbn [draws] in Hn. rewrite draw_eq in Hn. cbn in Hn. lia.
    - constructor.
    - cbn [draws] in *. rewrite draw_eq in *. cbn [app length] in *. rewrite app_length in Hn.
      constructor; [rewrite app_assoc_s; eauto |]. apply Forall_app. split; apply IH; try lia; [rewrite app_assoc_s |]; eauto. }
  apply (G (length (draws "    " l)) l); auto. exists "". reflexivity.
Qed.
Lemma first_empty : forall a b c d : list string, Forall (fun s => s <> "") a -> Forall (fun s => s <> "") b ->
  a ++ "" :: c = b ++ "" :: d -> a = b /\ c = d.
Proof.
  induction a as [| x a IH]; intros [| y b] c d Ha Hb E; cbn in E.
  - injection E as ->. auto.
  - injection E as E _. inversion Hb; subst. congruence.
  - injection E as E _. inversion Ha; subst. congruence.
  - inversion Ha; subst. inversion Hb; subst. injection E as -> E. destruct (IH b c d) as (-> & ->); auto.
Qed.
Lemma no_empty : forall (a b d : list string), Forall (fun s => s <> "") a -> a = b ++ "" :: d -> False.
Proof. intros a b d H ->. apply Forall_app in H. destruct H as (_ & H). inversion H; congruence. Qed.

Lemma page_inj : forall n1 n2 a1 a2 b1 b2 c1 c2, ~ In newline (chars n1) -> ~ In newline (chars n2) ->
  Forall OneLine (a1 ++ b1 ++ c1) -> Forall OneLine (a2 ++ b2 ++ c2) ->
  String.concat (String newline "") (page n1 a1 b1 c1) = String.concat (String newline "") (page n2 a2 b2 c2) ->
  n1 = n2 /\ a1 = a2 /\ b1 = b2 /\ c1 = c2.
Proof.
  intros n1 n2 a1 a2 b1 b2 c1 c2 N1 N2 F1 F2 E.
  assert (FP : forall n a b c, ~ In newline (chars n) -> Forall OneLine (a ++ b ++ c) -> Forall (fun s => ~ In newline (chars s)) (page n a b c)).
  { intros n a b c Hn H. apply Forall_app in H. destruct H as (Ha & H). apply Forall_app in H. destruct H as (Hb & Hc).
    assert (D : forall l, Forall OneLine l -> Forall (fun s => ~ In newline (chars s)) (draws "    " l))
      by (intros l Hl; apply (draws_oneline (length (draws "    " l))); auto; cbn; intuition discriminate).
    unfold page. constructor; [cbn; intuition discriminate |]. apply Forall_app. split; [auto |]. apply Forall_app.
    assert (S : forall title l, ~ In newline (chars title) -> Forall OneLine l -> Forall (fun s => ~ In newline (chars s)) (section_text title l)).
    { intros title [| t l] Ht Hl; [constructor |]. unfold section_text. constructor; [cbn; tauto |]. constructor; auto. }
    split; apply S; auto; cbn; intuition discriminate. }
  apply concat_lines_inj in E; [| discriminate | discriminate | apply FP; auto | apply FP; auto]. unfold page in E.
  assert (E1 := f_equal (hd "") E). assert (E2 := f_equal (@tl _) E). cbn [hd tl] in E1, E2. injection E1 as ->. split; auto.
  assert (NE : forall l, Forall (fun s => s <> "") (draws "    " l)).
  { intros l. pose proof (draws_full l) as G. eapply Forall_impl; [| exact G]. intros s (r & ->). discriminate. }
  clear E FP.
  assert (TAIL : forall x y, section_text "  rpcs:" b1 ++ section_text "  notifications:" c1 = x -> section_text "  rpcs:" b2 ++ section_text "  notifications:" c2 = y ->
            (x = [] \/ exists d, x = "" :: d) /\ (y = [] \/ exists d, y = "" :: d)).
  { intros x y <- <-. split; [destruct b1, c1 | destruct b2, c2]; cbn; eauto. }
  destruct (TAIL _ _ eq_refl eq_refl) as (T1 & T2). clear TAIL.
  assert (AB : draws "    " a1 = draws "    " a2 /\
    section_text "  rpcs:" b1 ++ section_text "  notifications:" c1 = section_text "  rpcs:" b2 ++ section_text "  notifications:" c2).
  { revert E2. destruct T1 as [-> | (d1 & ->)], T2 as [-> | (d2 & ->)]; intros E2.
    - rewrite !app_nil_r in E2. auto.
    - rewrite app_nil_r in E2. destruct (no_empty _ _ _ (NE a1) E2).
    - rewrite app_nil_r in E2. symmetry in E2. destruct (no_empty _ _ _ (NE a2) E2).
    - apply first_empty in E2; auto. destruct E2 as (-> & ->). auto. }
  clear T1 T2 E2. destruct AB as (A & B). apply draws_inj in A. split; auto.
  destruct b1 as [| t1 b1], b2 as [| t2 b2].
  - split; auto. cbn [section_text app] in B. destruct c1 as [| x1 c1], c2 as [| x2 c2]; auto; try discriminate B.
    unfold section_text in B. cbn [app] in B. injection B as B. exact (draws_inj (x1 :: c1) (x2 :: c2) B).
  - exfalso. cbn [section_text app] in B. destruct c1; discriminate B.
  - exfalso. cbn [section_text app] in B. destruct c2; discriminate B.
  - unfold section_text at 1 3 in B. cbn [app] in B. apply (f_equal (skipn 2)) in B. cbn [skipn] in B.
    set (B1 := t1 :: b1) in *. set (B2 := t2 :: b2) in *. clearbody B1 B2.
    destruct c1 as [| x1 c1], c2 as [| x2 c2]; unfold section_text in B; cbn [app] in B.
    + rewrite !app_nil_r in B. apply draws_inj in B. auto.
    + rewrite app_nil_r in B. destruct (no_empty _ _ _ (NE B1) B).
    + rewrite app_nil_r in B. symmetry in B. destruct (no_empty _ _ _ (NE B2) B).
    + apply first_empty in B; auto. destruct B as (B & C). injection C as C. apply draws_inj in B. apply (draws_inj (x1 :: c1) (x2 :: c2)) in C. auto.
Qed.

(** ** Marks *)
Lemma name_shown : forall m x s, name_str m x = Ok s ->
  exists ty d f mk, get_attr "type" x = Some ty /\ url_to_prefix m (xtag x) = Ok d /\
    FlagsOf ty x f /\ MarkOf ty x mk /\ s = shown f mk (remove_model_prefix m d).
Proof.
  intros m x s H. unfold name_str in H. apply bind_ok in H. destruct H as (d & Hd & H). cbv zeta in H.
  destruct (get_attr "type" x) as [ty |] eqn:ET; [| discriminate]. exists ty, d, (flags_str x).
  assert (HF : FlagsOf ty x (flags_str x)).
  { unfold FlagsOf, flags_str. rewrite ET. cbn [eq_opt]. destruct (String.eqb ty "rpc" || String.eqb ty "action"); [reflexivity |].
    destruct (String.eqb ty "notification"); [reflexivity |]. destruct (get_attr "access" x) as [a |]; [| reflexivity].
    destruct (String.eqb_spec a "write") as [-> | A1]; [reflexivity |].
    destruct (String.eqb_spec a "read-write") as [-> | A2]; [reflexivity |].
    destruct (String.eqb_spec a "read-only") as [-> | A3]; [reflexivity |].
    repeat (match goal with |- context [match ?z with EmptyString => _ | String _ _ => _ end] => destruct z
                          | |- context [match ?z with Ascii _ _ _ _ _ _ _ _ => _ end] => destruct z
                          | |- context [if ?z then _ else _] => destruct z end; try reflexivity); try congruence. }
  set (f := flags_str x) in *. set (n := remove_model_prefix m d) in *. clearbody f n.
  assert (HM : eq_opt "true" (get_attr "mandatory" x) = true <-> is_mandatory x) by apply eq_opt_true.
  assert (HM' : eq_opt "true" (get_attr "mandatory" x) = false <-> ~ is_mandatory x).
  { rewrite <- HM. destruct (eq_opt "true" (get_attr "mandatory" x)); split; congruence. }
  assert (Es := f_equal (fun r => match r with Ok v => v | Err _ => s end) H). cbv beta iota in Es. clear H. symmetry in Es.
  destruct (String.eqb_spec ty "choice") as [-> | N1].
  { destruct (eq_opt "true" (get_attr "mandatory" x)); [exists MChoice | exists MOptChoice]; cbn [MarkOf]; repeat (split; auto); tauto. }
  destruct (String.eqb_spec ty "case") as [-> | N2].
  { exists MCase. cbn [MarkOf]. repeat (split; auto). }
  destruct (String.eqb_spec ty "container") as [-> | N3].
  { exists MPlain. cbn [MarkOf]. repeat (split; auto). right. cbn. intuition discriminate. }
  destruct (String.eqb ty "leaf" || String.eqb ty "anyxml" || String.eqb ty "anydata") eqn:EL.
  { assert (HI : In ty ["leaf"; "anyxml"; "anydata"]).
    { rewrite !orb_true_iff, !String.eqb_eq in EL. cbn. intuition congruence. }
    destruct (eq_opt "true" (get_attr "mandatory" x)); [exists MPlain | exists MOptional]; cbn [MarkOf]; repeat (split; auto); tauto. }
  assert (HL : ~ In ty ["leaf"; "anyxml"; "anydata"]).
  { rewrite !orb_false_iff, !String.eqb_neq in EL. cbn. intuition congruence. }
  destruct (String.eqb_spec ty "list") as [-> | N4].
  { destruct (get_attr "key" x) as [k |] eqn:EK; [exists (MKeyed k) | exists MMany]; cbn [MarkOf]; repeat (split; auto). }
  destruct (String.eqb_spec ty "leaf-list") as [-> | N5].
  { exists MMany. cbn [MarkOf]. repeat (split; auto). }
  exists MPlain. cbn [MarkOf]. repeat (split; auto). right. cbn in *. intuition congruence.
Qed.

Definition flag_texts : list string := ["-x"; "-n"; "-w"; "rw"; "ro"; "--"; ""].
Lemma FlagsOf_In : forall ty x f, FlagsOf ty x f -> In f flag_texts.
Proof.
  intros ty x f H. unfold FlagsOf in H.
  repeat (match type of H with context [match ?z with EmptyString => _ | String _ _ => _ end] => destruct z
                          | context [match ?z with Ascii _ _ _ _ _ _ _ _ => _ end] => destruct z
                          | context [match ?z with Some _ => _ | None => _ end] => destruct z
                          | context [if ?z then _ else _] => destruct z end; try (subst f; cbn; tauto)).
Qed.

Definition body (mk : mark) (n : string) : string :=
  (match mk with
   | MPlain => n | MOptional => n ++ "?" | MMany => n ++ "*" | MKeyed k => n ++ "* [" ++ k ++ "]"
   | MChoice => "(" ++ n ++ ")" | MOptChoice => "(" ++ n ++ ")?" | MCase => "" end)%string.
Lemma cut_s : forall (P : ascii -> Prop) a b r r', (forall c, In c (chars a) -> P c) -> (forall c, In c (chars b) -> P c) ->
  (forall c s, r = String c s -> ~ P c) -> (forall c s, r' = String c s -> ~ P c) ->
  (a ++ r)%string = (b ++ r')%string -> a = b /\ r = r'.
Proof.
  intros P a. induction a as [| x a IH]; intros [| y b] r r' Ha Hb Hr Hr' E; cbn in E.
  - auto.
  - subst r. exfalso. exact (Hr _ _ eq_refl (Hb y (or_introl eq_refl))).
  - subst r'. exfalso. exact (Hr' _ _ eq_refl (Ha x (or_introl eq_refl))).
  - injection E as -> E. destruct (IH b r r') as (-> & ->); auto; intros c Hc; [apply Ha | apply Hb]; right; auto.
Qed.
Definition plain_char (c : ascii) : Prop := ~ In c (newline :: chars " {}()?*[]").
Lemma tail_first : forall t c s, TailText t -> t = String c s -> c = " "%char.
Proof. intros t c s [-> | [(r & ->) | (r & ->)]] E; [discriminate | |]; cbn in E; congruence. Qed.

Definition rest (mk : mark) : string :=
  (match mk with MPlain => "" | MOptional => "?" | MMany => "*" | MKeyed k => "* [" ++ k ++ "]"
               | MChoice => ")" | MOptChoice => ")?" | MCase => ")" end)%string.
Definition opens (mk : mark) : bool := match mk with MChoice | MOptChoice | MCase => true | _ => false end.
Lemma shown_eq : forall f mk n t, (shown f mk n ++ t)%string =
  ((match mk with MCase => ":" | _ => f ++ " " end) ++ (if opens mk then "(" else "") ++ n ++ rest mk ++ t)%string.
Proof. intros f mk n t. destruct mk; unfold shown, rest, opens; rewrite ?app_assoc_s; reflexivity. Qed.
Lemma rest_first : forall mk t c s, TailText t -> (rest mk ++ t)%string = String c s -> ~ plain_char c.
Proof.
  intros mk t c s HT E. assert (G : In c (chars " )?*")); [| unfold plain_char; cbn in *; intuition].
  destruct mk; cbn in E; try (injection E as <- _; cbn; tauto).
  rewrite (tail_first t c s HT E). cbn. tauto.
Qed.

Lemma shown_read : forall f1 f2 m1 m2 n1 n2 t1 t2, In f1 flag_texts -> In f2 flag_texts -> Display n1 -> Display n2 ->
  (forall k, m1 = MKeyed k -> ~ In "]"%char (chars k)) -> (forall k, m2 = MKeyed k -> ~ In "]"%char (chars k)) ->
  TailText t1 -> TailText t2 -> (shown f1 m1 n1 ++ t1)%string = (shown f2 m2 n2 ++ t2)%string ->
  (m1 <> MCase -> f1 = f2) /\ m1 = m2 /\ n1 = n2 /\ t1 = t2.
Proof.
  intros f1 f2 m1 m2 n1 n2 t1 t2 F1 F2 D1 D2 K1 K2 T1 T2 E. rewrite !shown_eq in E.
  assert (HD : (match m1 with MCase => ":" | _ => f1 ++ " " end)%string = (match m2 with MCase => ":" | _ => f2 ++ " " end)%string /\
               ((if opens m1 then "(" else "") ++ n1 ++ rest m1 ++ t1)%string = ((if opens m2 then "(" else "") ++ n2 ++ rest m2 ++ t2)%string).
  { generalize dependent ((if opens m1 then "(" else "") ++ n1 ++ rest m1 ++ t1)%string.
    generalize dependent ((if opens m2 then "(" else "") ++ n2 ++ rest m2 ++ t2)%string. intros x2 x1 E.
    assert (H1 : exists h, In h (":" :: map (fun f => f ++ " ")%string flag_texts) /\ h = (match m1 with MCase => ":" | _ => f1 ++ " " end)%string).
    { destruct m1; eexists; (split; [| reflexivity]); try (left; reflexivity); right; apply in_map_iff; exists f1; auto. }
    assert (H2 : exists h, In h (":" :: map (fun f => f ++ " ")%string flag_texts) /\ h = (match m2 with MCase => ":" | _ => f2 ++ " " end)%string).
    { destruct m2; eexists; (split; [| reflexivity]); try (left; reflexivity); right; apply in_map_iff; exists f2; auto. }
    destruct H1 as (h1 & I1 & Q1), H2 as (h2 & I2 & Q2). rewrite <- Q1, <- Q2 in E |- *. clear -I1 I2 E. cbn in I1, I2.
    destruct I1 as [<- | [<- | [<- | [<- | [<- | [<- | [<- | [<- | []]]]]]]]]; destruct I2 as [<- | [<- | [<- | [<- | [<- | [<- | [<- | [<- | []]]]]]]]];
      cbn in E; try discriminate E; injection E as ->; auto. }
  destruct HD as (HF & HB).
  assert (NP : forall n r c s, Display n -> (n ++ r)%string = String c s -> plain_char c).
  { intros [| a n] r c s (Dn & Dc) Es; [congruence |]. injection Es as <- _. apply Dc. left. reflexivity. }
  assert (HO : opens m1 = opens m2 /\ (n1 ++ rest m1 ++ t1)%string = (n2 ++ rest m2 ++ t2)%string).
  { destruct (opens m1), (opens m2); cbn [append] in HB; auto.
    - injection HB as HB. auto.
    - exfalso. symmetry in HB. apply (NP _ _ _ _ D2 HB). cbn. tauto.
    - exfalso. apply (NP _ _ _ _ D1 HB). cbn. tauto. }
  destruct HO as (HO & HN). destruct (cut_s plain_char n1 n2 (rest m1 ++ t1) (rest m2 ++ t2)) as (-> & HR).
  { apply D1. } { apply D2. } { intros c s. apply rest_first. exact T1. } { intros c s. apply rest_first. exact T2. } { exact HN. }
  assert (G : m1 = m2 /\ t1 = t2).
  { assert (SP : forall t s, TailText t -> t = String " " (String "[" s) -> False).
    { intros t s [-> | [(r & ->) | (r & ->)]] Et; discriminate Et. }
    clear HB HN D1 D2.
    destruct m1, m2; try discriminate HO; cbn [rest append] in HR; auto.
    all: try (apply (tail_first _ _ _ T1) in HR; discriminate HR).
    all: try (symmetry in HR; apply (tail_first _ _ _ T2) in HR; discriminate HR).
    all: try discriminate HR.
    all: try (injection HR as HR); auto.
    all: try (exfalso; exact (SP _ _ T1 HR)).
    all: try (exfalso; symmetry in HR; exact (SP _ _ T2 HR)).
    - rewrite !app_assoc_s in HR. cbn [append] in HR.
      destruct (cut_s (fun c => c <> "]"%char) k k0 (String "]" t1) (String "]" t2)) as (-> & Et).
      + intros c Hc ->. exact (K1 k eq_refl Hc).
      + intros c Hc ->. exact (K2 k0 eq_refl Hc).
      + intros c s Es. injection Es as <- _. tauto.
      + intros c s Es. injection Es as <- _. tauto.
      + exact HR.
      + injection Et as ->. auto.
    - apply (tail_first _ _ _ T1) in HR. discriminate HR.
    - destruct f1 as [| a [| b f1]]; discriminate HF.
    - symmetry in HR. apply (tail_first _ _ _ T2) in HR. discriminate HR.
    - destruct f1 as [| a [| b f1]]; discriminate HF.
    - destruct f2 as [| a [| b f2]]; discriminate HF.
    - destruct f2 as [| a [| b f2]]; discriminate HF. }
  destruct G as (-> & ->). split; auto. intros N. destruct m2; try congruence.
  all: clear -HF; revert f2 HF; induction f1 as [| a f1 IH]; intros [| b f2] HF; auto; cbn in HF; injection HF; intros; subst.
  all: try (destruct f1; discriminate). all: try (destruct f2; discriminate). all: f_equal; auto.
Qed.
