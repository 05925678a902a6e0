(** Proofs about XPathM.v. *)
From Coq Require Import String Ascii List Bool Arith Lia.
From Verif Require Import Base BaseP XmlM CalcM CalcP DataSpec DataP TagM TagSpec TagP XPathM XPathSpec.
Import ListNotations.
Open Scope string_scope.
Open Scope list_scope.

(** ** Strings *)
Lemma app_nil_s : forall s, (s ++ "")%string = s.
Proof. induction s; cbn; congruence. Qed.
Lemma app_assoc_s : forall a b c, ((a ++ b) ++ c = a ++ (b ++ c))%string.
Proof. induction a; intros; cbn; congruence. Qed.
Lemma concat_cons : forall a l, String.concat "" (a :: l) = (a ++ String.concat "" l)%string.
Proof. intros a [| b l]; cbn; [rewrite app_nil_s |]; reflexivity. Qed.
Lemma concat_app : forall a l, String.concat "" (a ++ l) = (String.concat "" a ++ String.concat "" l)%string.
Proof.
  induction a as [| x a IH]; intros l; [reflexivity |].
  change ((x :: a) ++ l) with (x :: (a ++ l)). rewrite !concat_cons, IH, app_assoc_s. reflexivity.
Qed.

Lemma Ncname_not : forall s c, Ncname s -> In c (newline :: chars "/[]()=:{}" ++ chars dq) -> ~ In c (chars s).
Proof. intros s c (_ & H) Hc Hs. exact (H c Hs Hc). Qed.
Lemma Ncname_Name : forall s, Ncname s -> Name s.
Proof.
  intros s H. repeat split; try apply H; apply (Ncname_not s _ H); cbn; tauto.
Qed.

(** ** Tags *)
Definition pfx (od : omit) (d : string) (e : entry) : option string :=
  match od with
  | NoOmit => Some (e_prefix e)
  | _ => if String.eqb d (e_url e) then None else Some (e_prefix e)
  end.

Section Paths.
Variables (T : table) (urls : list string) (env : string -> option string) (od : omit).
Hypothesis HE : Env T urls env.
Let dst : notation := (KPrefix, od, Colon).

Lemma conv : forall d e n, Sole T KUrl e -> Word (e_url e) -> Ncname (e_prefix e) -> Ncname n ->
  convert_tag T d (etree (e_url e) n) LXML_ETREE dst = Ok (e_url e, show_qname (pfx od d e) n).
Proof.
  intros d e n HS HW HP HN. unfold dst.
  rewrite (from_etree T d (e_url e) n KPrefix od HW (Ncname_Name n HN) (possible_In T KUrl e (Sole_In _ _ _ HS))).
  pose proof (convert_part_sole T KUrl KPrefix e HS) as C. cbn [field] in C. rewrite C. cbn [bind].
  rewrite (format_word _ _ _ _ _ (proj1 HP)). unfold pfx.
  destruct od; [reflexivity | |]; destruct (String.eqb d (e_url e)); reflexivity.
Qed.

Lemma resolves : forall d e, Sole T KUrl e -> In (e_url e) urls -> resolve env d (pfx od d e) = Some (e_url e).
Proof.
  intros d e H1 H2. unfold pfx.
  assert (G : resolve env d (if String.eqb d (e_url e) then None else Some (e_prefix e)) = Some (e_url e)).
  { destruct (String.eqb_spec d (e_url e)) as [-> |]; [reflexivity | apply (HE e H1 H2)]. }
  destruct od; [apply (HE e H1 H2) | exact G | exact G].
Qed.
Lemma pfx_ok : forall d e, Ncname (e_prefix e) -> match pfx od d e with None => True | Some p => Ncname p end.
Proof. intros d e H. unfold pfx. destruct od; auto; destruct (String.eqb d (e_url e)); auto. Qed.
Lemma pfx_some : forall d e, od = NoOmit -> pfx od d e <> None.
Proof. intros d e ->. discriminate. Qed.

(** ** Predicates *)
Lemma leaf_value : forall cs c c' a b v, valid cs c = true -> valid cs c' = true ->
  In a (xkids c) -> In b (xkids c') -> xtag a = xtag b -> xtext a = Some v ->
  string_value b = match xtext b with Some w => w | None => "" end.
Proof.
  intros cs c c' a b v Hc Hc' Ha Hb Ht Hv.
  destruct (valid_inv cs c Hc) as (_ & _ & Ka). destruct (Ka a Ha) as (sa & Sa & Va).
  destruct (valid_inv cs c' Hc') as (_ & _ & Kb). destruct (Kb b Hb) as (sb & Sb & Vb).
  assert (E : sa = sb) by congruence. subst sb.
  assert (L : sty sa = TLeaf \/ sty sa = TLeafList).
  { destruct (sty sa) eqn:E; auto; rewrite (valid_text sa a Va) in Hv by congruence; discriminate. }
  destruct b as [t tx at_ ks]. cbn [string_value xtext]. cbn in Vb.
  assert (K : ks = []).
  { destruct L as [L | L]; rewrite L in Vb; rewrite !andb_true_iff in Vb;
      destruct Vb as [[[_ Vb] _] _]; destruct ks; auto; discriminate. }
  subst ks. cbn. destruct tx; [apply app_nil_s | reflexivity].
Qed.

Lemma find_kid_unique : forall k l c, In c l -> xtag c = k -> (forall c', In c' l -> xtag c' = k -> c' = c) ->
  find_kid k l = Some c.
Proof.
  intros k l c H1 H2 H3. unfold find_kid.
  destruct (find (fun c0 => String.eqb (xtag c0) k) l) as [b |] eqn:E.
  - apply find_some in E. destruct E as (E1 & E2). apply String.eqb_eq in E2. f_equal. auto.
  - exfalso. apply (find_none _ _ E c) in H1. apply String.eqb_neq in H1. auto.
Qed.

Definition pred_prefixed (q : xpred) : Prop := match q with PKey p _ _ => p <> None | PText _ => True end.

Lemma keys_preds : forall cs c ks ts d, valid cs c = true -> KeyTexts c ks ts ->
  Forall (Known T urls) ks -> Forall Quotable ts ->
  exists l ps,
    mapM (fun k =>
      let! x := convert_tag T d k LXML_ETREE dst in
      match find_kid k (xkids c) with
      | None => Ok ""
      | Some kn => Ok ("[" ++ snd x ++ "=" ++ dq ++ py_str (xtext kn) ++ dq ++ "]")%string
      end) ks = Ok l /\
    String.concat "" l = String.concat "" (map show_pred ps) /\ Forall PredOK ps /\
    (od = NoOmit -> Forall pred_prefixed ps) /\ (ks <> [] -> ps <> []) /\
    forall c' ts', valid cs c' = true -> KeyTexts c' ks ts' ->
      (forallb (pred_holds env d c') ps = true <-> ts' = ts).
Proof.
  intros cs c ks ts d Hv HK. induction HK as [| k a ks ts Ha Ht Hu HK IH]; intros Hn Hq.
  - exists [], []. cbn. split; auto. split; auto. split; auto. split; auto. split; auto. intros c' ts' _ H. inversion H. split; auto.
  - apply Forall_cons_iff in Hn. destruct Hn as ((e & n & HS & HU & Ek & HW & HP & HN) & Hn').
    apply Forall_cons_iff in Hq. destruct Hq as ((v & Ev & Nv & Lv) & Hq'). rewrite Ek in *. clear k Ek.
    destruct (IH Hn' Hq') as (l & ps & E1 & E2 & E3 & E4 & _ & E5).
    exists (show_pred (PKey (pfx od d e) n v) :: l), (PKey (pfx od d e) n v :: ps).
    split; [| split; [| split; [| split; [| split; [discriminate |]]]]].
    + cbn [mapM]. rewrite (conv d e n HS HW HP HN). cbn [bind snd].
      rewrite (find_kid_unique (etree (e_url e) n) (xkids c) a Ha Ht Hu), Ev. cbn [bind py_str].
      rewrite E1. reflexivity.
    + cbn [map]. rewrite !concat_cons, E2. reflexivity.
    + constructor; auto. cbn. split; [apply pfx_ok; auto | auto].
    + intros Ho. constructor; auto. cbn. apply pfx_some. auto.
    + intros c' ts' Hv' HK'. inversion HK' as [| k0 b ks0 ts0 Hb Htb Hub HKb Z1 Z2]. subst k0 ks0 ts'.
      cbn [forallb]. rewrite andb_true_iff, (E5 c' ts0 Hv' HKb). cbn [pred_holds].
      rewrite (resolves d e HS HU). rewrite existsb_exists. split.
      * intros ((b' & Hb' & Q) & ->). apply andb_true_iff in Q. destruct Q as (Q1 & Q2).
        cbn [named] in Q1. apply String.eqb_eq in Q1.
        assert (b' = b) by auto. subst b'. apply String.eqb_eq in Q2.
        rewrite (leaf_value cs c c' a b v Hv Hv' Ha Hb (eq_trans Ht (eq_sym Htb)) Ev) in Q2.
        rewrite Ev. f_equal. destruct (xtext b); congruence.
      * intros H. injection H as H1 H2. split; auto. exists b. split; auto.
        apply andb_true_iff. split.
        -- cbn [named]. apply String.eqb_eq. exact Htb.
        -- apply String.eqb_eq. rewrite (leaf_value cs c c' a b v Hv Hv' Ha Hb (eq_trans Ht (eq_sym Htb)) Ev), H1, Ev. reflexivity.
Qed.

Lemma node_preds_ok : forall cs c u d, valid cs c = true -> Ident cs c u ->
  Forall (Known T urls) (s_keys (si cs)) -> QuotableId u ->
  exists ps, node_preds T dst d cs c = Ok (String.concat "" (map show_pred ps)) /\
    Forall PredOK ps /\ (od = NoOmit -> Forall pred_prefixed ps) /\
    (sty cs = TList -> s_keys (si cs) <> [] -> ps <> []) /\
    forall c' u', valid cs c' = true -> xtag c' = xtag c -> Ident cs c' u' ->
      (forallb (pred_holds env d c') ps = true <-> u' = u).
Proof.
  intros cs c u d Hv HI Hk Hq. unfold node_preds. destruct HI as [Et | ts Et HK | N1 N2].
  - rewrite Et. cbn in Hq. destruct Hq as (v & Ev & Nv & Lv). rewrite Ev. exists [PText v].
    split; [reflexivity |]. split; [repeat constructor; auto |]. split; [intros _; repeat constructor |].
    split; [discriminate |]. intros c' u' Hv' Ht HI'. inversion HI' as [E | ? E | E1 E2]; try congruence. cbn. rewrite andb_true_r. rewrite Ht.
    destruct (xtext c') as [w |]; [| split; discriminate]. rewrite andb_true_iff, negb_true_iff, String.eqb_eq, String.eqb_neq.
    split; [intros (_ & ->); reflexivity |]. intros Z. injection Z as ->. auto.
  - rewrite Et. cbn in Hq. destruct (keys_preds cs c _ ts d Hv HK Hk Hq) as (l & ps & E1 & E2 & E3 & E4 & EN & E5).
    exists ps. fold dst. rewrite E1. cbn [bind]. rewrite E2. split; auto. split; auto. split; auto. split; auto.
    intros c' u' Hv' Ht HI'. inversion HI' as [E | ts' E HK' | F1 F2]; try congruence.
    rewrite (E5 c' ts' Hv' HK'), Ht. split; [congruence |]. intros Z. injection Z. auto.
  - exists []. split; [destruct (sty cs); try contradiction; reflexivity |]. split; [constructor |].
    split; [constructor |]. split; [congruence |]. intros c' u' Hv' Ht HI'. inversion HI'; try congruence. cbn. rewrite Ht. tauto.
Qed.

(** ** Steps *)
Lemma flat_map_one : forall {A} (f : nat * xml -> list A) l a i c, nth_error l i = Some c ->
  (forall j k, nth_error l j = Some k -> j <> i -> f (a + j, k) = []) ->
  flat_map f (combine (seq a (length l)) l) = f (a + i, c).
Proof.
  intros A f l. induction l as [| x l IH]; intros a i c Hi Ho; [destruct i; discriminate |].
  cbn [length seq combine flat_map]. destruct i as [| i].
  - cbn in Hi. injection Hi as ->. rewrite Nat.add_0_r.
    assert (G : flat_map f (combine (seq (S a) (length l)) l) = []).
    { clear IH. assert (G : forall j k, nth_error l j = Some k -> f (S a + j, k) = []).
      { intros j k Hj. rewrite <- (Ho (S j) k Hj) by lia. do 2 f_equal. lia. }
      clear Ho. revert a G. induction l as [| y l IHl]; intros a G; [reflexivity |].
      cbn [length seq combine flat_map]. rewrite (IHl (S a)).
      - pose proof (G 0 y eq_refl) as G0. rewrite Nat.add_0_r in G0. rewrite G0. reflexivity.
      - intros j k Hj. rewrite <- (G (S j) k Hj). do 2 f_equal. lia. }
    rewrite G, app_nil_r. reflexivity.
  - cbn in Hi. rewrite (IH (S a) i c Hi).
    + pose proof (Ho 0 x eq_refl ltac:(lia)) as H0. rewrite Nat.add_0_r in H0. rewrite H0. cbn [app]. do 2 f_equal. lia.
    + intros j k Hj Hd. rewrite <- (Ho (S j) k Hj) by lia. do 2 f_equal. lia.
Qed.

Lemma map_snd_nth : forall {A B} (l : list (A * B)) i b, nth_error (map snd l) i = Some b ->
  exists a, nth_error l i = Some (a, b).
Proof.
  intros A B l. induction l as [| (a, b') l IH]; intros [| i] b H; try discriminate; cbn in *.
  - injection H as ->. eauto.
  - eauto.
Qed.

Lemma same_ident_same_place : forall s x i j c c' cs u, valid s x = true ->
  nth_error (xkids x) i = Some c -> nth_error (xkids x) j = Some c' ->
  schema_child s (xtag c) = Ok cs -> xtag c' = xtag c -> Ident cs c u -> Ident cs c' u -> i = j.
Proof.
  intros s x i j c c' cs u Hv Hi Hj Hs Ht HI HI'. destruct (valid_inv s x Hv) as (_ & (lx & H1 & H2 & H3) & _).
  rewrite <- H1 in Hi, Hj. apply map_snd_nth in Hi. apply map_snd_nth in Hj.
  destruct Hi as (a & Hi). destruct Hj as (b & Hj). rewrite Forall_forall in H2.
  assert (A : a = u). { eapply uid_Ident; eauto. apply (H2 (a, c)). eapply nth_error_In; eauto. }
  assert (B : b = u). { eapply uid_Ident; [| | exact HI']. rewrite Ht; eauto. apply (H2 (b, c')). eapply nth_error_In; eauto. }
  subst a b. unfold uids in H3. apply (NoDup_nth_error (map fst lx)); auto.
  - rewrite map_length. apply nth_error_Some. congruence.
  - rewrite (map_nth_error fst _ _ Hi), (map_nth_error fst _ _ Hj). reflexivity.
Qed.

Lemma one_step : forall s x i c cs d, valid s x = true -> nth_error (xkids x) i = Some c ->
  schema_child s (xtag c) = Ok cs -> Known T urls (xtag c) -> Forall (Known T urls) (s_keys (si cs)) ->
  (forall u, Ident cs c u -> QuotableId u) ->
  exists u p n ps,
    convert_tag T d (xtag c) LXML_ETREE dst = Ok (u, show_qname p n) /\
    resolve env d p = Some u /\ xtag c = etree u n /\
    node_preds T dst u cs c = Ok (String.concat "" (map show_pred ps)) /\
    StepOK (XStep p n ps) /\ StepOK (XStep p n []) /\
    (od = NoOmit -> p <> None /\ Forall pred_prefixed ps) /\
    (sty cs = TList -> s_keys (si cs) <> [] -> ps <> []) /\
    forall r, select env d x (XStep p n ps :: r) = map (cons i) (select env u c r).
Proof.
  intros s x i c cs d Hv Hi Hs (e & n & HS & HU & Et & HW & HP & HN) Hk Hq.
  destruct (valid_inv s x Hv) as (_ & (lx & HIx) & Hkids).
  assert (Hin : In c (xkids x)) by (eapply nth_error_In; eauto).
  destruct (Hkids c Hin) as (cs' & Hs' & Hvc). assert (cs' = cs) by congruence. subst cs'.
  destruct (Index_In s _ lx c HIx Hin) as (u & Hu).
  assert (HI : Ident cs c u). { eapply Ident_uid; eauto. eapply Index_uid; eauto. }
  destruct (node_preds_ok cs c u (e_url e) Hvc HI Hk (Hq u HI)) as (ps & P1 & P2 & P3 & PN & P4).
  exists (e_url e), (pfx od d e), n, ps.
  assert (R : resolve env d (pfx od d e) = Some (e_url e)) by (apply resolves; auto).
  split; [rewrite Et; apply conv; auto |]. split; [exact R |].
  split; [auto |]. split; [auto |].
  assert (SK : forall q, Forall PredOK q -> StepOK (XStep (pfx od d e) n q)).
  { intros q Hq'. split; [cbn; apply pfx_ok; auto |]. split; auto. }
  split; [auto |]. split; [apply SK; constructor |].
  split; [intros Ho; split; [apply pfx_some; auto | auto] |].
  split; [exact PN |]. intros r. cbn [select x_prefix x_name x_preds]. rewrite R.
  rewrite (flat_map_one _ (xkids x) 0 i c Hi).
  - cbn [fst snd named Nat.add].
    rewrite (proj2 (String.eqb_eq (xtag c) (etree (e_url e) n)) Et).
    rewrite (proj2 (P4 c u Hvc eq_refl HI) eq_refl). reflexivity.
  - intros j k Hj Hd. cbn [fst snd named].
    destruct (String.eqb_spec (xtag k) (etree (e_url e) n)) as [Ek |]; [| reflexivity].
    assert (Ek' : xtag k = xtag c) by congruence.
    assert (Hink : In k (xkids x)) by (eapply nth_error_In; eauto).
    destruct (Hkids k Hink) as (ck & Hsk & Hvk). rewrite Ek' in Hsk. assert (ck = cs) by congruence. subst ck.
    destruct (Index_In s _ lx k HIx Hink) as (uk & Huk).
    assert (HIk : Ident cs k uk). { eapply Ident_uid; [rewrite Ek'; eauto | eapply Index_uid; eauto]. }
    destruct (forallb (pred_holds env (e_url e) k) ps) eqn:F; [| reflexivity].
    apply (P4 k uk Hvk Ek' HIk) in F. subst uk.
    exfalso. apply Hd. symmetry. exact (same_ident_same_place s x i j c k cs u Hv Hi Hj Hs Ek' HI HIk).
Qed.

Lemma steps_ok : forall pos s x d n, valid s x = true -> Writable T urls s x pos -> node_at x pos = Some n ->
  exists l p, trail s x pos = Ok l /\ (pos <> [] -> l <> []) /\ steps T dst true d l = Ok (show_path p) /\
    Forall StepOK p /\ (od = NoOmit -> Prefixed p) /\ select env d x p = [pos].
Proof.
  induction pos as [| i r IH]; intros s x d n Hv HW Hn.
  - exists [], []. cbn. split; auto. split; [congruence |]. split; auto. split; auto. split; [intros _ st [] | auto].
  - cbn in Hn. destruct (nth_error (xkids x) i) as [c |] eqn:Ei; [| discriminate].
    destruct (valid_inv s x Hv) as (_ & _ & Hkids).
    destruct (Hkids c (nth_error_In _ _ Ei)) as (cs & Hs & Hvc).
    cbn in HW. destruct (HW c cs Ei (schema_child_Defines _ _ _ Hs)) as (K1 & K2 & K3 & K4).
    destruct (one_step s x i c cs d Hv Ei Hs K1 K2 K3) as (u & p & m & ps & C & R & E & N & S1 & S2 & F & PN & G).
    destruct (IH cs c u n Hvc K4 Hn) as (l & q & L1 & L2 & L3 & L4 & L5 & L6).
    exists ((cs, c) :: l), (XStep p m ps :: q). split; [cbn; rewrite Ei; rewrite Hs; cbn; rewrite L1; reflexivity |].
    split; [discriminate |]. split; [| split; [| split]].
    + cbn [steps]. rewrite C. cbn [bind fst snd orb]. rewrite N. cbn [bind]. rewrite L3. cbn [bind].
      unfold show_path at 2. cbn [map]. rewrite concat_cons. unfold show_step at 1. cbn [x_prefix x_name x_preds].
      rewrite !app_assoc_s. reflexivity.
    + constructor; auto.
    + intros Ho st [<- | Hst]; [| apply L5; auto]. cbn. destruct (F Ho) as (F1 & F2). split; auto.
      intros p0 n0 v0 Hp. rewrite Forall_forall in F2. apply (F2 _ Hp).
    + rewrite G, L6. reflexivity.
Qed.

Lemma select_tag : forall x d p u n q, resolve env d p = Some u ->
  In q (select env d x [XStep p n []]) <-> exists j k, q = [j] /\ nth_error (xkids x) j = Some k /\ xtag k = etree u n.
Proof.
  intros x d p u n q R. cbn [select x_prefix x_name x_preds]. rewrite R. rewrite in_flat_map.
  assert (A : forall (l : list xml) a j k, In (j, k) (combine (seq a (length l)) l) <-> exists i, j = a + i /\ nth_error l i = Some k).
  { clear. induction l as [| y l IH]; intros a j k; cbn; [split; [intros [] | intros ([| i] & _ & H); discriminate] |].
    rewrite IH. split.
    - intros [H | (i & -> & H)]; [injection H as <- <-; exists 0; split; [lia | reflexivity] | exists (S i); split; [lia | auto]].
    - intros ([| i] & -> & H); [left; cbn in H; injection H as ->; f_equal; lia | right; exists i; split; [lia | auto]]. }
  split.
  - intros ((j, k) & H1 & H2). apply A in H1. destruct H1 as (i & -> & H1). cbn [fst snd named forallb] in H2.
    rewrite andb_true_r in H2. destruct (String.eqb_spec (xtag k) (etree u n)) as [Ek |]; [| cbn in H2; contradiction].
    destruct H2 as [H2 | []]. exists i, k. auto.
  - intros (j & k & -> & H1 & H2). exists (j, k). split; [apply A; exists j; auto |].
    cbn [fst snd named forallb]. rewrite H2, String.eqb_refl. cbn. auto.
Qed.

Lemma steps_all_ok : forall pos s x d n, valid s x = true -> Writable T urls s x pos -> node_at x pos = Some n ->
  pos <> [] ->
  exists l p, trail s x pos = Ok l /\ l <> [] /\ steps T dst false d l = Ok (show_path p) /\
    Forall StepOK p /\ (od = NoOmit -> Prefixed p) /\
    (forall i cs c, nth_error l i = Some (cs, c) -> S i < length l -> sty cs = TList -> s_keys (si cs) <> [] ->
       exists st, In st p /\ x_preds st <> []) /\
    forall q, In q (select env d x p) <-> like x pos q.
Proof.
  induction pos as [| i r IH]; intros s x d n Hv HW Hn Hne; [congruence |].
  pose proof Hn as Hn0.
  cbn in Hn. destruct (nth_error (xkids x) i) as [c |] eqn:Ei; [| discriminate].
  destruct (valid_inv s x Hv) as (_ & _ & Hkids).
  destruct (Hkids c (nth_error_In _ _ Ei)) as (cs & Hs & Hvc).
  cbn in HW. destruct (HW c cs Ei (schema_child_Defines _ _ _ Hs)) as (K1 & K2 & K3 & K4).
  destruct (one_step s x i c cs d Hv Ei Hs K1 K2 K3) as (u & p & m & ps & C & R & E & N & S1 & S2 & F & PN & G).
  destruct r as [| i' r].
  - exists [(cs, c)], [XStep p m []]. split; [cbn; rewrite Ei, Hs; reflexivity |]. split; [discriminate |].
    split; [| split; [| split]].
    + cbn [steps]. rewrite C. cbn. rewrite !app_nil_s. reflexivity.
    + constructor; auto.
    + intros Ho st [<- | []]. cbn. split; [apply F; auto | intros ? ? ? []].
    + split; [cbn; intros; lia |]. intros q. rewrite (select_tag x d p u m q R). unfold like. cbn [removelast node_at app]. rewrite Ei. split.
      * intros (j & k & -> & H1 & H2). exists x, c, j, k. repeat split; auto. congruence.
      * intros (par & c0 & j & k & H1 & H2 & -> & H3 & H4). injection H1 as <-. injection H2 as <-.
        exists j, k. repeat split; auto. congruence.
  - destruct (IH cs c u n Hvc K4 Hn ltac:(discriminate)) as (l & q & L1 & L2 & L3 & L4 & L5 & LN & L6).
    exists ((cs, c) :: l), (XStep p m ps :: q). split; [cbn [trail]; rewrite Ei; rewrite Hs; cbn [bind]; cbn [trail] in L1; rewrite L1; reflexivity |].
    split; [discriminate |]. split; [| split; [| split]].
    + cbn [steps]. rewrite C. cbn [bind fst snd orb]. destruct l as [| a l]; [congruence |]. rewrite N. cbn [bind].
      rewrite L3. cbn [bind].
      unfold show_path at 2. cbn [map]. rewrite concat_cons. unfold show_step at 1. cbn [x_prefix x_name x_preds].
      rewrite !app_assoc_s. reflexivity.
    + constructor; auto.
    + intros Ho st [<- | Hst]; [| apply L5; auto]. cbn. destruct (F Ho) as (F1 & F2). split; auto.
      intros p0 n0 v0 Hp. rewrite Forall_forall in F2. apply (F2 _ Hp).
    + split.
      { intros [| k] cs0 c0 H1 H2 H3 H4; cbn in H1, H2.
        - injection H1 as <- <-. exists (XStep p m ps). cbn. split; auto.
        - destruct (LN k cs0 c0 H1 ltac:(lia) H3 H4) as (st & Hst & Hp). exists st. split; [right |]; auto. }
      intros q0. rewrite G, in_map_iff. unfold like.
      change (removelast (i :: i' :: r)) with (i :: removelast (i' :: r)). split.
      * intros (q1 & <- & H). apply L6 in H. destruct H as (par & c0 & j & k & H1 & H2 & -> & H3 & H4).
        exists par, c0, j, k. cbn [node_at]. rewrite Ei. auto.
      * intros (par & c0 & j & k & H1 & H2 & -> & H3 & H4). cbn [node_at] in H1, H2. rewrite Ei in H1, H2.
        exists (removelast (i' :: r) ++ [j]). split; [reflexivity |]. apply L6. exists par, c0, j, k. auto.
Qed.
End Paths.

(** ** Reading a path *)

Lemma cut : forall (P : ascii -> Prop) (a b r r' : list ascii), Forall P a -> Forall P b ->
  (match r with [] => True | c :: _ => ~ P c end) -> (match r' with [] => True | c :: _ => ~ P c end) ->
  a ++ r = b ++ r' -> a = b /\ r = r'.
Proof.
  intros P a. induction a as [| c a IH]; intros [| c' b] r r' Ha Hb Hr Hr' E; cbn in E.
  - auto.
  - subst r. inversion Hb; contradiction.
  - subst r'. inversion Ha; contradiction.
  - injection E as <- E. inversion Ha; inversion Hb; subst. destruct (IH b r r') as (-> & ->); auto.
Qed.

Lemma chars_inj : forall a b, chars a = chars b -> a = b.
Proof.
  intros a b H. rewrite <- (string_of_list_ascii_of_string a), <- (string_of_list_ascii_of_string b).
  unfold chars in H. congruence.
Qed.

Definition nch (c : ascii) : Prop := ~ In c (newline :: chars "/[]()=:{}" ++ chars dq).
Lemma Ncname_nch : forall s, Ncname s -> Forall nch (chars s).
Proof. intros s (_ & H). apply Forall_forall. auto. Qed.
Ltac special := let H := fresh in intro H; apply H; cbn; tauto.

(** what follows a name: nothing, or a special character other than a colon *)
Definition after (r : list ascii) : Prop := match r with [] => True | c :: _ => ~ nch c /\ c <> ":"%char end.
Lemma after_stop : forall r, after r -> match r with [] => True | c :: _ => ~ nch c end.
Proof. intros [| c r]; cbn; tauto. Qed.

Lemma qname_inj : forall p n p' n' r r',
  (match p with None => True | Some p => Ncname p end) -> Ncname n ->
  (match p' with None => True | Some p => Ncname p end) -> Ncname n' -> after r -> after r' ->
  chars (show_qname p n) ++ r = chars (show_qname p' n') ++ r' -> p = p' /\ n = n' /\ r = r'.
Proof.
  intros p n p' n' r r' Hp Hn Hp' Hn' Hr Hr' E.
  destruct p as [p |], p' as [p' |]; cbn [show_qname] in E; rewrite ?chars_app, <- ?app_assoc in E; cbn [chars list_ascii_of_string app] in E.
  - apply (cut nch) in E; try (apply Ncname_nch; assumption); try special. destruct E as (E1 & E2).
    injection E2 as E2. apply (cut nch) in E2; try (apply Ncname_nch; assumption); try (apply after_stop; assumption).
    destruct E2 as (E2 & E3). apply chars_inj in E1. apply chars_inj in E2. subst. auto.
  - exfalso. apply (cut nch) in E; try (apply Ncname_nch; assumption); try special; try (apply after_stop; assumption).
    destruct E as (_ & E). subst r'. cbn in Hr'. destruct Hr' as (_ & H). apply H. reflexivity.
  - exfalso. apply (cut nch) in E; try (apply Ncname_nch; assumption); try special; try (apply after_stop; assumption).
    destruct E as (_ & E). subst r. cbn in Hr. destruct Hr as (_ & H). apply H. reflexivity.
  - apply (cut nch) in E; try (apply Ncname_nch; assumption); try (apply after_stop; assumption).
    destruct E as (E1 & E2). apply chars_inj in E1. subst. auto.
Qed.

Lemma literal_cut : forall v v' r r', Literal v -> Literal v' ->
  chars v ++ ascii_of_nat 34 :: r = chars v' ++ ascii_of_nat 34 :: r' -> v = v' /\ r = r'.
Proof.
  intros v v' r r' H H' E. apply (cut (fun c => c <> ascii_of_nat 34)) in E.
  - destruct E as (E1 & E2). injection E2 as E2. apply chars_inj in E1. auto.
  - apply Forall_forall. intros c Hc ->. auto.
  - apply Forall_forall. intros c Hc ->. auto.
  - intro F. apply F. reflexivity.
  - intro F. apply F. reflexivity.
Qed.

Definition no_bracket (r : list ascii) : Prop := match r with [] => True | c :: _ => c = "/"%char end.

Lemma pred_inj : forall d d' r r', PredOK d -> PredOK d' ->
  chars (show_pred d) ++ r = chars (show_pred d') ++ r' -> d = d' /\ r = r'.
Proof.
  intros d d' r r' H H' E.
  assert (AE : forall r, after ("="%char :: r)) by (intros r0; split; [special | discriminate]).
  assert (TX : forall p n v w r r', (match p with None => True | Some p => Ncname p end) -> Ncname n ->
    chars (show_qname p n) ++ "="%char :: ascii_of_nat 34 :: chars v ++ r = chars ("text()=" ++ dq ++ w)%string ++ r' -> False).
  { clear. intros p n v w r r' Hp Hn E.
    assert (HT : Ncname "text").
    { split; [discriminate |]. intros c Hc Hd.
      cbn in Hc. repeat (destruct Hc as [<- | Hc]; [cbn in Hd; repeat (destruct Hd as [Hd | Hd]; [discriminate |]); destruct Hd |]). destruct Hc. }
    change ("text()=" ++ dq ++ w)%string with (show_qname None "text" ++ "()=" ++ dq ++ w)%string in E.
    rewrite chars_app, <- app_assoc in E.
    apply qname_inj in E; auto; try (split; [special | discriminate]).
    destruct E as (_ & _ & E). cbn in E. discriminate. }
  destruct d as [p n v | v], d' as [p' n' v' | v']; cbn [show_pred PredOK] in *.
  - rewrite !chars_app in E. rewrite <- !app_assoc in E. cbn [chars list_ascii_of_string app dq] in E. injection E as E.
    destruct H as (Hp & Hn & Hv). destruct H' as (Hp' & Hn' & Hv').
    apply qname_inj in E; auto. destruct E as (-> & -> & E). injection E as E.
    apply (literal_cut v v') in E; auto. destruct E as (-> & E). injection E as E. auto.
  - exfalso. destruct H as (Hp & Hn & Hv).
    rewrite !chars_app in E. rewrite <- !app_assoc in E. cbn [chars list_ascii_of_string app dq] in E. injection E as E.
    eapply (TX p n v v' ("""" :: "]" :: r)%char (chars (dq ++ "]") ++ r')); eauto.
  - exfalso. destruct H' as (Hp & Hn & Hv). symmetry in E.
    rewrite !chars_app in E. rewrite <- !app_assoc in E. cbn [chars list_ascii_of_string app dq] in E. injection E as E.
    eapply (TX p' n' v' v ("""" :: "]" :: r')%char (chars (dq ++ "]") ++ r)); eauto.
  - rewrite !chars_app in E. rewrite <- !app_assoc in E. cbn [chars list_ascii_of_string app dq] in E. injection E as E.
    apply (literal_cut v v') in E; auto. destruct E as (-> & E). injection E as E. auto.
Qed.

Lemma pred_head : forall d, exists r, chars (show_pred d) = "["%char :: r.
Proof. intros [p n v | v]; cbn; eauto. Qed.

Lemma preds_inj : forall ps ps' r r', Forall PredOK ps -> Forall PredOK ps' -> no_bracket r -> no_bracket r' ->
  chars (String.concat "" (map show_pred ps)) ++ r = chars (String.concat "" (map show_pred ps')) ++ r' -> ps = ps' /\ r = r'.
Proof.
  induction ps as [| d ps IH]; intros [| d' ps'] r r' H H' Hr Hr' E; cbn [map] in E.
  - auto.
  - exfalso. rewrite concat_cons, chars_app in E. destruct (pred_head d') as (t & Et). rewrite Et in E. cbn in E.
    subst r. cbn in Hr. discriminate.
  - exfalso. rewrite concat_cons, chars_app in E. destruct (pred_head d) as (t & Et). rewrite Et in E. cbn in E.
    subst r'. cbn in Hr'. discriminate.
  - rewrite !concat_cons, !chars_app, <- !app_assoc in E. inversion H; inversion H'; subst.
    apply pred_inj in E; auto. destruct E as (-> & E). apply IH in E; auto. destruct E as (-> & ->). auto.
Qed.

Lemma path_head : forall p, no_bracket (chars (show_path p)).
Proof.
  intros [| s p]; [exact I |]. unfold show_path. cbn [map]. rewrite concat_cons. cbn. reflexivity.
Qed.

Lemma show_path_inj : forall p q, Forall StepOK p -> Forall StepOK q -> show_path p = show_path q -> p = q.
Proof.
  intros p q Hp Hq E. apply (f_equal chars) in E. revert q Hq E.
  induction Hp as [| s p (H1 & H2 & H3) Hp IH]; intros [| s' q] Hq E; auto.
  - exfalso. unfold show_path in E. cbn [map] in E. rewrite concat_cons in E. cbn in E. discriminate.
  - exfalso. unfold show_path in E. cbn [map] in E. rewrite concat_cons in E. cbn in E. discriminate.
  - inversion Hq as [| ? ? (H1' & H2' & H3') Hq']; subst.
    unfold show_path in E. cbn [map] in E. rewrite !concat_cons in E. fold (show_path p) (show_path q) in E.
    rewrite !chars_app in E. destruct s as [px n ps], s' as [px' n' ps']. unfold show_step in E. cbn [x_prefix x_name x_preds] in *.
    rewrite !chars_app in E. cbn [chars list_ascii_of_string app] in E. injection E as E. rewrite <- !app_assoc in E.
    assert (A : forall ps p, after (chars (String.concat "" (map show_pred ps)) ++ chars (show_path p))).
    { clear. intros [| d ps] p; cbn [map].
      - cbn. pose proof (path_head p) as H. destruct (chars (show_path p)); cbn in *; auto. subst. split; [special | discriminate].
      - rewrite concat_cons, chars_app. destruct (pred_head d) as (t & ->). cbn. split; [special | discriminate]. }
    apply qname_inj in E; auto. destruct E as (-> & -> & E). apply preds_inj in E; auto using path_head.
    destruct E as (-> & E). f_equal. apply IH; auto.
Qed.

(** ** get_xpath *)
Lemma get_xpath_selects : forall T urls env od s x pos n, Env T urls env -> valid s x = true ->
  Writable T urls s x pos -> pos <> [] -> node_at x pos = Some n ->
  exists str p, get_xpath T (KPrefix, od, Colon) true s x pos = Ok str /\ Forall StepOK p /\ str = show_path p /\
    (od = NoOmit -> Prefixed p) /\ select env "" x p = [pos] /\
    forall q, Forall StepOK q -> show_path q = str -> q = p.
Proof.
  intros T urls env od s x pos n HE Hv HW Hne Hn.
  destruct (steps_ok T urls env od HE pos s x "" n Hv HW Hn) as (l & p & L1 & L2 & L3 & L4 & L5 & L6).
  exists (show_path p), p. unfold get_xpath. destruct pos as [| i r]; [congruence |]. rewrite L1. cbn [bind]. rewrite L3.
  repeat split; auto; try (apply L5; auto). intros q Hq Eq. apply show_path_inj; auto.
Qed.
Lemma get_xpath_all : forall T urls env od s x pos n, Env T urls env -> valid s x = true ->
  Writable T urls s x pos -> pos <> [] -> node_at x pos = Some n ->
  exists str p, get_xpath T (KPrefix, od, Colon) false s x pos = Ok str /\ Forall StepOK p /\ str = show_path p /\
    (od = NoOmit -> Prefixed p) /\ (forall q, In q (select env "" x p) <-> like x pos q) /\
    forall q, Forall StepOK q -> show_path q = str -> q = p.
Proof.
  intros T urls env od s x pos n HE Hv HW Hne Hn.
  destruct (steps_all_ok T urls env od HE pos s x "" n Hv HW Hn Hne) as (l & p & L1 & L2 & L3 & L4 & L5 & _ & L6).
  exists (show_path p), p. unfold get_xpath. destruct pos as [| i r]; [congruence |]. rewrite L1. cbn [bind]. rewrite L3.
  repeat split; auto; try (apply L5; auto); try (apply L6; auto). intros q Hq Eq. apply show_path_inj; auto.
Qed.

(** The namespaces that ncdiff hands out serve as the environment. *)
Lemma get_ns_Env : forall T urls, PrefixesDistinct T -> NoNumbered T -> NoDup urls ->
  (forall e s, Sole T KUrl e -> In s specials -> e_url s = e_url e -> e_prefix s = e_prefix e) ->
  Env T urls (fun p => assoc String.eqb p (get_ns T urls)).
Proof.
  intros T urls HP HN HD HS e He Hu. destruct (get_ns_exact T urls HP HN HD) as (E1 & E2 & E3).
  rewrite <- E1 in Hu. apply in_map_iff in Hu. destruct Hu as ((p, u) & Eu & Hin). cbn in Eu. subst u.
  destruct (E3 p (e_url e) Hin e) as (e' & H1 & H2 & H3); [apply in_or_app; left; eapply Sole_In; eauto | auto |].
  assert (Ep : e_prefix e' = e_prefix e).
  { apply in_app_or in H1. destruct H1 as [H1 | H1].
    - rewrite (Sole_eq T KUrl e e' He H1 H2). reflexivity.
    - apply HS; auto. }
  apply (assoc_NoDup String.eqb string_eqb_ok); auto. rewrite <- Ep, H3. exact Hin.
Qed.

(** ** Paths without predicates *)
Lemma tag_steps_ok : forall T urls env od tags d, Env T urls env -> Forall (Known T urls) tags ->
  exists p, tag_steps T (KPrefix, od, Colon) d tags = Ok (show_path p) /\ Forall StepOK p /\
    path_tags env d p = map Some tags.
Proof.
  intros T urls env od tags d HE H. revert d. induction H as [| t tags (e & n & HS & HU & Et & HW & HP & HN) H IH]; intros d.
  - exists []. repeat split; auto.
  - destruct (IH (e_url e)) as (p & P1 & P2 & P3). exists (XStep (pfx od d e) n [] :: p). cbn [tag_steps]. rewrite Et.
    rewrite (conv T od d e n HS HW HP HN). cbn [bind fst snd]. rewrite P1. cbn [bind]. split; [| split].
    + unfold show_path at 2. cbn [map]. rewrite concat_cons. unfold show_step at 1. cbn [x_prefix x_name x_preds map String.concat].
      rewrite app_nil_s, app_assoc_s. reflexivity.
    + constructor; auto. split; [apply pfx_ok; auto | split; cbn; auto].
    + cbn [path_tags x_prefix x_name map]. rewrite (resolves T urls env od HE d e HS HU), P3. reflexivity.
Qed.

Lemma map_Some_inj : forall {A} (l r : list A), map Some l = map Some r -> l = r.
Proof. intros A l. induction l as [| a l IH]; intros [| b r] H; try discriminate; auto. cbn in H. injection H as -> H. f_equal. auto. Qed.

Lemma tag_steps_inj : forall T urls env od d t1 t2 s, Env T urls env ->
  Forall (Known T urls) t1 -> Forall (Known T urls) t2 ->
  tag_steps T (KPrefix, od, Colon) d t1 = Ok s -> tag_steps T (KPrefix, od, Colon) d t2 = Ok s -> t1 = t2.
Proof.
  intros T urls env od d t1 t2 s HE H1 H2 E1 E2.
  destruct (tag_steps_ok T urls env od t1 d HE H1) as (p1 & A1 & B1 & C1).
  destruct (tag_steps_ok T urls env od t2 d HE H2) as (p2 & A2 & B2 & C2).
  assert (p1 = p2). { apply show_path_inj; auto. congruence. }
  subst p2. apply map_Some_inj. congruence.
Qed.

Lemma schema_xpath_inj : forall T urls env od t1 t2 s, Env T urls env ->
  Forall (Known T urls) t1 -> Forall (Known T urls) t2 ->
  get_schema_xpath T (KPrefix, od, Colon) t1 = Ok s -> get_schema_xpath T (KPrefix, od, Colon) t2 = Ok s -> t1 = t2.
Proof. intros T urls env od t1 t2 s HE H1 H2. unfold get_schema_xpath. apply (tag_steps_inj T urls env); auto. Qed.

Lemma ytool_inj : forall T urls env m u t1 t2 s, Env T urls env ->
  Forall (Known T urls) t1 -> Forall (Known T urls) t2 ->
  get_ytool T m u t1 = Ok s -> get_ytool T m u t2 = Ok s -> t1 = t2.
Proof.
  intros T urls env m u t1 t2 s HE H1 H2 E1 E2. unfold get_ytool in *.
  apply bind_ok in E1. destruct E1 as (a & A1 & A2). apply bind_ok in E2. destruct E2 as (b & B1 & B2).
  assert (a = b).
  { assert (E : (m ++ a = m ++ b)%string) by congruence. clear -E. induction m; cbn in E; [auto | injection E; auto]. }
  subst b. exact (tag_steps_inj T urls env OmitByModule u t1 t2 a HE H1 H2 A1 B1).
Qed.

(** ** Statements *)
Lemma split_at_cut : forall c a r, ~ In c (chars a) ->
  split_at c (a ++ String c r)%string = (a, let '(h, t) := split_at c r in h :: t).
Proof.
  intros c a r. induction a as [| x a IH]; intros H; cbn [append split_at].
  - destruct (split_at c r). rewrite Ascii.eqb_refl. reflexivity.
  - rewrite IH by (intro G; apply H; right; auto).
    destruct (Ascii.eqb_spec x c) as [-> |]; [exfalso; apply H; left; auto | reflexivity].
Qed.
Lemma split_at_none : forall c a, ~ In c (chars a) -> split_at c a = (a, []).
Proof.
  intros c a. induction a as [| x a IH]; intros H; cbn [split_at]; [reflexivity |].
  rewrite IH by (intro G; apply H; right; auto).
  destruct (Ascii.eqb_spec x c) as [-> |]; [exfalso; apply H; left; auto | reflexivity].
Qed.

Lemma find_unique : forall {A B} (f : A -> B) (p : A -> bool) l c, NoDup (map f l) -> In c l -> p c = true ->
  (forall x, In x l -> p x = true -> f x = f c) -> find p l = Some c.
Proof.
  intros A B f p l c HD Hin Hp Hu. destruct (find p l) as [b |] eqn:E.
  - apply find_some in E. destruct E as (E1 & E2). specialize (Hu b E1 E2). f_equal.
    clear -HD Hin E1 Hu. induction l as [| x l IH]; [destruct Hin |]. cbn in HD. inversion HD; subst.
    destruct E1 as [-> | E1], Hin as [-> | Hin]; auto.
    + exfalso. apply H1. rewrite Hu. apply in_map. auto.
    + exfalso. apply H1. rewrite <- Hu. apply in_map. auto.
  - exfalso. apply (find_none _ _ E) in Hin. congruence.
Qed.

Lemma get_child_reads : forall rp t p n, Ncname p -> Ncname n ->
  get_child rp t (p ++ ":" ++ n)%string = find (fun c => String.eqb (st_arg c) n && String.eqb (st_pre c) p) (st_kids t).
Proof.
  intros rp t p n Hp Hn. unfold get_child. change (":" ++ n)%string with (String ":" n).
  rewrite split_at_cut by (apply (Ncname_not p _ Hp); cbn; tauto).
  rewrite split_at_none by (apply (Ncname_not n _ Hn); cbn; tauto). reflexivity.
Qed.

Definition show_id (pn : string * string) : string := (fst pn ++ ":" ++ snd pn)%string.

Lemma get_descendant_app : forall rp l r m, get_descendant rp m (l ++ r) =
  match get_descendant rp m l with None => None | Some t => get_descendant rp t r end.
Proof.
  induction l as [| i l IH]; intros r m; cbn; [reflexivity |]. destruct (get_child rp m i); auto.
Qed.

Lemma Reached_Clear : forall m l t, Clear m -> Reached m l t -> Clear t.
Proof. intros m l t H R. induction R as [| l t c R IH Hc]; auto. inversion IH; auto. Qed.

Definition IdsOK (l : list (string * string)) : Prop := Forall (fun pn => Ncname (fst pn) /\ Ncname (snd pn)) l.

Lemma descend_reached : forall rp m l t, Clear m -> Reached m l t -> IdsOK l ->
  get_descendant rp m (map show_id l) = Some t.
Proof.
  intros rp m l t HC R. induction R as [| l t c R IH Hc]; intros HI; [reflexivity |].
  apply Forall_app in HI. destruct HI as (HI & HL). inversion HL as [| ? ? (H1 & H2) _]; subst. cbn [fst snd] in *.
  rewrite map_app, get_descendant_app, (IH HI). cbn [map get_descendant]. unfold show_id. cbn [fst snd].
  rewrite (get_child_reads rp t _ _ H1 H2).
  rewrite (find_unique (fun x => (st_pre x, st_arg x)) _ (st_kids t) c); auto.
  - pose proof (Reached_Clear m l t HC R) as Ct. inversion Ct. auto.
  - rewrite !String.eqb_refl. reflexivity.
  - intros x _ Hx. apply andb_true_iff in Hx. destruct Hx as (X1 & X2). apply String.eqb_eq in X1. apply String.eqb_eq in X2. congruence.
Qed.

Lemma reached_descend : forall rp m l t, IdsOK l -> get_descendant rp m (map show_id l) = Some t -> Reached m l t.
Proof.
  intros rp m l. induction l as [| pn l IH] using rev_ind; intros t HI H.
  - cbn in H. injection H as <-. constructor.
  - apply Forall_app in HI. destruct HI as (HI & HL). inversion HL as [| ? ? (H1 & H2) _]; subst.
    rewrite map_app, get_descendant_app in H. destruct (get_descendant rp m (map show_id l)) as [t' |] eqn:E; [| discriminate].
    cbn [map get_descendant] in H. unfold show_id in H. rewrite (get_child_reads rp t' _ _ H1 H2) in H.
    destruct (find _ (st_kids t')) as [c |] eqn:F; [| discriminate]. injection H as <-.
    apply find_some in F. destruct F as (F1 & F2). apply andb_true_iff in F2. destruct F2 as (F2 & F3).
    apply String.eqb_eq in F2. apply String.eqb_eq in F3. destruct pn as (p, n). cbn [fst snd] in *. subst p n.
    apply (re_down m l t' c); auto.
Qed.

Lemma split_path : forall l, IdsOK l -> l <> [] ->
  split_at "/" (String.concat "" (map (fun pn => "/" ++ show_id pn)%string l)) = ("", map show_id l).
Proof.
  intros l HI. induction HI as [| pn l (H1 & H2) HI IH]; intros Hne; [congruence |].
  cbn [map]. rewrite concat_cons. rewrite app_assoc_s.
  change ("/" ++ show_id pn ++ String.concat "" (map (fun pn => "/" ++ show_id pn)%string l))%string
    with ("" ++ String "/" (show_id pn ++ String.concat "" (map (fun pn => "/" ++ show_id pn)%string l)))%string.
  rewrite split_at_cut by (intros []).
  assert (N : ~ In "/"%char (chars (show_id pn))).
  { unfold show_id. rewrite !chars_app. intros G. apply in_app_or in G. destruct G as [G | G].
    - revert G. apply (Ncname_not _ _ H1). cbn. tauto.
    - apply in_app_or in G. destruct G as [[G | []] | G]; [discriminate |]. revert G. apply (Ncname_not _ _ H2). cbn. tauto. }
  destruct l as [| qn l].
  - cbn [map String.concat]. rewrite app_nil_s, (split_at_none _ _ N). reflexivity.
  - specialize (IH ltac:(discriminate)). cbn [map] in IH |- *. rewrite concat_cons in IH |- *.
    assert (E : forall z w, (("/" ++ z) ++ w = "" ++ String "/" (z ++ w))%string) by reflexivity.
    rewrite E in IH |- *. rewrite split_at_cut in IH by (intros []).
    change ("" ++ String "/" (show_id qn ++ String.concat "" (map (fun pn => "/" ++ show_id pn)%string l)))%string
      with (String "/" (show_id qn ++ String.concat "" (map (fun pn => "/" ++ show_id pn)%string l))).
    rewrite split_at_cut by exact N.
    destruct (split_at "/" (show_id qn ++ String.concat "" (map (fun pn => "/" ++ show_id pn)%string l))) as (h, t) eqn:ES.
    injection IH as IH1 IH2. subst h t. reflexivity.
Qed.

Lemma tags_shown : forall T l tags d, Forall2 (TagOf T) l tags ->
  tag_steps T LXML_XPATH d tags = Ok (String.concat "" (map (fun pn => "/" ++ show_id pn)%string l)) /\ IdsOK l.
Proof.
  intros T l tags d H. revert d. induction H as [| pn t l tags (e & HS & Ep & Et & HW & HP & HN) H IH]; intros d.
  - split; [reflexivity | constructor].
  - destruct (IH (e_url e)) as (I1 & I2). split; [| constructor; auto]. cbn [tag_steps]. rewrite Et.
    rewrite <- Ep in HP. pose proof (conv T NoOmit d e (snd pn) HS HW HP HN) as C.
    change (KPrefix, NoOmit, Colon) with LXML_XPATH in C. rewrite C. cbn [bind fst snd]. rewrite I1. cbn [bind map].
    rewrite concat_cons. cbn [pfx show_qname]. rewrite Ep. unfold show_id at 2. rewrite !app_assoc_s. reflexivity.
Qed.

Lemma schema_statement_iff : forall T m l tags t, Clear m -> Forall2 (TagOf T) l tags -> l <> [] ->
  (schema_statement T m tags = Ok (Some t) <-> Reached m l t).
Proof.
  intros T m l tags t HC H Hne. destruct (tags_shown T l tags "" H) as (E & HI).
  unfold schema_statement, get_schema_xpath. rewrite E. cbn [bind]. unfold get_statement. rewrite (split_path l HI Hne).
  destruct l as [| pn l]; [congruence |]. cbn [map].
  destruct (show_id pn) as [| a z] eqn:Ez.
  { exfalso. unfold show_id in Ez. destruct (fst pn); discriminate. }
  rewrite <- Ez. change (show_id pn :: map show_id l) with (map show_id (pn :: l)). split.
  - intros G. injection G as G. exact (reached_descend (st_pre m) m (pn :: l) t HI G).
  - intros G. f_equal. apply descend_reached; auto.
Qed.
Lemma schema_statement_total : forall T m l tags, Forall2 (TagOf T) l tags ->
  exists r, schema_statement T m tags = Ok r.
Proof.
  intros T m l tags H. destruct (tags_shown T l tags "" H) as (E & _).
  unfold schema_statement, get_schema_xpath. rewrite E. cbn [bind]. eauto.
Qed.

(** ** The statement of a config node *)
Lemma config_tags : forall T pos s x d l, trail s x pos = Ok l ->
  (forall i cs c, nth_error l i = Some (cs, c) -> S i < length l -> sty cs <> TList /\ sty cs <> TLeafList) ->
  steps T LXML_XPATH false d l = tag_steps T LXML_XPATH d (map (fun sc => xtag (snd sc)) l).
Proof.
  intros T pos s x d l _. revert d. induction l as [| (cs, c) l IH]; intros d H; [reflexivity |].
  cbn [steps map tag_steps snd]. destruct (convert_tag T d (xtag c) LXML_ETREE LXML_XPATH) as [(ns, id) |]; [| reflexivity].
  cbn [bind fst snd orb].
  assert (P : (if match l with [] => false | _ => true end then node_preds T LXML_XPATH ns cs c else Ok "") = Ok "").
  { destruct l as [| a l]; [reflexivity |]. destruct (H 0 cs c eq_refl ltac:(cbn; lia)) as (H1 & H2).
    unfold node_preds. destruct (sty cs); try reflexivity; contradiction. }
  rewrite P. cbn [bind]. rewrite (IH ns).
  - destruct (tag_steps T LXML_XPATH ns (map (fun sc => xtag (snd sc)) l)); reflexivity.
  - intros i cs' c' H1 H2. apply (H (S i) cs' c' H1). cbn. lia.
Qed.

Lemma config_statement_iff : forall T m s x pos tr l t, Clear m -> pos <> [] -> trail s x pos = Ok tr ->
  (forall i cs c, nth_error tr i = Some (cs, c) -> S i < length tr -> sty cs <> TList /\ sty cs <> TLeafList) ->
  Forall2 (TagOf T) l (map (fun sc => xtag (snd sc)) tr) ->
  (config_statement T m s x pos = Ok (Some t) <-> Reached m l t).
Proof.
  intros T m s x pos tr l t HC Hp Ht Hn HF.
  assert (Hl : l <> []).
  { intros ->. inversion HF as [E |]. destruct pos as [| i r]; [congruence |]. cbn in Ht.
    destruct (nth_error (xkids x) i); [| discriminate]. apply bind_ok in Ht. destruct Ht as (cs & _ & Ht).
    apply bind_ok in Ht. destruct Ht as (t' & _ & Ht). injection Ht as <-. discriminate. }
  rewrite <- (schema_statement_iff T m l _ t HC HF Hl).
  unfold config_statement, schema_statement, get_xpath, get_schema_xpath. destruct pos as [| i r]; [congruence |].
  rewrite Ht. cbn [bind]. rewrite (config_tags T (i :: r) s x "" tr Ht Hn). tauto.
Qed.

(** Inside a list entry there is no statement to be found. *)
Lemma split_at_prefix : forall c a r, ~ In c (chars a) ->
  split_at c (a ++ r)%string = let '(h, t) := split_at c r in ((a ++ h)%string, t).
Proof.
  intros c a r. induction a as [| x a IH]; intros H; cbn [append split_at].
  - destruct (split_at c r). reflexivity.
  - rewrite IH by (intro G; apply H; right; auto). destruct (split_at c r) as (h, t).
    destruct (Ascii.eqb_spec x c) as [-> |]; [exfalso; apply H; left; auto | reflexivity].
Qed.

Lemma get_child_ArgsOK : forall rp t id c, ArgsOK t -> get_child rp t id = Some c -> ArgsOK c.
Proof.
  intros rp t id c H G. unfold get_child in G. inversion H as [t' K]. subst t'.
  destruct (split_at ":" id) as (a, [| b r]); apply find_some in G; destruct G as (G & _); apply K; auto.
Qed.

Lemma get_child_bracket : forall rp t p n w, ArgsOK t -> Ncname p -> Ncname n ->
  get_child rp t (p ++ ":" ++ n ++ "[" ++ w)%string = None.
Proof.
  intros rp t p n w H Hp Hn. unfold get_child. change (":" ++ n ++ "[" ++ w)%string with (String ":" (n ++ "[" ++ w)).
  rewrite split_at_cut by (apply (Ncname_not p _ Hp); cbn; tauto).
  rewrite split_at_prefix by (apply (Ncname_not n _ Hn); cbn; tauto).
  change ("[" ++ w)%string with ("[" ++ w)%string. rewrite (split_at_prefix ":" "[" w) by (intros [G | []]; discriminate).
  destruct (split_at ":" w) as (h, t').
  destruct (find _ (st_kids t)) as [c |] eqn:F; [| reflexivity]. exfalso.
  apply find_some in F. destruct F as (F1 & F2). apply andb_true_iff in F2. destruct F2 as (F2 & _). apply String.eqb_eq in F2.
  inversion H as [t0 K]. subst t0. destruct (K c F1) as (K1 & _). apply K1. rewrite F2, !chars_app.
  apply in_or_app. right. left. reflexivity.
Qed.

Lemma descend_bracket : forall p m rp, ArgsOK m -> Forall StepOK p -> Prefixed p ->
  (exists st, In st p /\ x_preds st <> []) ->
  exists h t, split_at "/" (show_path p) = ("", h :: t) /\ h <> "" /\ get_descendant rp m (h :: t) = None.
Proof.
  induction p as [| st p IH]; intros m rp HA HS HP HX; [destruct HX as (? & [] & _) |].
  inversion HS as [| ? ? (S1 & S2 & S3) HS']; subst.
  destruct (HP st (or_introl eq_refl)) as (PX & _). destruct (x_prefix st) as [pr |] eqn:Ep; [| congruence].
  assert (NQ : ~ In "/"%char (chars (pr ++ ":" ++ x_name st))).
  { rewrite !chars_app. intros G. apply in_app_or in G. destruct G as [G | G].
    - revert G. apply (Ncname_not _ _ S1). cbn. tauto.
    - apply in_app_or in G. destruct G as [[G | []] | G]; [discriminate |]. revert G. apply (Ncname_not _ _ S2). cbn. tauto. }
  assert (SH : forall w, show_path (st :: p) = w -> w = ("" ++ String "/" ((pr ++ ":" ++ x_name st) ++ (String.concat "" (map show_pred (x_preds st)) ++ show_path p)))%string).
  { intros w <-. unfold show_path at 1. cbn [map]. rewrite concat_cons. fold (show_path p).
    unfold show_step. rewrite Ep. cbn [show_qname]. rewrite !app_assoc_s. reflexivity. }
  rewrite (SH _ eq_refl). rewrite split_at_cut by (intros []). rewrite (split_at_prefix "/" (pr ++ ":" ++ x_name st) _ NQ).
  destruct (split_at "/" (String.concat "" (map show_pred (x_preds st)) ++ show_path p)) as (h, t) eqn:ES.
  exists ((pr ++ ":" ++ x_name st) ++ h)%string, t. split; [reflexivity |].
  split; [destruct pr; discriminate |]. cbn [get_descendant].
  destruct (x_preds st) as [| d ds] eqn:Ed.
  - cbn [map String.concat append] in ES.
    assert (HX' : exists st, In st p /\ x_preds st <> []).
    { destruct HX as (st' & [<- | Hst] & Hx); [congruence | exists st'; auto]. }
    destruct (get_child rp m ((pr ++ ":" ++ x_name st) ++ h)%string) as [c |] eqn:G; [| reflexivity].
    assert (HP' : Prefixed p) by (intros st' Hst'; apply HP; right; auto).
    destruct (IH c rp (get_child_ArgsOK _ _ _ _ HA G) HS' HP' HX') as (h' & t' & E' & _ & D).
    rewrite E' in ES. injection ES as _ <-. exact D.
  - cbn [map] in ES. rewrite concat_cons, app_assoc_s in ES.
    assert (SB : exists w, show_pred d = ("[" ++ w)%string) by (destruct d; eexists; reflexivity).
    destruct SB as (w & SB). rewrite SB, app_assoc_s in ES.
    rewrite (split_at_prefix "/" "[" _) in ES by (intros [G | []]; discriminate).
    destruct (split_at "/" (w ++ String.concat "" (map show_pred ds) ++ show_path p)) as (h0, t0).
    injection ES as <- <-. change (String "[" h0) with ("[" ++ h0)%string. rewrite !app_assoc_s. rewrite (get_child_bracket rp m pr (x_name st) h0 HA S1 S2). reflexivity.
Qed.

Lemma config_statement_in_list : forall T urls env m s x pos n tr, ArgsOK m -> Env T urls env -> valid s x = true ->
  Writable T urls s x pos -> pos <> [] -> node_at x pos = Some n -> trail s x pos = Ok tr ->
  (exists i cs c, nth_error tr i = Some (cs, c) /\ S i < length tr /\ sty cs = TList /\ s_keys (si cs) <> []) ->
  config_statement T m s x pos = Ok None.
Proof.
  intros T urls env m s x pos n tr HA HE Hv HW Hne Hn Ht (i & cs & c & H1 & H2 & H3 & H4).
  destruct (steps_all_ok T urls env NoOmit HE pos s x "" n Hv HW Hn Hne) as (l & p & L1 & L2 & L3 & L4 & L5 & LN & _).
  rewrite Ht in L1. injection L1 as <-. unfold config_statement, get_xpath. destruct pos as [| j r]; [congruence |].
  rewrite Ht. cbn [bind]. change LXML_XPATH with (KPrefix, NoOmit, Colon). rewrite L3. cbn [bind].
  destruct (descend_bracket p m (st_pre m) HA L4 (L5 eq_refl) (LN i cs c H1 H2 H3 H4)) as (h & t & E & Nh & D).
  unfold get_statement. rewrite E. destruct h as [| a h]; [congruence |]. rewrite D. reflexivity.
Qed.
