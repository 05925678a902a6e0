(** Lemmas about CacheM.v: the cache never changes an answer while texts stay. *)
From Coq Require Import String Ascii List Bool Arith Lia.
From Verif Require Import Base BaseP XmlM CalcM CalcP CacheM CacheSpec DeltaSpec NameP.
Import ListNotations.
Open Scope string_scope.
Open Scope list_scope.

(** ** Keys *)
Lemma nat_eqb_ok : eqb_ok Nat.eqb.
Proof. intros a b. apply Nat.eqb_eq. Qed.
Lemma call_eqb_ok : eqb_ok call_eqb.
Proof.
  intros [[a p] s] [[b q] t]. unfold call_eqb. cbn [fst snd]. rewrite !andb_true_iff.
  rewrite Bool.eqb_true_iff, (list_eqb_ok Nat.eqb nat_eqb_ok p q).
  rewrite (opt_eqb_ok _ (list_eqb_ok String.eqb string_eqb_ok) s t). split.
  - intros [[-> ->] ->]. reflexivity.
  - intro E. inversion E. auto.
Qed.

(** ** Elements *)
Fixpoint sub_at (x : xml) (p : list nat) : option (list string * xml) :=
  match p with
  | [] => Some ([], x)
  | i :: q => match nth_error (xkids x) i with
              | Some c => match sub_at c q with
                          | Some (ts, y) => Some (xtag c :: ts, y)
                          | None => None
                          end
              | None => None
              end
  end.

Lemma sub_at_snoc : forall p x ts y i c, sub_at x p = Some (ts, y) -> nth_error (xkids y) i = Some c ->
  sub_at x (p ++ [i]) = Some (ts ++ [xtag c], c).
Proof.
  induction p as [| j p IH]; intros x ts y i c E N; cbn [sub_at app] in *.
  - injection E as E1 E2. subst. rewrite N. reflexivity.
  - destruct (nth_error (xkids x) j) as [d |]; [| discriminate].
    destruct (sub_at d p) as [[ts' y'] |] eqn:F; [| discriminate]. injection E as E1 E2. subst.
    rewrite (IH _ _ _ _ _ F N). reflexivity.
Qed.

Lemma kids_from_In : forall l n i c, In c (kids_from n i l) ->
  exists j, nth_error l j = Some (n_xml c) /\ n_first c = n_first n /\ n_path c = n_path n ++ [i + j] /\
    n_tags c = n_tags n ++ [xtag (n_xml c)].
Proof.
  induction l as [| x r IH]; intros n i c H; [destruct H |]. destruct H as [<- | H].
  - exists 0. cbn. rewrite Nat.add_0_r. auto.
  - destruct (IH n (S i) c H) as (j & N & A & B & T). exists (S j). cbn. repeat split; auto.
    rewrite B. do 2 f_equal. lia.
Qed.
Lemma kids_from_xml : forall l n i, map n_xml (kids_from n i l) = l.
Proof. induction l as [| x r IH]; intros n i; cbn; [auto | rewrite IH; auto]. Qed.
Lemma kids_xml : forall n, map n_xml (kids n) = xkids (n_xml n).
Proof. intro n. apply kids_from_xml. Qed.
Lemma kids_from_nodup : forall l n i, NoDup (map n_path (kids_from n i l)).
Proof.
  induction l as [| x r IH]; intros n i; cbn; constructor; auto.
  intro H. apply in_map_iff in H. destruct H as (c & E & H).
  apply kids_from_In in H. destruct H as (j & _ & _ & P & _). rewrite P in E.
  apply app_inv_head in E. injection E as E. lia.
Qed.
Lemma kids_nodup : forall n, NoDup (map n_path (kids n)).
Proof. intro n. apply kids_from_nodup. Qed.
Lemma kid_same : forall n a b, In a (kids n) -> In b (kids n) -> node_eqb a b = true -> a = b.
Proof.
  intros n a b A B E. unfold node_eqb in E. apply andb_true_iff in E. destruct E as [_ E].
  apply (list_eqb_ok Nat.eqb nat_eqb_ok) in E. assert (ND := kids_nodup n). revert ND A B.
  generalize (kids n). induction l as [| c r IH]; [intros _ [] |]. intros ND A B. inversion ND as [| ? ? N ND']; subst.
  destruct A as [-> | A], B as [-> | B]; auto.
  - destruct N. rewrite E. apply in_map. exact B.
  - destruct N. rewrite <- E. apply in_map. exact A.
Qed.
Lemma node_eqb_refl : forall a, node_eqb a a = true.
Proof.
  intro a. unfold node_eqb. rewrite Bool.eqb_reflx, (eqb_refl _ (list_eqb_ok Nat.eqb nat_eqb_ok)). reflexivity.
Qed.

Lemma kids_of_In : forall k n c, In c (kids_of k n) <-> In c (kids n) /\ xtag (n_xml c) = k.
Proof. intros k n c. unfold kids_of. rewrite filter_In, String.eqb_eq. tauto. Qed.

Definition RR {A B} (R : A -> B -> Prop) (a : res A) (b : res B) : Prop :=
  match a, b with Ok x, Ok y => R x y | Err e, Err e' => e = e' | _, _ => False end.

(** ** References in their default form *)
Definition canon_text (R : references) (b : bool) (p : list nat) (ts : list string) (tx : option string) : res (option string) :=
  match tx with
  | Some s => if is_ref R ts then let! v := default R b p ts s in Ok (Some v) else Ok (Some s)
  | None => Ok None
  end.
Fixpoint canon_kids (R : references) (b : bool) (p : list nat) (ts : list string) (i : nat) (l : list xml) : res (list xml) :=
  match l with
  | [] => Ok []
  | c :: r => let! c' := canon R b (p ++ [i]) (ts ++ [xtag c]) c in
              let! r' := canon_kids R b p ts (S i) r in Ok (c' :: r')
  end.
Lemma canon_eq : forall R b p ts t tx a ks, canon R b p ts (Elem t tx a ks) =
  let! tx' := canon_text R b p ts tx in let! ks' := canon_kids R b p ts 0 ks in Ok (Elem t tx' a ks').
Proof.
  intros R b p ts t tx a ks. cbn [canon]. unfold canon_text.
  assert (E : forall l i, (fix go (i : nat) (l : list xml) : res (list xml) :=
                     match l with
                     | [] => Ok []
                     | c :: r => let! c' := canon R b (p ++ [i]) (ts ++ [xtag c]) c in
                                 let! r' := go (S i) r in Ok (c' :: r')
                     end) i l = canon_kids R b p ts i l).
  { induction l as [| c r IH]; intro i; cbn; auto. destruct (canon R b (p ++ [i]) (ts ++ [xtag c]) c); cbn; auto.
    rewrite IH. reflexivity. }
  rewrite E. reflexivity.
Qed.

Section Fixed.
Variables (dev : snode) (refs : references) (max : nat) (x1 x2 : xml).
Hypothesis W : wfs dev = true.
Hypothesis TR : sty dev = TRoot.
Hypothesis PK : PlainKeys dev refs.

Definition HasCan (n : node) : Prop :=
  exists m, canon refs (n_first n) (n_path n) (n_tags n) (n_xml n) = Ok m.
Definition can (n : node) : xml :=
  match canon refs (n_first n) (n_path n) (n_tags n) (n_xml n) with Ok m => m | Err _ => n_xml n end.

Lemma can_tag : forall n, xtag (can n) = xtag (n_xml n).
Proof.
  intro n. unfold can. destruct (n_xml n) as [t tx a ks]. rewrite canon_eq.
  destruct (canon_text _ _ _ _ tx); cbn; auto. destruct (canon_kids _ _ _ _ 0 ks); cbn; auto.
Qed.
Lemma can_attrs : forall n, xattrs (can n) = xattrs (n_xml n).
Proof.
  intro n. unfold can. destruct (n_xml n) as [t tx a ks]. rewrite canon_eq.
  destruct (canon_text _ _ _ _ tx); cbn; auto. destruct (canon_kids _ _ _ _ 0 ks); cbn; auto.
Qed.
Lemma can_text : forall n, HasCan n ->
  canon_text refs (n_first n) (n_path n) (n_tags n) (xtext (n_xml n)) = Ok (xtext (can n)).
Proof.
  intros n (m & E). unfold can. destruct (n_xml n) as [t tx a ks]. rewrite canon_eq in *.
  destruct (canon_text _ _ _ _ tx) as [tx' |] eqn:T; cbn in E; [| discriminate].
  destruct (canon_kids _ _ _ _ 0 ks); cbn in E |- *; [exact T | discriminate].
Qed.
Lemma can_none : forall n, HasCan n -> (xtext (can n) = None <-> xtext (n_xml n) = None).
Proof.
  intros n H. apply can_text in H. unfold canon_text in H. destruct (xtext (n_xml n)); [| injection H as <-; tauto].
  destruct (is_ref refs (n_tags n)); [| injection H as <-; tauto].
  apply bind_ok in H. destruct H as (v & _ & H). injection H as <-. split; discriminate.
Qed.
Lemma can_plain : forall n, HasCan n -> is_ref refs (n_tags n) = false -> xtext (can n) = xtext (n_xml n).
Proof.
  intros n H E. apply can_text in H. unfold canon_text in H. rewrite E in H.
  destruct (xtext (n_xml n)); injection H as <-; reflexivity.
Qed.
Lemma can_kids : forall n, HasCan n -> map can (kids n) = xkids (can n) /\ (forall c, In c (kids n) -> HasCan c).
Proof.
  intros n (m & E). unfold can at 2. unfold kids. destruct (n_xml n) as [t tx a ks]. rewrite canon_eq in *. cbn [xkids].
  destruct (canon_text _ _ _ _ tx) as [tx' |] eqn:T; cbn [bind] in E |- *; [| discriminate].
  destruct (canon_kids _ _ _ _ 0 ks) as [ks' |] eqn:K; cbn [bind] in E |- *; [| discriminate]. cbn [xkids]. clear E T.
  revert ks' K. generalize 0. induction ks as [| c r IH]; intros i ks' K; cbn [canon_kids] in K.
  - injection K as <-. split; [reflexivity | intros c []].
  - apply bind_ok in K. destruct K as (c' & C & K). apply bind_ok in K. destruct K as (r' & K & Q). injection Q as <-.
    destruct (IH _ _ K) as [I1 I2]. cbn [kids_from map]. rewrite I1. split.
    + f_equal. unfold can. cbn [n_first n_path n_tags n_xml]. rewrite C. reflexivity.
    + intros d [<- | D]; [| auto]. exists c'. cbn [n_first n_path n_tags n_xml]. exact C.
Qed.
Lemma kids_of_xml : forall k n, HasCan n -> map can (kids_of k n) = kids_tagged k (xkids (can n)).
Proof.
  intros k n H. unfold kids_of, kids_tagged. rewrite <- (proj1 (can_kids n H)).
  induction (kids n) as [| c r IH]; cbn; auto. rewrite can_tag. destruct (String.eqb (xtag (n_xml c)) k); cbn; rewrite IH; auto.
Qed.

Definition Located (n : node) : Prop :=
  sub_at (if n_first n then x1 else x2) (n_path n) = Some (n_tags n, n_xml n).

Lemma Located_kid : forall n c, Located n -> In c (kids n) -> Located c.
Proof.
  intros n c L H. apply kids_from_In in H. destruct H as (j & N & F & P & T). unfold Located in *.
  rewrite F, P, T. cbn [Nat.add]. eapply sub_at_snoc; eauto.
Qed.

(** What a call gives without a cache, by its key. *)
Definition val (n : node) (sn : option (list string)) : res (option string) :=
  match xtext (n_xml n) with
  | None => Ok None
  | Some t =>
      let! h := match sn with
                | Some ts => let! s := foldM schema_child dev ts in Ok (ts, s)
                | None => get_schema_node dev n
                end in
      if is_ref refs (fst h)
      then let! v := default refs (n_first n) (n_path n) (n_tags n) t in Ok (Some v)
      else Ok (parse_text (snd h) (n_xml n))
  end.

Definition Good (c : cache) : Prop :=
  forall n sn v, In ((n_first n, n_path n, sn), v) c -> Located n -> val n sn = Ok v.

Definition Sim {A B} (m : M A) (r : res B) (R : A -> B -> Prop) : Prop :=
  forall c, Good c -> exists a c', m c = (a, c') /\ Good c' /\ RR R a r.

Lemma sim_lift : forall {A B} (a : res A) (b : res B) R, RR R a b -> Sim (lift a) b R.
Proof. intros A B a b R H c G. exists a, c. auto. Qed.
Lemma sim_ret : forall {A B} (a : A) (b : B) (R : A -> B -> Prop), R a b -> Sim (ret a) (Ok b) R.
Proof. intros A B a b R H c G. exists (Ok a), c. auto. Qed.
Lemma sim_bind : forall {A B A' B'} (m : M A) (r : res B) (k : A -> M A') (k' : B -> res B') R R',
  Sim m r R -> (forall a b, R a b -> Sim (k a) (k' b) R') -> Sim (mbind m k) (bind r k') R'.
Proof.
  intros A B A' B' m r k k' R R' H K c G. destruct (H c G) as (a & c' & E & G' & Q).
  unfold mbind. rewrite E. destruct a as [a | e], r as [b | e']; cbn in Q; try tauto.
  - apply K; auto.
  - subst. exists (Err e'), c'. cbn. auto.
Qed.
Lemma sim_impl : forall {A B} (m : M A) (r : res B) (R R' : A -> B -> Prop),
  Sim m r R -> (forall a b, R a b -> R' a b) -> Sim m r R'.
Proof.
  intros A B m r R R' H K c G. destruct (H c G) as (a & c' & E & G' & Q). exists a, c'. split; auto. split; auto.
  destruct a, r; cbn in *; auto.
Qed.

Lemma sim_ext : forall {A B} (m m' : M A) (r : res B) R, (forall c, m c = m' c) -> Sim m' r R -> Sim m r R.
Proof. intros A B m m' r R E H c G. rewrite E. apply H. exact G. Qed.
Lemma sim_know : forall {A B} (m : M A) (r : res B) R, Sim m r R -> Sim m r (fun a b => R a b /\ r = Ok b).
Proof.
  intros A B m r R H c G. destruct (H c G) as (a & c' & E & G' & Q). exists a, c'. split; auto. split; auto.
  destruct a, r; cbn in *; auto.
Qed.
Lemma sim_bind_ok : forall {A A' B'} (m : M A) b (k : A -> M A') (r : res B') R,
  Sim m (Ok b) eq -> Sim (k b) r R -> Sim (mbind m k) r R.
Proof.
  intros A A' B' m b k r R H K c G. destruct (H c G) as (a & c' & E & G' & Q). destruct a as [a |]; cbn in Q; [| contradiction].
  subst a. unfold mbind. rewrite E. apply K. exact G'.
Qed.

(** ** The cached call *)
Lemma sim_parse : forall n s, Located n ->
  (forall ts sn, s = Some (ts, sn) -> foldM schema_child dev ts = Ok sn) ->
  Sim (parse_call dev refs max n s) (parse_body dev refs n s) eq.
Proof.
  intros n s L HS c G. unfold parse_call, lru_call.
  assert (V : val n (option_map fst s) = parse_body dev refs n s).
  { unfold val, parse_body. destruct (xtext (n_xml n)); auto. destruct s as [[ts sn] |]; cbn; auto.
    rewrite (HS _ _ eq_refl). reflexivity. }
  destruct (assoc call_eqb (n_first n, n_path n, option_map fst s) c) as [v |] eqn:E.
  - apply (assoc_In call_eqb call_eqb_ok) in E. assert (X := G _ _ _ E L).
    exists (Ok v), (((n_first n, n_path n, option_map fst s), v) ::
                    drop call_eqb (n_first n, n_path n, option_map fst s) c).
    split; auto. split.
    + intros m sn w [Q | Q] Lm.
      * injection Q as Q1 Q2 Q3 Q4. subst. unfold Located in L, Lm. rewrite Q1, Q2 in L. rewrite Lm in L.
        injection L as L1 L2. unfold val, get_schema_node in *. rewrite <- Q1, <- Q2, L1, L2. exact X.
      * unfold drop in Q. apply filter_In in Q. apply (G _ _ _ (proj1 Q) Lm).
    + rewrite V in X. rewrite X. reflexivity.
  - destruct (parse_body dev refs n s) as [v | e] eqn:P.
    + exists (Ok v), (firstn max (((n_first n, n_path n, option_map fst s), v) :: c)).
      split; auto. split; [| reflexivity].
      intros m sn w Q Lm.
      assert (Q' : In (n_first m, n_path m, sn, w) ((n_first n, n_path n, option_map fst s, v) :: c)).
      { rewrite <- (firstn_skipn max ((n_first n, n_path n, option_map fst s, v) :: c)). apply in_or_app. auto. }
      destruct Q' as [Q' | Q'].
      * injection Q' as Q1 Q2 Q3 Q4. subst. unfold Located in L, Lm. rewrite Q1, Q2 in L. rewrite Lm in L.
        injection L as L1 L2. unfold val, get_schema_node in *. rewrite <- Q1, <- Q2, L1, L2. exact V.
      * apply (G _ _ _ Q' Lm).
    + exists (Err e), c. cbn. auto.
Qed.

(** ** Schema nodes *)
Definition Has (n : node) (s : snode) : Prop :=
  (Located n /\ HasCan n) /\ foldM schema_child dev (n_tags n) = Ok s.

Lemma foldM_snoc : forall ts s t, foldM schema_child s (ts ++ [t]) =
  let! s' := foldM schema_child s ts in schema_child s' t.
Proof.
  intros ts s t. rewrite foldM_app. destruct (foldM schema_child s ts); cbn; auto.
  destruct (schema_child a t); reflexivity.
Qed.

Lemma kid_tags : forall n c, In c (kids n) -> n_tags c = n_tags n ++ [xtag (n_xml c)].
Proof. intros n c H. apply kids_from_In in H. destruct H as (j & _ & _ & _ & T). exact T. Qed.

Lemma kid_schema : forall n s c, Has n s -> In c (kids n) ->
  get_schema_node dev c = let! cs := schema_child s (xtag (n_xml c)) in Ok (n_tags c, cs).
Proof.
  intros n s c [_ H] I. unfold get_schema_node. rewrite (kid_tags _ _ I).
  destruct (n_tags n ++ [xtag (n_xml c)]) as [| t r] eqn:E; [destruct (n_tags n); discriminate |].
  rewrite <- E, foldM_snoc, H. cbn. destruct (schema_child s (xtag (n_xml c))); reflexivity.
Qed.
Lemma kid_Has : forall n s c cs, Has n s -> In c (kids n) -> schema_child s (xtag (n_xml c)) = Ok cs -> Has c cs.
Proof.
  intros n s c cs [L H] I E. destruct L as [L HC]. split; [split; [apply (Located_kid _ _ L I) | apply (can_kids n HC); exact I] |].
  rewrite (kid_tags _ _ I), foldM_snoc, H. exact E.
Qed.
Lemma Has_wfs : forall ts s s', wfs s = true -> foldM schema_child s ts = Ok s' -> wfs s' = true.
Proof.
  induction ts as [| t r IH]; intros s s' Ws E; cbn in E; [injection E as <-; auto |].
  apply bind_ok in E. destruct E as (c & Ec & E). apply (IH c); auto. apply (wfs_child _ _ _ Ws Ec).
Qed.
Lemma Has_root : forall n s, Has n s -> n_tags n <> [] -> sty s <> TRoot.
Proof.
  intros n s [_ H] N. destruct (exists_last N) as (ts & t & E). rewrite E, foldM_snoc in H.
  apply bind_ok in H. destruct H as (s' & E1 & E2). apply (wfs_not_root s' t s); auto.
  apply (Has_wfs _ _ _ W E1).
Qed.
Lemma Has_schema : forall n s, Has n s -> n_tags n <> [] -> get_schema_node dev n = Ok (n_tags n, s).
Proof.
  intros n s [_ H] N. unfold get_schema_node. destruct (n_tags n) as [| t r]; [congruence |]. rewrite H. reflexivity.
Qed.

(** Without a cache a call gives the text in its default form. *)
Lemma body_right : forall n s (o : option schema), Has n s -> n_tags n <> [] -> o = None \/ o = Some (n_tags n, s) ->
  parse_body dev refs n o = Ok (parse_text s (can n)).
Proof.
  intros n s o Hn N O.
  assert (G : parse_body dev refs n o =
    match xtext (n_xml n) with
    | None => Ok None
    | Some t => if is_ref refs (n_tags n)
                then let! v := default refs (n_first n) (n_path n) (n_tags n) t in Ok (Some v)
                else Ok (parse_text s (n_xml n))
    end).
  { unfold parse_body. destruct O as [-> | ->]; [rewrite (Has_schema _ _ Hn N) |]; reflexivity. }
  rewrite G. clear G.
  destruct Hn as [[_ HC] HS]. assert (T := can_text n HC). assert (P := can_plain n HC).
  destruct (xtext (n_xml n)) as [t |] eqn:E.
  - destruct (is_ref refs (n_tags n)) eqn:R.
    + unfold canon_text in T. rewrite R in T. apply bind_ok in T. destruct T as (v & D & T). rewrite D. cbn [bind].
      injection T as T. unfold parse_text. rewrite <- T.
      destruct PK as [PK1 _]. destruct (PK1 _ _ R HS) as [-> | ->]; reflexivity.
    + unfold parse_text. rewrite P, E by auto. reflexivity.
  - injection T as T. unfold parse_text. rewrite <- T. reflexivity.
Qed.
Lemma not_ref : forall n s, foldM schema_child dev n = Ok s -> sty s <> TLeaf -> sty s <> TLeafList -> is_ref refs n = false.
Proof.
  intros n s E N1 N2. destruct (is_ref refs n) eqn:R; auto. destruct PK as [PK1 _]. destruct (PK1 _ _ R E); contradiction.
Qed.

Lemma sim_same_text : forall a b s, Has a s -> Has b s -> n_tags a = n_tags b ->
  Sim (same_text_c dev refs max a b) (same_text s (can a) (can b)) eq.
Proof.
  intros a b s Ha Hb E. unfold same_text_c, same_text.
  assert (Ca := can_none a (proj2 (proj1 Ha))). assert (Cb := can_none b (proj2 (proj1 Hb))).
  assert (Z : ~ (xtext (n_xml a) = None /\ xtext (n_xml b) = None) ->
    Sim (do x <- parse_call dev refs max a None; do y <- parse_call dev refs max b None; ret (ostr_eqb x y))
      (match sty s with TRoot => Err ModelMissing | _ => Ok (ostr_eqb (parse_text s (can a)) (parse_text s (can b))) end) eq).
  { intros Hsome.
    assert (X : (match sty s with TRoot => Err ModelMissing | _ => Ok (ostr_eqb (parse_text s (can a)) (parse_text s (can b))) end) =
      let! x := parse_body dev refs a None in let! y := parse_body dev refs b None in Ok (ostr_eqb x y)).
    { destruct (n_tags a) as [| ta ra] eqn:Ta.
      - destruct Ha as [_ Ha]. rewrite Ta in Ha. cbn in Ha. injection Ha as <-. rewrite TR.
        unfold parse_body, get_schema_node. rewrite <- E, Ta. unfold bind.
        destruct (xtext (n_xml a)), (xtext (n_xml b)); auto. tauto.
      - assert (Na : n_tags a <> []) by congruence. assert (Nb : n_tags b <> []) by congruence.
        assert (Y := Has_root _ _ Ha Na).
        rewrite (body_right a s None Ha Na), (body_right b s None Hb Nb) by auto. cbn [bind].
        destruct (sty s); congruence. }
    rewrite X. eapply sim_bind; [apply sim_parse; [apply Ha | discriminate] |]. intros x ? <-.
    eapply sim_bind; [apply sim_parse; [apply Hb | discriminate] |]. intros y ? <-.
    apply sim_ret. reflexivity. }
  destruct (xtext (n_xml a)) as [t |] eqn:Ea.
  - destruct (xtext (can a)); [apply Z; intros [Q _]; discriminate | destruct Ca as [Ca _]; discriminate Ca; auto].
  - rewrite (proj2 Ca eq_refl). destruct (xtext (n_xml b)) as [u |] eqn:Eb.
    + destruct (xtext (can b)); [apply Z; intros [_ Q]; discriminate | destruct Cb as [Cb _]; discriminate Cb; auto].
    + rewrite (proj2 Cb eq_refl). apply sim_ret. reflexivity.
Qed.

(** ** Identities *)
Lemma find_one_ok : forall k n, HasCan n -> RR (fun c x => can c = x /\ In c (kids n) /\ xtag (n_xml c) = k)
  (find_one k n) (find_one_child k (can n)).
Proof.
  intros k n HC. unfold find_one, find_one_child. rewrite <- kids_of_xml by auto.
  destruct (kids_of k n) as [| c [| d r]] eqn:E; cbn; auto.
  assert (I : In c (kids_of k n)) by (rewrite E; left; auto). apply kids_of_In in I. tauto.
Qed.

(** A key leaf is no reference. *)
Lemma key_plain : forall n s c, Has n s -> sty s = TList -> In c (kids n) -> In (xtag (n_xml c)) (s_keys (si s)) ->
  HasCan c /\ is_ref refs (n_tags c) = false.
Proof.
  intros n s c [[_ HC] HS] L I K. split; [apply (can_kids n HC); exact I |].
  rewrite (kid_tags _ _ I). destruct PK as [_ PK2]. eapply PK2; eauto.
Qed.

Lemma sim_index_tuple : forall n s, Has n s -> sty s = TList ->
  Sim (index_tuple dev refs max n (n_tags n, s)) (key_tuple s (can n)) eq.
Proof.
  intros n s Hn L. assert (E := proj2 Hn). unfold index_tuple, key_tuple. cbn [snd].
  assert (IN : incl (s_keys (si s)) (s_keys (si s))) by (intros z Z; exact Z). revert IN.
  generalize (s_keys (si s)) at 1 3 4. intro l.
  induction l as [| k r IH]; intro IN; cbn [mmap mapM]; [apply sim_ret; auto |].
  eapply sim_bind with (R := eq).
  - eapply sim_bind; [apply sim_lift, find_one_ok; apply Hn |]. intros c x (<- & I & T).
    assert (P : parse_body dev refs c (Some (n_tags n, s)) = Ok (parse_text s (can c))).
    { unfold parse_body, parse_text. cbn [bind fst snd].
      rewrite (not_ref (n_tags n) s) by (try congruence; apply Hn).
      destruct (key_plain n s c Hn L I) as [C1 C2]; [rewrite T; apply IN; left; auto |].
      rewrite (can_plain c C1 C2). destruct (xtext (n_xml c)); reflexivity. }
    rewrite <- P. apply sim_parse; [apply (Located_kid n); [apply Hn | auto] |].
    intros ts' sn Q. injection Q as <- <-. exact E.
  - intros v ? <-. eapply sim_bind; [apply IH; intros z Z; apply IN; right; exact Z |]. intros vs ? <-. apply sim_ret. auto.
Qed.

(** The types kept while the children of one node are paired. *)
Definition TypesOk (tags : list string) (s : snode) (ts : types) : Prop :=
  forall t h, In (t, h) ts -> exists cs, h = (tags ++ [t], cs) /\ schema_child s t = Ok cs.

Lemma sim_unique_id : forall n s c ts, Has n s -> In c (kids n) -> TypesOk (n_tags n) s ts ->
  Sim (unique_id dev refs max ts c) (uid_of s (can c)) (fun p u => fst p = u /\ TypesOk (n_tags n) s (snd p)).
Proof.
  intros n s c ts Hn I TO. unfold unique_id, uid_of. rewrite can_tag.
  apply sim_bind with (R := fun p cs => fst p = (n_tags c, cs) /\ TypesOk (n_tags n) s (snd p) /\
                                         schema_child s (xtag (n_xml c)) = Ok cs).
  - apply sim_lift. unfold type_for_tag.
    destruct (assoc String.eqb (xtag (n_xml c)) ts) as [h |] eqn:E.
    + apply (assoc_In String.eqb string_eqb_ok) in E. destruct (TO _ _ E) as (cs & -> & S1). rewrite S1. cbn.
      rewrite (kid_tags _ _ I). auto.
    + rewrite (kid_schema _ _ _ Hn I). destruct (schema_child s (xtag (n_xml c))) as [cs | e] eqn:S1; cbn; auto.
      split; auto. split; auto. intros t h [Q | Q]; [| apply TO; auto]. injection Q as <- <-. exists cs.
      rewrite (kid_tags _ _ I). auto.
  - intros [h ts'] cs (Q & TO' & S1). cbn [fst snd] in *. subst h. cbn [snd].
    assert (Hc := kid_Has _ _ _ _ Hn I S1).
    destruct (sty cs) eqn:ST; try (apply sim_ret; auto).
    + assert (P : parse_body dev refs c (Some (n_tags c, cs)) = Ok (parse_text cs (can c))).
      { apply body_right; auto. rewrite (kid_tags _ _ I). destruct (n_tags n); discriminate. }
      apply sim_impl with (R := fun p u => fst p = u /\ TypesOk (n_tags n) s (snd p)); [| auto].
      change (Ok (xtag (n_xml c), KText (parse_text cs (can c)))) with
        (let! x := Ok (parse_text cs (can c)) in Ok (xtag (n_xml c), KText x)).
      rewrite <- P. eapply sim_bind.
      * apply sim_parse; [apply Hc |]. intros ts2 sn Q. injection Q as <- <-. apply Hc.
      * intros x ? <-. apply sim_ret. auto.
    + eapply sim_bind; [apply sim_index_tuple; [exact Hc | exact ST] |].
      intros l ? <-. apply sim_ret. auto.
Qed.

Definition xmls (l : list (uid * node)) : list (uid * xml) := map (fun e => (fst e, can (snd e))) l.

Lemma sim_index : forall n s l ts acc seen, Has n s -> incl l (kids n) -> TypesOk (n_tags n) s ts ->
  (forall u, In u seen <-> In u (map fst acc)) ->
  Sim (index_c dev refs max ts acc l) (index_from s seen (map can l))
    (fun p es => exists es', fst p = acc ++ es' /\ xmls es' = es /\ map snd es' = l /\ TypesOk (n_tags n) s (snd p)).
Proof.
  intros n s l. induction l as [| c r IH]; intros ts acc seen Hn I TO SE; cbn [index_c index_from map].
  - apply sim_ret. exists []. cbn. rewrite app_nil_r. auto.
  - eapply sim_bind; [apply (sim_unique_id n); eauto; apply I; left; auto |].
    intros [u ts'] ? [<- TO']. cbn [fst snd] in *.
    assert (MM : mem uid_eqb u seen = match assoc uid_eqb u acc with Some _ => true | None => false end).
    { destruct (assoc uid_eqb u acc) as [v |] eqn:E.
      - apply (mem_In uid_eqb uid_eqb_ok). apply SE. apply (assoc_Some_In uid_eqb uid_eqb_ok). eauto.
      - apply (mem_not_In uid_eqb uid_eqb_ok). rewrite SE. apply (assoc_None uid_eqb uid_eqb_ok). exact E. }
    rewrite MM. destruct (assoc uid_eqb u acc); [apply sim_lift; reflexivity |].
    assert (Q := IH ts' (acc ++ [(u, c)]) (u :: seen) Hn (fun y Y => I y (or_intror Y)) TO').
    assert (SE' : forall v, In v (u :: seen) <-> In v (map fst (acc ++ [(u, c)]))).
    { intro v. rewrite map_app, in_app_iff. cbn. rewrite <- SE. tauto. }
    specialize (Q SE'). intros k G. destruct (Q k G) as (a & k' & E & G' & X). rewrite E. exists a, k'.
    split; auto. split; auto. destruct a as [p |], (index_from s (u :: seen) (map can r)) as [es |]; cbn in X |- *; auto.
    destruct X as (es' & X1 & X2 & X3 & X4). exists ((u, c) :: es'). rewrite X1, <- app_assoc.
    cbn [xmls map fst snd]. fold (xmls es'). rewrite X2, X3. auto.
Qed.

(** ** The order of one child *)
Lemma assoc_xmls : forall u l, assoc uid_eqb u (xmls l) = option_map can (assoc uid_eqb u l).
Proof.
  intros u l. induction l as [| [v n] r IH]; cbn; auto. destruct (uid_eqb u v); auto.
Qed.
Lemma fst_xmls : forall l, map fst (xmls l) = map fst l.
Proof. intro l. unfold xmls. rewrite map_map. apply map_ext. auto. Qed.

(** A list of children with their identities. *)
Definition Indexed (n : node) (s : snode) (l : list (uid * node)) : Prop :=
  map snd l = kids n /\ NoDup (map fst l) /\ (forall u c, In (u, c) l -> uid_of s (can c) = Ok u).

Lemma Indexed_kid : forall n s l u c, Indexed n s l -> In (u, c) l -> In c (kids n).
Proof. intros n s l u c (E & _) I. rewrite <- E. apply (in_map snd) in I. exact I. Qed.
Lemma Indexed_tag : forall n s l u c, Indexed n s l -> In (u, c) l -> fst u = xtag (n_xml c).
Proof. intros n s l u c (_ & _ & H) I. rewrite <- can_tag. eapply uid_tag. eauto. Qed.

Lemma until_app : forall {A} (p : A -> bool) l1 x l2, (forall y, In y l1 -> p y = false) -> p x = true ->
  until p (l1 ++ x :: l2) = l1.
Proof.
  intros A p l1 x l2 H E. induction l1 as [| y r IH]; cbn; [rewrite E; auto |].
  rewrite (H y (or_introl eq_refl)), IH; auto. intros z Z. apply H. right. auto.
Qed.

Lemma elders_split : forall n s l p u c q t, Indexed n s l -> l = p ++ (u, c) :: q ->
  elders t c n = rev (map snd (filter (fun e : uid * node => String.eqb (fst (fst e)) t) p)).
Proof.
  intros n s l p u c q t X E. assert (X' := X). destruct X as (K & ND & _). unfold elders.
  assert (U : until (node_eqb c) (kids n) = map snd p).
  { rewrite <- K, E, map_app. cbn [map snd]. apply until_app; [| apply node_eqb_refl].
    intros y Y. destruct (node_eqb c y) eqn:F; auto. exfalso.
    assert (Ic : In c (kids n)) by (apply (Indexed_kid n s l u); auto; rewrite E; apply in_elt).
    assert (Iy : In y (kids n)) by (rewrite <- K, E, map_app; apply in_or_app; auto).
    assert (Q := kid_same _ _ _ Ic Iy F). subst y.
    assert (NP := kids_nodup n). rewrite <- K, E, !map_app in NP. cbn [map snd] in NP.
    apply NoDup_remove_2 in NP. apply NP. apply in_or_app. left. apply in_map. exact Y. }
  rewrite U. f_equal.
  assert (T : forall e, In e p -> String.eqb (xtag (n_xml (snd e))) t = String.eqb (fst (fst e)) t).
  { intros [v d] I. cbn. rewrite (Indexed_tag n s l v d X'); auto. rewrite E. apply in_or_app. auto. }
  clear U E. induction p as [| e r IH]; cbn; auto. rewrite (T e (or_introl eq_refl)).
  rewrite IH by (intros z Z; apply T; right; auto).
  destruct e as [[ut uk] m]. cbn [fst snd]. destruct (String.eqb ut t); reflexivity.
Qed.

Lemma find_rev_filter : forall {A} (p : A -> bool) l, find p (rev l) = hd_error (rev (filter p l)).
Proof.
  intros A p l. induction l as [| x r IH] using rev_ind; cbn; auto.
  rewrite rev_app_distr, filter_app. cbn. destruct (p x) eqn:E.
  - rewrite rev_app_distr. reflexivity.
  - rewrite app_nil_r. exact IH.
Qed.

Lemma before_uid_split : forall t u l p q, l = p ++ u :: q -> ~ In u p ->
  before_uid t u l = filter (fun v : uid => String.eqb (fst v) t) p.
Proof.
  intros t u l p. revert l. induction p as [| v r IH]; intros l q -> N; cbn.
  - rewrite uid_eqb_refl. reflexivity.
  - destruct (uid_eqb v u) eqn:E; [apply uid_eqb_ok in E; subst; destruct N; left; auto |].
    rewrite (IH _ q eq_refl) by (intro Z; apply N; right; auto). destruct (String.eqb (fst v) t); auto.
Qed.

(** The key leaves of a list have the texts that the identity shows. *)
Lemma sim_is_peer : forall a b cs keys la lb, Has a cs -> Has b cs -> n_tags a = n_tags b -> n_tags a <> [] ->
  sty cs = TList -> incl keys (s_keys (si cs)) ->
  mapM (fun k => let! c := find_one_child k (can a) in Ok (parse_text cs c)) keys = Ok la ->
  mapM (fun k => let! c := find_one_child k (can b) in Ok (parse_text cs c)) keys = Ok lb ->
  Sim (is_peer dev refs max keys a b) (Ok (list_eqb ostr_eqb la lb)) eq.
Proof.
  intros a b cs keys. induction keys as [| k r IH]; intros la lb Ha Hb T NT L I Ea Eb; cbn [mapM] in *.
  - injection Ea as <-. injection Eb as <-. apply sim_ret. reflexivity.
  - apply bind_ok in Ea. destruct Ea as (va & Ea & Ea'). apply bind_ok in Ea'. destruct Ea' as (ra & Ra & Ea').
    apply bind_ok in Eb. destruct Eb as (vb & Eb & Eb'). apply bind_ok in Eb'. destruct Eb' as (rb & Rb & Eb').
    injection Ea' as <-. injection Eb' as <-.
    apply bind_ok in Ea. destruct Ea as (ka & Fa & Ea). injection Ea as <-.
    apply bind_ok in Eb. destruct Eb as (kb & Fb & Eb). injection Eb as <-.
    assert (Qa := find_one_ok k a (proj2 (proj1 Ha))). rewrite Fa in Qa. unfold find_one in Qa.
    assert (Qb := find_one_ok k b (proj2 (proj1 Hb))). rewrite Fb in Qb. unfold find_one in Qb.
    cbn [is_peer]. destruct (kids_of k a) as [| na [|]]; try contradiction Qa.
    destruct (kids_of k b) as [| nb [|]]; try contradiction Qb.
    destruct Qa as (<- & Ia & Ta). destruct Qb as (<- & Ib & Tb).
    destruct (wfs_keys cs) as [_ WK]; [apply (Has_wfs _ _ _ W (proj2 Ha)) | auto |].
    destruct (WK k (I k (or_introl eq_refl))) as (_ & kc & S1 & S2).
    assert (Hna : Has na kc) by (apply (kid_Has a cs); auto; rewrite Ta; auto).
    assert (Hnb : Has nb kc) by (apply (kid_Has b cs); auto; rewrite Tb; auto).
    assert (ET : n_tags na = n_tags nb) by (rewrite (kid_tags _ _ Ia), (kid_tags _ _ Ib), T, Ta, Tb; auto).
    assert (SL : sty kc = TLeaf) by tauto.
    assert (ST : same_text kc (can na) (can nb) = Ok (ostr_eqb (parse_text cs (can na)) (parse_text cs (can nb)))).
    { unfold same_text, parse_text. rewrite SL, L. destruct (xtext (can na)), (xtext (can nb)); reflexivity. }
    change (Ok (list_eqb ostr_eqb (parse_text cs (can na) :: ra) (parse_text cs (can nb) :: rb))) with
      (let! e := Ok (ostr_eqb (parse_text cs (can na)) (parse_text cs (can nb))) in
       Ok (e && list_eqb ostr_eqb ra rb)).
    rewrite <- ST. eapply sim_bind; [apply sim_same_text; eauto |].
    intros e ? <-. destruct e; [| apply sim_ret; reflexivity].
    apply IH; auto. intros z Z. apply I. right. exact Z.
Qed.

Lemma sim_filter : forall {A} (f : A -> M bool) g l, (forall x, In x l -> Sim (f x) (Ok (g x)) eq) ->
  Sim (mfilter f l) (Ok (filter g l)) eq.
Proof.
  intros A f g l H. induction l as [| x r IH]; cbn [mfilter filter]; [apply sim_ret; auto |].
  change (Ok (if g x then x :: filter g r else filter g r)) with
    (let! b := Ok (g x) in let! ys := Ok (filter g r) in Ok (if b then x :: ys else ys)).
  eapply sim_bind; [apply H; left; auto |]. intros b ? <-.
  eapply sim_bind; [apply IH; intros y Y; apply H; right; auto |]. intros ys ? <-. apply sim_ret. auto.
Qed.

Lemma filter_one : forall (l : list (uid * node)) u n, NoDup (map fst l) -> In (u, n) l ->
  filter (fun e => uid_eqb u (fst e)) l = [(u, n)].
Proof.
  induction l as [| [v m] r IH]; intros u n ND I; [destruct I |]. inversion ND as [| ? ? N ND']; subst. cbn.
  destruct I as [E | I].
  - injection E as -> ->. rewrite uid_eqb_refl. f_equal. apply filter_none. intros [w k] K. cbn.
    destruct (uid_eqb u w) eqn:E; auto. apply uid_eqb_ok in E. subst. destruct N. apply (in_map fst) in K. exact K.
  - destruct (uid_eqb u v) eqn:E; [apply uid_eqb_ok in E; subst; destruct N; apply (in_map fst) in I; exact I |].
    apply IH; auto.
Qed.

(** The peers of an element that has one are that one. *)
Lemma sim_peers : forall a b s ones twos ue e p cs, Has a s -> Has b s -> n_tags a = n_tags b ->
  Indexed a s ones -> Indexed b s twos -> In (ue, e) ones -> In (ue, p) twos ->
  schema_child s (xtag (n_xml e)) = Ok cs -> is_user_seq cs = true ->
  Sim (get_peers dev refs max e b) (Ok [p]) eq.
Proof.
  intros a b s ones twos ue e p cs Ha Hb T Xa Xb Ie Ip S1 US.
  assert (Ke := Indexed_kid _ _ _ _ _ Xa Ie). assert (He := kid_Has _ _ _ _ Ha Ke S1).
  assert (Te := kid_tags _ _ Ke).
  assert (Ne : n_tags e <> []) by (rewrite Te; destruct (n_tags a); discriminate).
  assert (Ue : uid_of s (can e) = Ok ue) by (apply Xa; auto).
  unfold get_peers. rewrite (Has_schema _ _ He Ne).
  assert (F : forall g, (forall u x, In (u, x) twos -> xtag (n_xml x) = xtag (n_xml e) -> g x = uid_eqb ue u) ->
            filter g (kids_of (xtag (n_xml e)) b) = [p]).
  { intros g Hg. unfold kids_of. destruct Xb as (Kb & NDb & Ub). rewrite <- Kb.
    assert (Z : forall l, incl l twos -> filter g (filter (fun c => String.eqb (xtag (n_xml c)) (xtag (n_xml e))) (map snd l)) =
                map snd (filter (fun x => uid_eqb ue (fst x)) l)).
    { induction l as [| [u x] r IH]; intro I; cbn; auto.
      assert (Ix : In (u, x) twos) by (apply I; left; auto).
      assert (Tu : fst u = xtag (n_xml x)) by (rewrite <- can_tag; eapply uid_tag; eauto).
      assert (Tue : fst ue = xtag (n_xml e)) by (rewrite <- can_tag; eapply uid_tag; eauto).
      destruct (String.eqb (xtag (n_xml x)) (xtag (n_xml e))) eqn:E.
      - cbn. rewrite (Hg u x Ix) by (apply String.eqb_eq; auto). rewrite IH by (intros z Zz; apply I; right; auto).
        destruct (uid_eqb ue u); auto.
      - rewrite IH by (intros z Zz; apply I; right; auto). destruct (uid_eqb ue u) eqn:F; auto.
        apply uid_eqb_ok in F. subst u. apply String.eqb_neq in E. congruence. }
    rewrite (Z twos (fun z Zz => Zz)), (filter_one twos ue p NDb Ip). reflexivity. }
  assert (KS : forall u x, In (u, x) twos -> xtag (n_xml x) = xtag (n_xml e) -> Has x cs /\ n_tags e = n_tags x).
  { intros u x Ix Tx. assert (Kx := Indexed_kid _ _ _ _ _ Xb Ix). split.
    - apply (kid_Has b s); auto. rewrite Tx. exact S1.
    - rewrite Te, (kid_tags _ _ Kx), T, Tx. reflexivity. }
  apply sim_bind with (r := Ok tt) (k' := fun _ => Ok [p]) (R := fun h _ => h = (n_tags e, cs)); [apply sim_lift; reflexivity |].
  intros h _ ->. cbn [snd].
  assert (UI : forall x, In x (kids_of (xtag (n_xml e)) b) -> exists u, In (u, x) twos /\ xtag (n_xml x) = xtag (n_xml e)).
  { intros x Hx. apply kids_of_In in Hx. destruct Hx as [Hx Tx]. destruct Xb as (Kb & _). rewrite <- Kb in Hx.
    apply in_map_iff in Hx. destruct Hx as ([u x'] & Q & Hx). cbn in Q. subst. eauto. }
  unfold uid_of in Ue. rewrite can_tag, S1 in Ue. cbn [bind] in Ue.
  unfold is_user_seq in US. apply andb_true_iff in US. destruct US as [_ US].
  destruct (sty cs) eqn:ST; try discriminate US.
  - (* leaf-list *)
    rewrite <- (F (fun x => ostr_eqb (parse_text cs (can e)) (parse_text cs (can x)))).
    + apply sim_filter. intros x Hx. destruct (UI x Hx) as (u & Iu & Tx). destruct (KS u x Iu Tx) as [Hhx ET].
      assert (Q := sim_same_text e x cs He Hhx ET). unfold same_text in Q. rewrite ST in Q.
      assert (E : (match xtext (can e), xtext (can x) with None, None => Ok true
                   | _, _ => Ok (ostr_eqb (parse_text cs (can e)) (parse_text cs (can x))) end) =
                  Ok (ostr_eqb (parse_text cs (can e)) (parse_text cs (can x)))).
      { unfold parse_text. destruct (xtext (can e)), (xtext (can x)); reflexivity. }
      rewrite E in Q. exact Q.
    + intros u x Ix Tx. destruct Xb as (_ & _ & Ub). assert (Ux := Ub u x Ix). unfold uid_of in Ux.
      rewrite can_tag, Tx, S1 in Ux. cbn [bind] in Ux. rewrite ST in Ux. injection Ux as <-. injection Ue as <-.
      unfold uid_eqb. cbn. rewrite String.eqb_refl. reflexivity.
  - (* list *)
    apply bind_ok in Ue. destruct Ue as (la & La & Ue). injection Ue as <-.
    rewrite <- (F (fun x => match key_tuple cs (can x) with Ok lb => list_eqb ostr_eqb la lb | Err _ => false end)).
    + apply sim_filter. intros x Hx. destruct (UI x Hx) as (u & Iu & Tx). destruct (KS u x Iu Tx) as [Hhx ET].
      destruct Xb as (_ & _ & Ub). assert (Ux := Ub u x Iu). unfold uid_of in Ux.
      rewrite can_tag, Tx, S1 in Ux. cbn [bind] in Ux. rewrite ST in Ux. apply bind_ok in Ux. destruct Ux as (lb & Lb & Ux).
      rewrite Lb. apply (sim_is_peer e x cs); auto. intros z Z. exact Z.
    + intros u x Ix Tx. destruct Xb as (_ & _ & Ub). assert (Ux := Ub u x Ix). unfold uid_of in Ux.
      rewrite can_tag, Tx, S1 in Ux. cbn [bind] in Ux. rewrite ST in Ux. apply bind_ok in Ux. destruct Ux as (lb & Lb & Ux).
      injection Ux as <-. rewrite Lb. unfold uid_eqb. cbn. rewrite String.eqb_refl. reflexivity.
Qed.

Lemma sim_in_order : forall a b s ones twos p q u n p' q' n' cs, Has a s -> Has b s -> n_tags a = n_tags b ->
  Indexed a s ones -> Indexed b s twos -> ones = p ++ (u, n) :: q -> twos = p' ++ (u, n') :: q' ->
  (forall v m, In (v, m) p -> In v (map fst twos)) ->
  schema_child s (xtag (n_xml n)) = Ok cs -> is_user_seq cs = true ->
  Sim (in_order dev refs max n n' a b)
    (Ok (match find (fun v => String.eqb (fst v) (xtag (n_xml n))) (rev (map fst p)) with
         | None => true
         | Some elder => mem uid_eqb elder (before_uid (xtag (n_xml n)) u (map fst twos))
         end)) eq.
Proof.
  intros a b s ones twos p q u n p' q' n' cs Ha Hb T Xa Xb E1 E2 PP S1 US.
  unfold in_order. rewrite (elders_split a s ones p u n q (xtag (n_xml n)) Xa E1).
  rewrite (elders_split b s twos p' u n' q' (xtag (n_xml n)) Xb E2).
  set (t := xtag (n_xml n)) in *.
  rewrite find_rev_filter, filter_map, <- !map_rev.
  destruct (rev (filter (fun e : uid * node => String.eqb (fst (fst e)) t) p)) as [| [ue e] r] eqn:ER; cbn [map hd_error fst snd].
  - apply sim_ret. reflexivity.
  - assert (Ie : In (ue, e) (filter (fun e : uid * node => String.eqb (fst (fst e)) t) p)).
    { apply in_rev. rewrite ER. left. auto. }
    apply filter_In in Ie. cbn [fst] in Ie. destruct Ie as [Ie Te]. apply String.eqb_eq in Te.
    assert (Io : In (ue, e) ones) by (rewrite E1; apply in_or_app; auto).
    assert (Te' := Indexed_tag _ _ _ _ _ Xa Io).
    assert (It := PP _ _ Ie). apply in_map_iff in It. destruct It as ([v pe] & Q & It). cbn in Q. subst v.
    assert (S2 : schema_child s (xtag (n_xml e)) = Ok cs) by (rewrite <- Te', Te; exact S1).
    set (R := Ok _).
    assert (B : before_uid t u (map fst twos) = filter (fun v : uid => String.eqb (fst v) t) (map fst p')).
    { destruct Xb as (_ & ND & _). apply before_uid_split with (q := map fst q').
      - rewrite E2, map_app. reflexivity.
      - rewrite E2, map_app in ND. cbn [map fst] in ND. apply NoDup_remove_2 in ND. intro Z. apply ND.
        apply in_or_app. auto. }
    assert (MM : mem node_eqb pe (map snd (rev (filter (fun e0 : uid * node => String.eqb (fst (fst e0)) t) p'))) =
                 mem uid_eqb ue (filter (fun v : uid => String.eqb (fst v) t) (map fst p'))).
    { apply eq_true_iff_eq. rewrite (mem_In uid_eqb uid_eqb_ok), filter_In.
      assert (Z : mem node_eqb pe (map snd (rev (filter (fun e0 : uid * node => String.eqb (fst (fst e0)) t) p'))) = true <->
                  In pe (map snd (rev (filter (fun e0 : uid * node => String.eqb (fst (fst e0)) t) p')))).
      { assert (KP : forall z, In z (map snd (rev (filter (fun e0 : uid * node => String.eqb (fst (fst e0)) t) p'))) -> In z (kids b)).
        { intros z Z. rewrite map_rev in Z. apply in_rev in Z. apply in_map_iff in Z. destruct Z as ([w z'] & Q & Z).
          cbn in Q. subst z'. apply filter_In in Z. apply (Indexed_kid b s twos w); auto. rewrite E2. apply in_or_app.
          left. apply Z. }
        assert (Kp := Indexed_kid _ _ _ _ _ Xb It). revert KP.
        induction (map snd (rev (filter (fun e0 : uid * node => String.eqb (fst (fst e0)) t) p'))) as [| z zs IH]; intro KP.
        - cbn. split; [discriminate | tauto].
        - cbn [mem In]. rewrite orb_true_iff, IH by (intros y Y; apply KP; right; auto). split.
          + intros [Z | Z]; auto. left. symmetry. apply (kid_same b); auto. apply KP. left. auto.
          + intros [Z | Z]; auto. left. subst. apply node_eqb_refl. }
      rewrite Z, map_rev, <- in_rev. split.
      - intro H. apply in_map_iff in H. destruct H as ([w z'] & Q & H). cbn in Q. subst z'.
        apply filter_In in H. destruct H as [H Tw]. cbn in Tw.
        assert (Iw : In (w, pe) twos) by (rewrite E2; apply in_or_app; auto).
        assert (w = ue); [| subst; split; [apply (in_map fst) in H; exact H | exact Tw]].
        destruct Xb as (_ & _ & Ub). assert (U1 := Ub _ _ Iw). assert (U2 := Ub _ _ It). congruence.
      - intros [H Tw]. apply in_map_iff in H. destruct H as ([w z'] & Q & H). cbn in Q. subst w.
        assert (Iw : In (ue, z') twos) by (rewrite E2; apply in_or_app; auto).
        assert (z' = pe); [| subst; apply in_map_iff; exists (ue, pe); split; auto; apply filter_In; auto].
        destruct Xb as (_ & ND & _). assert (F1 := filter_one _ _ _ ND Iw). assert (F2 := filter_one _ _ _ ND It). congruence. }
    subst R. rewrite B, <- MM.
    eapply sim_bind_ok; [apply (sim_peers a b s ones twos ue e pe cs); auto |].
    apply sim_ret. reflexivity.
Qed.

(** ** The comparison *)
Definition loop (f : nat) (a b : node) :=
  fix loop (l : list (option node * option node)) : M bool :=
    match l with
    | [] => ret true
    | (None, _) :: r => loop r
    | (Some _, None) :: _ => ret false
    | (Some n, Some n') :: r =>
        do h <- lift (get_schema_node dev n);
        do o <- (if is_user_seq (snd h) then in_order dev refs max n n' a b else ret true);
        if negb o then ret false else
        do le <- node_le_c dev refs max f n n';
        if le then loop r else ret false
    end.

Lemma loop_none : forall f a b l, (forall e, In e l -> fst e = None) -> loop f a b l = ret true.
Proof.
  intros f a b l. induction l as [| [o p] r IH]; intro H; cbn; auto. assert (Q := H _ (or_introl eq_refl)). cbn in Q. subst.
  apply IH. intros e E. apply H. right. auto.
Qed.

Lemma index_xmls : forall s n l es, index_kids s (map can (kids n)) = Ok es -> xmls l = es -> map snd l = kids n ->
  Indexed n s l.
Proof.
  intros s n l es E X K. apply index_ok in E. destruct E as (_ & F & ND). split; auto. subst es. split.
  - unfold uids in ND. rewrite fst_xmls in ND. exact ND.
  - intros u c I. rewrite Forall_forall in F. apply (F (u, can c)). unfold xmls. apply in_map_iff. exists (u, c). auto.
Qed.

Lemma sim_loop : forall f a b s ones twos,
  (forall n n' cs, Has n cs -> Has n' cs -> n_tags n = n_tags n' -> In n (kids a) ->
     Sim (node_le_c dev refs max f n n') (node_le cs (can n) (can n')) eq) ->
  Has a s -> Has b s -> n_tags a = n_tags b -> Indexed a s ones -> Indexed b s twos ->
  forall extra rest p, ones = p ++ rest -> (forall e, In e extra -> fst e = None) ->
    (forall v m, In (v, m) p -> In v (map fst twos)) ->
    Sim (loop f a b (map (fun e => (Some (snd e), assoc uid_eqb (fst e) twos)) rest ++ extra))
        (le_kids s (xmls twos) (rev (map fst p)) (map can (map snd rest))) eq.
Proof.
  intros f a b s ones twos REC Ha Hb T Xa Xb extra rest.
  induction rest as [| [u n] q IH]; intros p E EX PP.
  - cbn [map app le_kids]. rewrite loop_none by auto. apply sim_ret. auto.
  - cbn [map app le_kids fst snd]. rewrite can_tag. assert (Io : In (u, n) ones) by (rewrite E; apply in_elt).
    assert (Xa' := Xa). destruct Xa' as (_ & _ & Ua). rewrite (Ua u n Io). cbn [bind].
    rewrite assoc_xmls. destruct (assoc uid_eqb u twos) as [n' |] eqn:A; cbn [option_map loop].
    2:{ apply sim_ret. reflexivity. }
    assert (Kn := Indexed_kid _ _ _ _ _ Xa Io).
    assert (It := assoc_In uid_eqb uid_eqb_ok _ _ _ A). assert (Kn' := Indexed_kid _ _ _ _ _ Xb It).
    assert (Tu := Indexed_tag _ _ _ _ _ Xa Io). assert (Tu' := Indexed_tag _ _ _ _ _ Xb It).
    apply sim_bind with (R := fun h cs => h = (n_tags n, cs) /\ schema_child s (xtag (n_xml n)) = Ok cs).
    { apply sim_lift. rewrite (kid_schema _ _ _ Ha Kn). destruct (schema_child s (xtag (n_xml n))); cbn; auto. }
    intros h cs [-> S1]. cbn [snd].
    destruct (in_split _ _ It) as (p' & q' & E2).
    set (ord := if is_user_seq cs then _ else true).
    assert (O : Sim (if is_user_seq cs then in_order dev refs max n n' a b else ret true) (Ok ord) eq).
    { subst ord. destruct (is_user_seq cs) eqn:US; [| apply sim_ret; reflexivity].
      rewrite fst_xmls. apply (sim_in_order a b s ones twos p q u n p' q' n' cs); auto. }
    intros c G. destruct (O c G) as (o & c1 & R1 & G1 & Q1). destruct o as [o |]; cbn in Q1; [| contradiction].
    unfold mbind at 1. rewrite R1. subst o. destruct ord; cbn [negb]; [| exists (Ok false), c1; cbn; auto].
    revert c1 G1 R1. intros c1 G1 _. revert c1 G1.
    change (Sim (do le <- node_le_c dev refs max f n n'; if le then loop f a b
        (map (fun e => (Some (snd e), assoc uid_eqb (fst e) twos)) q ++ extra) else ret false)
      (let! b0 := node_le cs (can n) (can n') in
       if b0 then le_kids s (xmls twos) (u :: rev (map fst p)) (map can (map snd q)) else Ok false) eq).
    eapply sim_bind.
    + apply REC; auto.
      * apply (kid_Has a s); auto.
      * apply (kid_Has b s); auto. rewrite <- Tu', Tu. exact S1.
      * rewrite (kid_tags _ _ Kn), (kid_tags _ _ Kn'), T, <- Tu, <- Tu'. reflexivity.
    + intros le ? <-. destruct le; [| apply sim_ret; reflexivity].
      assert (Q := IH (p ++ [(u, n)])). rewrite map_app, rev_app_distr in Q. cbn in Q. apply Q; auto.
      * rewrite E, <- app_assoc. reflexivity.
      * intros v m I. apply in_app_or in I. destruct I as [I | [I | []]]; [eauto |].
        injection I as <- <-. apply (in_map fst) in It. exact It.
Qed.

Theorem sim_node_le : forall f a b s, height (n_xml a) <= f -> Has a s -> Has b s -> n_tags a = n_tags b ->
  Sim (node_le_c dev refs max f a b) (node_le s (can a) (can b)) eq.
Proof.
  induction f as [| f IH]; intros a b s Hf Ha Hb T.
  - destruct (n_xml a); cbn in Hf; lia.
  - rewrite node_le_eq. cbn [node_le_c].
    rewrite !can_tag, !can_attrs.
    destruct (negb (String.eqb (xtag (n_xml a)) (xtag (n_xml b)))); [apply sim_ret; auto |].
    eapply sim_bind; [apply sim_same_text; eauto |]. intros st ? <-.
    destruct (negb st); [apply sim_ret; auto |].
    destruct (negb (attrs_sub (xattrs (n_xml a)) (xattrs (n_xml b)))); [apply sim_ret; auto |].
    unfold pair_children_c. fold (loop f a b).
    apply sim_ext with (m' :=
      (do (ones, ts) <- index_c dev refs max [] [] (kids a);
       do (twos, _) <- index_c dev refs max ts [] (kids b);
       loop f a b (map (fun u => (assoc uid_eqb u ones, assoc uid_eqb u twos))
              (map fst ones ++ filter (fun u => negb (mem uid_eqb u (map fst ones))) (map fst twos))))).
    { intro c. unfold mbind. destruct (index_c dev refs max [] [] (kids a) c) as [[[o ts] |] c1]; auto.
      destruct (index_c dev refs max ts [] (kids b) c1) as [[[w z] |] c2]; auto. }
    rewrite <- (proj1 (can_kids a (proj2 (proj1 Ha)))), <- (proj1 (can_kids b (proj2 (proj1 Hb)))).
    assert (XX : forall n ts, Has n s -> TypesOk (n_tags n) s ts ->
       Sim (index_c dev refs max ts [] (kids n)) (index_kids s (map can (kids n)))
         (fun p es => Indexed n s (fst p) /\ xmls (fst p) = es /\ TypesOk (n_tags n) s (snd p))).
    { intros n ts Hn TO. eapply sim_impl.
      - apply sim_know. apply (sim_index n s (kids n) ts [] []); auto.
        + intros z Z. exact Z.
        + cbn. tauto.
      - intros [o ts'] es ((es' & X1 & X2 & X3 & X4) & E). cbn [fst snd app] in *. subst o. split; auto.
        apply (index_xmls s n es' es); auto. }
    eapply sim_bind; [apply XX; auto; intros t h [] |].
    intros [ones ts] ? (Xa & <- & TO). cbn [fst snd] in *. rewrite T in TO.
    eapply sim_bind; [apply XX; auto |].
    intros [twos ts'] ? (Xb & <- & TO'). cbn [fst snd] in *.
    rewrite map_app. set (extra := map _ (filter _ _)).
    assert (PA : map (fun u => (assoc uid_eqb u ones, assoc uid_eqb u twos)) (map fst ones) =
                 map (fun e => (Some (snd e), assoc uid_eqb (fst e) twos)) ones).
    { rewrite map_map. apply map_ext_in. intros [u n] I. cbn.
      rewrite (assoc_NoDup uid_eqb uid_eqb_ok u n); auto. apply Xa. }
    rewrite PA. assert (Q := sim_loop f a b s ones twos). cbn in Q.
    assert (K : map can (kids a) = map can (map snd ones)) by (destruct Xa as (-> & _); reflexivity).
    rewrite K. apply (Q) with (p := []); auto.
    + intros n n' cs Hn Hn' Tn In_. apply IH; auto.
      assert (Z := height_kid (n_xml n) (n_xml a)). apply Nat.lt_succ_r. eapply Nat.lt_le_trans; [apply Z | exact Hf].
      rewrite <- kids_xml. apply in_map. exact In_.
    + subst extra. intros e I. apply in_map_iff in I. destruct I as (u & <- & I). apply filter_In in I. cbn.
      destruct I as [_ I]. apply negb_true_iff in I. apply (mem_not_In uid_eqb uid_eqb_ok) in I.
      apply (assoc_None uid_eqb uid_eqb_ok). exact I.
    + intros v m [].
Qed.
End Fixed.

Lemma top_Has : forall dev R x1 x2 b m, canon R b [] [] (if b then x1 else x2) = Ok m ->
  Has dev R x1 x2 (top b (if b then x1 else x2)) dev.
Proof. intros dev R x1 x2 b m E. split; [split; [destruct b; reflexivity | exists m; exact E] | reflexivity]. Qed.
Lemma top_can : forall R b x m, canon R b [] [] x = Ok m -> can R (top b x) = m.
Proof. intros R b x m E. unfold can. cbn [n_first n_path n_tags n_xml top]. rewrite E. reflexivity. Qed.

(** ** Whole questions *)
Lemma sim_ask : forall dev R max x y x' y' q, wfs dev = true -> sty dev = TRoot -> PlainKeys dev R ->
  canon R true [] [] x = Ok x' -> canon R false [] [] y = Ok y' ->
  Sim dev R x y (ask dev R max x y q) (cmp q dev x' y') eq.
Proof.
  intros dev R max x y x' y' q W TR PK Cx Cy.
  assert (L : Sim dev R x y (le_c dev R max x y) (node_le dev x' y') eq).
  { rewrite <- (top_can _ _ _ _ Cx), <- (top_can _ _ _ _ Cy).
    apply (sim_node_le dev R max x y W TR PK (height x) (top true x) (top false y) dev); auto.
    - apply (top_Has dev R x y true _ Cx).
    - apply (top_Has dev R x y false _ Cy). }
  assert (G : Sim dev R x y (ge_c dev R max x y) (node_le dev y' x') eq).
  { rewrite <- (top_can _ _ _ _ Cx), <- (top_can _ _ _ _ Cy).
    apply (sim_node_le dev R max x y W TR PK (height y) (top false y) (top true x) dev); auto.
    - apply (top_Has dev R x y false _ Cy).
    - apply (top_Has dev R x y true _ Cx). }
  assert (N : forall m r, Sim dev R x y m r eq -> Sim dev R x y (mnot m) (rnot r) eq).
  { intros m r H. eapply sim_bind; [exact H |]. intros b ? <-. apply sim_ret. auto. }
  assert (A : forall m r m' r', Sim dev R x y m r eq -> Sim dev R x y m' r' eq -> Sim dev R x y (mand m m') (rand r r') eq).
  { intros m r m' r' H H'. eapply sim_bind; [exact H |]. intros b ? <-. destruct b; auto. apply sim_ret. auto. }
  assert (O : forall m r m' r', Sim dev R x y m r eq -> Sim dev R x y m' r' eq -> Sim dev R x y (mor m m') (ror r r') eq).
  { intros m r m' r' H H'. eapply sim_bind; [exact H |]. intros b ? <-. destruct b; auto. apply sim_ret. auto. }
  destruct q; cbn [ask cmp]; unfold cmp_le, cmp_lt, cmp_ge, cmp_gt, cmp_eq, cmp_ne; auto.
Qed.

(** ** Changes that keep the texts *)
Lemma TextAlike_sym : forall x y, TextAlike x y -> TextAlike y x.
Proof.
  induction x as [t tx a ks IH] using xml_ind'. intros y H. inversion H as [? ? ? a' ? ks' F]; subst. constructor.
  clear H. induction F as [| c c' r r' C F IHF]; constructor; inversion IH; subst; auto.
Qed.
Lemma TextAlike_refl : forall x, TextAlike x x.
Proof.
  induction x as [t tx a ks IH] using xml_ind'. constructor. induction IH; constructor; auto.
Qed.

Lemma alike_sub_at : forall p x y ts n, TextAlike x y -> sub_at x p = Some (ts, n) ->
  exists m, sub_at y p = Some (ts, m) /\ xtext m = xtext n.
Proof.
  induction p as [| i q IH]; intros x y ts n H E; cbn [sub_at] in *.
  - injection E as <- <-. exists y. split; auto. destruct H. reflexivity.
  - destruct (nth_error (xkids x) i) as [c |] eqn:N; [| discriminate].
    destruct (sub_at c q) as [[ts' n'] |] eqn:F; [| discriminate]. injection E as <- <-.
    destruct H as [t tx a a' ks ks' FF]. cbn [xkids] in *.
    assert (X : exists c', nth_error ks' i = Some c' /\ TextAlike c c').
    { clear -FF N. revert i N. induction FF as [| d d' r r' D FF IHF]; intros i N; destruct i; cbn in *; try discriminate.
      - injection N as <-. eauto.
      - eauto. }
    destruct X as (c' & N' & C). rewrite N'. destruct (IH _ _ _ _ C F) as (m & Em & Tm). rewrite Em.
    exists m. assert (xtag c' = xtag c) by (destruct C; reflexivity). rewrite H. auto.
Qed.

Lemma alike_Good : forall dev R x1 x2 y1 y2 c, TextAlike x1 y1 -> TextAlike x2 y2 ->
  Good dev R x1 x2 c -> Good dev R y1 y2 c.
Proof.
  intros dev R x1 x2 y1 y2 c A1 A2 G n sn v I L. unfold Located in L.
  assert (X : exists m, sub_at (if n_first n then x1 else x2) (n_path n) = Some (n_tags n, m) /\ xtext m = xtext (n_xml n)).
  { destruct (n_first n).
    - apply (alike_sub_at _ y1); auto. apply TextAlike_sym. exact A1.
    - apply (alike_sub_at _ y2); auto. apply TextAlike_sym. exact A2. }
  destruct X as (m & Em & Tm).
  assert (Q := G (Node (n_first n) (n_path n) (n_tags n) m) sn v I Em).
  unfold val, get_schema_node, parse_text in *. cbn [n_xml n_tags n_first n_path] in Q. rewrite Tm in Q. exact Q.
Qed.

Theorem asks_right : forall dev R max, wfs dev = true -> sty dev = TRoot -> PlainKeys dev R ->
  forall l x y c, Good dev R x y c ->
  Forall (fun q => TextAlike x (fst (snd q)) /\ TextAlike y (snd (snd q)) /\
                   (exists x', canon R true [] [] (fst (snd q)) = Ok x') /\
                   (exists y', canon R false [] [] (snd (snd q)) = Ok y')) l ->
  asks dev R max c l = map (fun q => let! x' := canon R true [] [] (fst (snd q)) in
                                     let! y' := canon R false [] [] (snd (snd q)) in
                                     cmp (fst q) dev x' y') l.
Proof.
  intros dev R max W TR PK. induction l as [| [q [x1 y1]] r IH]; intros x y c G F; cbn [asks map]; auto.
  inversion F as [| ? ? (A1 & A2 & (x' & Cx) & (y' & Cy)) F']; subst. cbn [fst snd] in *.
  destruct (sim_ask dev R max x1 y1 x' y' q W TR PK Cx Cy c (alike_Good _ _ _ _ _ _ _ A1 A2 G)) as (a & c' & E & G' & Q).
  rewrite E, Cx, Cy. cbn [bind]. rewrite (IH x y c').
  - f_equal. destruct a, (cmp q dev x' y'); cbn in Q; try contradiction; congruence.
  - apply (alike_Good dev R x1 y1); auto using TextAlike_sym.
  - exact F'.
Qed.

Lemma canon_no_refs : forall x b p ts, canon no_refs b p ts x = Ok x.
Proof.
  induction x as [t tx a ks IH] using xml_ind'. intros b p ts. rewrite canon_eq.
  assert (K : forall i, canon_kids no_refs b p ts i ks = Ok ks).
  { induction IH as [| c r C _ IHr]; intro i; cbn [canon_kids]; auto. rewrite C, IHr. reflexivity. }
  rewrite K. destruct tx; reflexivity.
Qed.
Lemma no_refs_plain : forall dev, PlainKeys dev no_refs.
Proof. intro dev. split; [discriminate | reflexivity]. Qed.

(** ** The cache itself *)
Section Lru.
Context {K V : Type}.
Variable eqb : K -> K -> bool.
Hypothesis EQ : eqb_ok eqb.
Variable dec : forall a b : K, {a = b} + {a <> b}.

(** The entries are those of the keys asked last, with the answer given last. *)
Definition entries (max : nat) (past : list (K * res V)) (c : lru K V) : Prop :=
  map fst c = firstn max (recent dec past) /\
  forall k v, In (k, v) c -> last_answer dec k past = Some v.

Lemma recent_NoDup : forall past : list (K * res V), NoDup (recent dec past).
Proof.
  induction past as [| [k [v | e]] r IH]; cbn; auto; [constructor |]. constructor.
  - apply remove_In.
  - clear -IH. induction IH as [| x l N ND IHl]; cbn; [constructor |]. destruct (dec k x); auto. constructor; auto.
    intro H. apply in_remove in H. tauto.
Qed.
Lemma remove_firstn : forall k n (l : list K), NoDup l -> In k (firstn (S n) l) ->
  remove dec k (firstn (S n) l) = firstn n (remove dec k l).
Proof.
  assert (NR : forall k n (r : list K), ~ In k r -> ~ In k (firstn n r)).
  { intros k n r N Z. apply N. rewrite <- (firstn_skipn n r). apply in_or_app. auto. }
  intros k n. induction n as [| n IH]; intros l ND H; (destruct l as [| x r]; [destruct H |]);
    inversion ND as [| ? ? N ND']; subst.
  - cbn in H |- *. destruct H as [-> | []]. destruct (dec k k); [reflexivity | congruence].
  - change (firstn (S (S n)) (x :: r)) with (x :: firstn (S n) r) in *. cbn [remove].
    destruct (dec k x) as [-> | D].
    + rewrite !notin_remove; auto.
    + cbn [firstn]. f_equal. apply IH; auto. destruct H as [H | H]; [congruence | exact H].
Qed.
Lemma remove_firstn_out : forall k n (l : list K), ~ In k (firstn (S n) l) ->
  firstn n (remove dec k l) = firstn n l.
Proof.
  induction n as [| n IH]; intros l H; [reflexivity |]. destruct l as [| x r]; [reflexivity |].
  change (firstn (S (S n)) (x :: r)) with (x :: firstn (S n) r) in H.
  cbn [remove]. destruct (dec k x) as [-> | D]; [destruct H; left; auto |]. cbn [firstn]. f_equal. apply IH.
  intro Z. apply H. right. exact Z.
Qed.
Lemma map_drop : forall k (c : lru K V), map fst (drop eqb k c) = remove dec k (map fst c).
Proof.
  intros k c. unfold drop. induction c as [| [k' v] r IH]; cbn; auto. destruct (dec k k') as [<- | D].
  - rewrite (eqb_refl _ EQ). cbn. exact IH.
  - apply (eqb_neq _ EQ) in D. rewrite D. cbn. rewrite IH. reflexivity.
Qed.

Lemma lru_step : forall max past c k v, entries max past c ->
  fst (lru_call eqb max k v c) = answer dec max past k v /\
  entries max ((k, answer dec max past k v) :: past) (snd (lru_call eqb max k v c)).
Proof.
  intros max past c k v [EK EV]. unfold lru_call, answer.
  destruct (assoc eqb k c) as [w |] eqn:A.
  - assert (I := assoc_In eqb EQ _ _ _ A). assert (IK : In k (firstn max (recent dec past))).
    { rewrite <- EK. apply (in_map fst) in I. exact I. }
    destruct (in_dec dec k (firstn max (recent dec past))) as [_ | N]; [| contradiction].
    rewrite (EV _ _ I). cbn [fst snd]. split; auto. split.
    + cbn [map fst recent]. rewrite map_drop, EK. destruct max as [| m]; [destruct IK |].
      cbn [firstn]. f_equal. apply remove_firstn; [apply recent_NoDup | exact IK].
    + intros k' v' [Q | Q]; cbn [last_answer].
      * injection Q as <- <-. destruct (dec k k); congruence.
      * unfold drop in Q. apply filter_In in Q. destruct Q as [Q N]. cbn in N.
        destruct (dec k' k) as [-> | D]; [rewrite (eqb_refl _ EQ) in N; discriminate |]. auto.
  - assert (NK : ~ In k (firstn max (recent dec past))).
    { rewrite <- EK. apply (assoc_None eqb EQ). exact A. }
    destruct (in_dec dec k (firstn max (recent dec past))) as [C | _]; [contradiction |].
    destruct v as [v | e]; cbn [fst snd]; split; auto.
    + split.
      * cbn [recent]. destruct max as [| m]; [reflexivity |]. cbn [firstn map fst]. f_equal.
        rewrite <- firstn_map, EK, firstn_firstn, Nat.min_l by lia. symmetry. apply remove_firstn_out. exact NK.
      * intros k' v' Q.
        assert (Q' : In (k', v') ((k, v) :: c)).
        { rewrite <- (firstn_skipn max ((k, v) :: c)). apply in_or_app. auto. }
        cbn [last_answer]. destruct Q' as [Q' | Q'].
        -- injection Q' as <- <-. destruct (dec k k); congruence.
        -- destruct (dec k' k) as [-> | D]; [| auto]. apply (assoc_None eqb EQ) in A.
           apply (in_map fst) in Q'. contradiction.
    + split; [exact EK |]. exact EV.
Qed.

Theorem lru_history : forall max calls past c, entries max past c ->
  fst (lru_run eqb max calls c) = answers dec max past calls.
Proof.
  induction calls as [| [k v] r IH]; intros past c E; cbn [lru_run answers]; auto.
  destruct (lru_step max past c k v E) as [S1 S2].
  destruct (lru_call eqb max k v c) as [a c1]. cbn [fst snd] in *.
  assert (Q := IH _ _ S2). destruct (lru_run eqb max r c1) as [as_ c2]. cbn [fst] in *. subst. reflexivity.
Qed.

Theorem lru_size : forall max (calls : list (K * res V)), length (snd (lru_run eqb max calls [])) <= max.
Proof.
  intros max calls.
  assert (X : forall calls past c, entries max past c -> exists past', entries max past' (snd (lru_run eqb max calls c))).
  { clear calls. induction calls as [| [k v] r IH]; intros past c E; cbn [lru_run]; [eauto |].
    destruct (lru_step max past c k v E) as [_ S2]. destruct (lru_call eqb max k v c) as [a c1]. cbn [snd] in *.
    destruct (IH _ _ S2) as (past' & P). destruct (lru_run eqb max r c1) as [as_ c2]. eauto. }
  destruct (X calls [] []) as (past' & P & _).
  - split; [cbn; rewrite firstn_nil; auto | intros k v []].
  - rewrite <- (map_length fst), P, firstn_length. lia.
Qed.
End Lru.
