(** Names of keys written with the prefixes of one element and read with those of
    another. *)
From Coq Require Import String Ascii List Bool Arith Lia.
From Verif Require Import Base BaseP XmlM CalcM NetconfM DeltaSpec DeltaR NameP TagM TagSpec TagP DepictSpec DepictP PrintP
  RefM RefP KeyNsM KeyNsSpec.
Import ListNotations.
Open Scope string_scope.
Open Scope list_scope.
Open Scope nat_scope.

Lemma has_char_not : forall c s, ~ In c (chars s) -> has_char c s = false.
Proof.
  intros c s. induction s as [| a s IH]; intro H; [reflexivity |]. cbn in *. apply orb_false_iff. split.
  - apply Ascii.eqb_neq. intro E. apply H. left. congruence.
  - apply IH. intro X. apply H. right. exact X.
Qed.

Lemma split_at_no : forall c s, ~ In c (chars s) -> NetconfM.split_at c s = None.
Proof.
  intros c s. induction s as [| a s IH]; intro H; [reflexivity |]. cbn in *.
  destruct (Ascii.eqb_spec c a) as [E | E]; [exfalso; apply H; left; congruence |].
  rewrite IH; auto.
Qed.

Lemma NCName_id : forall n, NCName n -> Identifier n.
Proof. intros n H. apply H. Qed.

Lemma NCName_word : forall n, NCName n -> Word n.
Proof. intros n H. apply Identifier_Word. apply H. Qed.

Lemma NCName_not_decimal : forall n, NCName n -> isdecimal n = false.
Proof.
  intros n (_ & _ & H). destruct n as [| a r]; [destruct H |]. cbn [isdecimal digits].
  destruct ((48 <=? nat_of_ascii a) && (nat_of_ascii a <=? 57)) eqn:E; [exfalso | reflexivity].
  apply andb_true_iff in E. destruct E as [E1 E2]. apply Nat.leb_le in E1. apply Nat.leb_le in E2.
  apply H. rewrite <- (ascii_nat_embedding a).
  destruct (nat_of_ascii a) as [| x]; [lia |].
  do 60 (destruct x as [| x]; [cbn; try lia; tauto |]). lia.
Qed.

Lemma ident_no_brace : forall n r, Identifier n -> match (n ++ r)%string with String "{"%char _ => False | _ => True end.
Proof.
  intros n r H. destruct n as [| a n]; [exfalso; apply (proj1 H); reflexivity |].
  cbn. assert (X : a <> "{"%char).
  { intro E. apply (Identifier_not _ "{"%char H); [cbn; tauto | left; exact E]. }
  destruct a as [[] [] [] [] [] [] [] []]; auto.
Qed.

Lemma ns_name_plain : forall m s, match s with String "{"%char _ => False | _ => True end ->
  ns_name m s =
      match NetconfM.split_at ":"%char s with
      | Some (p, n) =>
          match assoc ostr_eqb (Some p) m with
          | Some u => Ok (etree u n)
          | None => Err SyntaxError
          end
      | None =>
          if isdecimal s then Ok s else
          match assoc ostr_eqb None m with
          | None | Some EmptyString => Ok s
          | Some u => Ok (etree u s)
          end
      end.
Proof.
  intros m s H. destruct s as [| a s]; [reflexivity |].
  destruct a as [[] [] [] [] [] [] [] []]; try reflexivity. destruct H.
Qed.

Lemma ostr_eqb_ok : forall a b, ostr_eqb a b = true <-> a = b.
Proof. exact ostr_eqb_eq. Qed.

Lemma scope_assoc : forall m p u, Scope m -> In (p, u) m -> assoc ostr_eqb p m = Some u.
Proof. intros m p u S H. apply (BaseP.assoc_NoDup ostr_eqb ostr_eqb_ok); auto. apply S. Qed.

(** ** Reading *)

Lemma read_prefixed : forall m p n, NCName p ->
  ns_name m (p ++ ":" ++ n)%string =
  match assoc ostr_eqb (Some p) m with Some u => Ok (etree u n) | None => Err SyntaxError end.
Proof.
  intros m p n H. rewrite ns_name_plain by (apply ident_no_brace; apply H).
  change (p ++ ":" ++ n)%string with (p ++ String ":" n)%string.
  rewrite split_at_ok by (apply has_char_not; apply Identifier_colon; apply H). reflexivity.
Qed.

Lemma app_nil_s : forall s, (s ++ "")%string = s.
Proof. induction s as [| a s IH]; cbn; congruence. Qed.

Lemma read_bare : forall m n, NCName n -> Scope m ->
  ns_name m n = match assoc ostr_eqb None m with Some u => Ok (etree u n) | None => Ok n end.
Proof.
  intros m n H S. rewrite ns_name_plain by (rewrite <- (app_nil_s n); apply ident_no_brace; apply H).
  rewrite split_at_no by (apply Identifier_colon; apply H). rewrite (NCName_not_decimal n H).
  destruct (assoc ostr_eqb None m) as [u |] eqn:E; [| reflexivity].
  apply (BaseP.assoc_In ostr_eqb ostr_eqb_ok) in E. apply (sc_url m S) in E. destruct u; [| reflexivity].
  exfalso. apply (proj1 E). reflexivity.
Qed.

Lemma read_means : forall m s u n, Scope m -> NCName n -> Means m s u n -> ns_name m s = Ok (etree u n).
Proof.
  intros m s u n S N H. destruct H as [p u n H | u n H].
  - rewrite read_prefixed by (apply (sc_prefix m S p u H)). rewrite (scope_assoc m _ _ S H). reflexivity.
  - rewrite read_bare; auto. rewrite (scope_assoc m _ _ S H). reflexivity.
Qed.

Lemma etree_inj : forall u n v k, ~ In "}"%char (chars n) -> ~ In "}"%char (chars k) -> Word u -> Word v -> Word n -> Word k ->
  etree u n = etree v k -> u = v /\ n = k.
Proof.
  intros u n v k Hn Hk Wu Wv Wn Wk E.
  assert (A := re_brace_app u n Wu Wn Hn). rewrite E in A.
  rewrite (re_brace_app v k Wv Wk Hk) in A. injection A as -> ->. split; reflexivity.
Qed.

Lemma etree_not_name : forall u n k, NCName k -> etree u n <> k.
Proof.
  intros u n k H E. assert (X := ident_no_brace k "" (NCName_id k H)). rewrite app_nil_s in X.
  rewrite <- E in X. exact X.
Qed.

(** ** Writing *)

Lemma chosen_some : forall m u p, url_to_prefix m u = Some p -> Chosen m u p.
Proof.
  intros m u p. unfold url_to_prefix.
  assert (G : forall l, option_map fst (find (fun kv => String.eqb (snd kv) u) l) = Some p ->
    exists a b, l = a ++ (p, u) :: b /\ ~ In u (map snd a)).
  { intro l. induction l as [| (q, v) l IH]; cbn; intro H; [discriminate |].
    destruct (String.eqb_spec v u) as [E | E].
    - cbn in H. exists [], l. subst v. injection H as ->. split; [reflexivity | tauto].
    - destruct (IH H) as (a & b & -> & Ha). exists ((q, v) :: a), b. split; [reflexivity |].
      cbn. intros [X | X]; auto. }
  intro H. destruct (G _ H) as (a & b & E & Ha). exists (rev b), (rev a). split.
  - rewrite <- (rev_involutive m), E, rev_app_distr. cbn. rewrite <- app_assoc. reflexivity.
  - rewrite map_rev. intro X. apply in_rev in X. auto.
Qed.

Lemma chosen_url_to_prefix : forall m u p, Chosen m u p -> url_to_prefix m u = Some p.
Proof.
  intros m u p (l & r & -> & H). unfold url_to_prefix. rewrite rev_app_distr. cbn. rewrite <- app_assoc.
  assert (G : forall k x, ~ In u (map snd k) -> find (fun kv : option string * string => String.eqb (snd kv) u) (k ++ x)
     = find (fun kv => String.eqb (snd kv) u) x).
  { intros k x. induction k as [| (q, v) k IH]; cbn; intro N; [reflexivity |].
    destruct (String.eqb_spec v u) as [E | E]; [exfalso; apply N; left; exact E |]. apply IH. tauto. }
  rewrite G; [cbn; rewrite String.eqb_refl; reflexivity |]. rewrite map_rev. intro X. apply in_rev in X. auto.
Qed.

Lemma write_chosen : forall m u n p, Word u -> NCName n -> Chosen m u p ->
  url_prefix_id m (etree u n) = match p with None => n | Some p => (p ++ ":" ++ n)%string end.
Proof.
  intros m u n p W N C. unfold url_prefix_id.
  rewrite re_brace_app; auto using NCName_word; [| apply Identifier_brace; apply N].
  rewrite (chosen_url_to_prefix _ _ _ C). reflexivity.
Qed.

Lemma chosen_In : forall m u p, Chosen m u p -> In (p, u) m.
Proof. intros m u p (l & r & -> & _). apply in_or_app. right. left. reflexivity. Qed.

Lemma chosen_ex : forall m u, In u (map snd m) -> exists p, Chosen m u p.
Proof.
  intros m u H. destruct (url_to_prefix_some m u H) as (p & E). exists p. apply chosen_some. exact E.
Qed.

Lemma chosen_fun : forall m u p q, Chosen m u p -> Chosen m u q -> p = q.
Proof. intros m u p q A B. apply chosen_url_to_prefix in A. apply chosen_url_to_prefix in B. congruence. Qed.

Lemma write_undeclared : forall m u n, Word u -> NCName n -> ~ In u (map snd m) ->
  url_prefix_id m (etree u n) = etree u n.
Proof.
  intros m u n W N H. unfold url_prefix_id.
  rewrite re_brace_app; auto using NCName_word; [| apply Identifier_brace; apply N].
  destruct (url_to_prefix m u) as [p |] eqn:E; [| reflexivity].
  exfalso. apply H. apply url_to_prefix_In in E. apply in_map_iff. exists (p, u). auto.
Qed.

Lemma scope_word : forall m u, Scope m -> In u (map snd m) -> Word u.
Proof. intros m u S H. apply in_map_iff in H. destruct H as ((p, v) & E & H). cbn in E. subst v. exact (sc_url m S _ _ H). Qed.

(** A name written for an element means there what it should. *)
Lemma written_means : forall m u n, Scope m -> In u (map snd m) -> NCName n ->
  Means m (url_prefix_id m (etree u n)) u n.
Proof.
  intros m u n S H N. destruct (chosen_ex m u H) as (p & C).
  rewrite (write_chosen m u n p (scope_word m u S H) N C). apply chosen_In in C.
  destruct p; constructor; auto.
Qed.

(** Written for one element and read for another: exactly when the prefix chosen by the
    first stands for the same namespace in the second. *)
Lemma across_exact : forall mp m u n, Scope mp -> Scope m -> NCName n -> In u (map snd mp) ->
  (ns_name m (url_prefix_id mp (etree u n)) = Ok (etree u n) <-> exists p, Chosen mp u p /\ In (p, u) m).
Proof.
  intros mp m u n S S' N H. destruct (chosen_ex mp u H) as (p & C).
  assert (W := scope_word mp u S H). rewrite (write_chosen mp u n p W N C). split.
  - intro R. exists p. split; auto. destruct p as [p |].
    + rewrite read_prefixed in R by (apply (sc_prefix mp S p u); apply chosen_In; auto).
      destruct (assoc ostr_eqb (Some p) m) as [v |] eqn:E; [| discriminate].
      assert (X : etree v n = etree u n) by congruence.
      apply (BaseP.assoc_In ostr_eqb ostr_eqb_ok) in E.
      apply etree_inj in X; auto using NCName_word; try (apply Identifier_brace; apply N); [| exact (sc_url m S' _ _ E)].
      destruct X as [-> _]. exact E.
    + rewrite read_bare in R; auto. destruct (assoc ostr_eqb None m) as [v |] eqn:E.
      * assert (X : etree v n = etree u n) by congruence.
        apply (BaseP.assoc_In ostr_eqb ostr_eqb_ok) in E.
        apply etree_inj in X; auto using NCName_word; try (apply Identifier_brace; apply N); [| exact (sc_url m S' _ _ E)].
        destruct X as [-> _]. exact E.
      * exfalso. apply (etree_not_name u n n N). congruence.
  - intros (q & Cq & I). assert (q = p) by (eapply chosen_fun; eauto). subst q. destruct p as [p |].
    + apply read_means; auto. constructor. exact I.
    + apply read_means; auto. constructor. exact I.
Qed.

(** The other outcomes: an error if the prefix is not declared, another name if it stands
    for something else. *)
Lemma across_error : forall mp m u n p, Scope mp -> NCName n -> Chosen mp u (Some p) ->
  ~ In (Some p) (map fst m) -> ns_name m (url_prefix_id mp (etree u n)) = Err SyntaxError.
Proof.
  intros mp m u n p S N C H. assert (I := chosen_In _ _ _ C).
  rewrite (write_chosen mp u n (Some p) (sc_url mp S _ _ I) N C).
  rewrite read_prefixed by (apply (sc_prefix mp S p u I)).
  destruct (assoc ostr_eqb (Some p) m) as [v |] eqn:E; [| reflexivity].
  apply (BaseP.assoc_In ostr_eqb ostr_eqb_ok) in E. exfalso. apply H. apply in_map_iff. exists (Some p, v). auto.
Qed.

(** ** The whole attribute *)

Definition text_or (x : xml) : string := match xtext x with None => "None" | Some t => t end.

(** The names and values of the attribute *)
Lemma ns_pred_pstr : forall nm keys x s, ns_pred_string nm keys x = Ok s ->
  exists ks, Forall2 (fun k kn => find_kid k (xkids x) = Some kn) keys ks /\
    s = pstr (map (fun k => url_prefix_id (nm k) k) keys) (map text_or ks).
Proof.
  intros nm keys x. induction keys as [| k keys IH]; cbn [ns_pred_string]; intros s H.
  - exists []. split; [constructor |]. cbn. congruence.
  - destruct (find_kid k (xkids x)) as [kn |] eqn:E; [| discriminate].
    apply bind_ok in H. destruct H as (rest & Hr & H). destruct (IH rest Hr) as (ks & F & ->).
    exists (kn :: ks). split; [constructor; auto |]. cbn [map pstr]. unfold text_or at 1. congruence.
Qed.

Lemma known_name : forall nm m k, Scope m -> Known nm m k -> ns_name m (url_prefix_id (nm k) k) = Ok k.
Proof.
  intros nm m k S (u & n & p & E & N & Sp & C & I). subst k. apply across_exact; auto.
  - apply chosen_In in C. apply in_map_iff. exists (p, u). auto.
  - exists p. auto.
Qed.

Lemma known_no_eq : forall nm m k, Known nm m k -> has_char "=" (url_prefix_id (nm k) k) = false.
Proof.
  intros nm m k (u & n & p & E & N & Sp & C & I). subst k. assert (J := chosen_In _ _ _ C).
  rewrite (write_chosen _ u n p (sc_url _ Sp _ _ J) N C). apply has_char_not. destruct p as [p |].
  - rewrite chars_app. intro X. apply in_app_or in X. destruct X as [X | X].
    + exact (proj1 (proj2 (sc_prefix _ Sp _ _ J)) X).
    + destruct X as [X | X]; [discriminate | exact (proj1 (proj2 N) X)].
  - apply N.
Qed.

Lemma mapM_names : forall nm m keys vs, Scope m -> Forall (Known nm m) keys -> length keys = length vs ->
  mapM (fun q : string * string => let! n := ns_name m (fst q) in Ok (n, snd q)) (combine (map (fun k => url_prefix_id (nm k) k) keys) vs)
  = Ok (combine keys vs).
Proof.
  intros nm m keys. induction keys as [| k keys IH]; intros vs S F L.
  - reflexivity.
  - destruct vs as [| v vs]; [discriminate |]. inversion F as [| ? ? Fk F']; subst. cbn [map combine mapM fst snd].
    rewrite (known_name nm m k S Fk). cbn [bind]. rewrite IH; auto.
Qed.

Lemma ns_find_ok : forall nm m keys x s t l ks, Scope m -> Forall (Known nm m) keys ->
  ns_pred_string nm keys x = Ok s ->
  Forall2 (fun k kn => find_kid k (xkids x) = Some kn) keys ks ->
  Forall (fun kn => has_char "'" (text_or kn) = false) ks ->
  ns_find_key m t s l =
  Ok (option_map fst (find (fun e => has_tag t e && matches_preds (combine keys (map text_or ks)) (snd e)) l)).
Proof.
  intros nm m keys x s t l ks S F H F2 Q. destruct (ns_pred_pstr nm keys x s H) as (ks' & F2' & ->).
  assert (ks' = ks).
  { clear -F2 F2'. revert ks F2. induction F2' as [| k kn keys ks' A B IH]; intros ks F2; inversion F2; subst; auto.
    f_equal; [congruence | auto]. }
  subst ks'. assert (L : length keys = length (map text_or ks)).
  { rewrite map_length. clear -F2. induction F2; cbn; auto. }
  unfold ns_find_key. rewrite parse_pstr; auto.
  - rewrite (mapM_names nm m keys _ S F L). reflexivity.
  - rewrite map_length. exact L.
  - apply Forall_forall. intros k Hk. apply in_map_iff in Hk. destruct Hk as (k0 & <- & Hk).
    rewrite Forall_forall in F. eapply known_no_eq. apply F. exact Hk.
  - apply Forall_forall. intros v Hv. apply in_map_iff in Hv. destruct Hv as (kn & <- & Hv).
    rewrite Forall_forall in Q. auto.
Qed.

(** The simplification of NetconfM.v: with known prefixes the attribute finds what the
    attribute in [{url}name] notation finds. *)
Lemma ns_find_plain : forall nm m keys x s, Scope m -> Forall (Known nm m) keys ->
  Forall (fun k => has_char "=" k = false) keys ->
  (forall k kn, In k keys -> find_kid k (xkids x) = Some kn -> has_char "'" (text_or kn) = false) ->
  ns_pred_string nm keys x = Ok s ->
  exists s0, pred_string keys x = Ok s0 /\ forall t l, ns_find_key m t s l = find_key t s0 l.
Proof.
  intros nm m keys x s S F E Q H. destruct (ns_pred_pstr nm keys x s H) as (ks & F2 & _).
  exists (pstr keys (map text_or ks)). split.
  - clear -F2. induction F2 as [| k kn keys ks A B IH]; cbn [pred_string map pstr]; [reflexivity |].
    rewrite A, IH. reflexivity.
  - assert (Q' : Forall (fun kn => has_char "'" (text_or kn) = false) ks).
    { clear -Q F2. induction F2 as [| k kn keys ks A B IH]; constructor.
      - apply (Q k kn); [left; reflexivity | exact A].
      - apply IH. intros k' kn' I. apply Q. right. exact I. }
    intros t l. rewrite (ns_find_ok nm m keys x s t l ks); auto.
    unfold find_key. rewrite parse_pstr; auto.
    + rewrite map_length. clear -F2. induction F2; cbn; auto.
    + apply Forall_forall. intros v Hv. apply in_map_iff in Hv. destruct Hv as (kn & <- & Hv).
      rewrite Forall_forall in Q'. auto.
Qed.

Lemma ns_pred_total : forall nm keys x s0, pred_string keys x = Ok s0 -> exists s, ns_pred_string nm keys x = Ok s.
Proof.
  intros nm keys x. induction keys as [| k keys IH]; cbn [ns_pred_string pred_string]; intros s0 H; [eauto |].
  destruct (find_kid k (xkids x)) as [kn |]; [| discriminate]. apply bind_ok in H. destruct H as (r & Hr & _).
  destruct (IH r Hr) as (s & ->). cbn [bind]. eauto.
Qed.

(** ** What is found *)

Lemma find_kid_ok : forall k l kn, find_kid k l = Some kn -> In kn l /\ xtag kn = k.
Proof.
  intros k l kn H. unfold find_kid in H. apply find_some in H. destruct H as [A B].
  apply String.eqb_eq in B. auto.
Qed.

(** Keys with text, none twice: what matches the predicates has the keys of [x]. *)
Lemma matches_same : forall keys x e ks,
  Forall2 (fun k kn => find_kid k (xkids x) = Some kn) keys ks ->
  (forall k a b, In k keys -> In a (xkids x) -> In b (xkids x) -> xtag a = k -> xtag b = k -> xtext a = xtext b) ->
  Forall (fun kn => xtext kn <> None) ks ->
  (matches_preds (combine keys (map text_or ks)) e = true <-> SameKeys keys x e).
Proof.
  intros keys x e ks F U T. unfold matches_preds. rewrite forallb_forall. split.
  - intros H k Hk.
    assert (G : exists kn, find_kid k (xkids x) = Some kn /\ xtext kn <> None /\ In (k, text_or kn) (combine keys (map text_or ks))).
    { clear H U. induction F as [| k0 kn keys ks A B IH]; [destruct Hk |]. inversion T as [| ? ? T1 T2]; subst.
      destruct Hk as [-> | Hk].
      - exists kn. split; [auto |]. split; [auto |]. left. reflexivity.
      - destruct (IH T2 Hk) as (kn' & X & Y & Z). exists kn'. split; [auto |]. split; [auto |]. right. exact Z. }
    destruct G as (kn & A & B & C). specialize (H _ C). apply existsb_exists in H. destruct H as (c & Hc & E).
    cbn [fst snd] in E. apply andb_true_iff in E. destruct E as [E1 E2]. apply String.eqb_eq in E1. apply String.eqb_eq in E2.
    destruct (xtext kn) as [v |] eqn:Ev; [| congruence]. apply find_kid_ok in A. destruct A as [A1 A2].
    exists kn, c, v. unfold text_or in E2. rewrite Ev in E2. repeat (split; [assumption |]).
    unfold text_str in E2. destruct (xtext c); [left; congruence | right; split; congruence].
  - intros H (k, v) Hp. assert (Hk := in_combine_l _ _ _ _ Hp).
    assert (G : exists kn w, find_kid k (xkids x) = Some kn /\ xtext kn = Some w /\ v = w).
    { clear H U. induction F as [| k0 kn keys ks A B IH]; [destruct Hk |]. inversion T as [| ? ? T1 T2]; subst.
      destruct Hp as [Hp | Hp].
      - destruct (xtext kn) as [w |] eqn:Ew; [| congruence]. exists kn, w.
        unfold text_or in Hp. rewrite Ew in Hp. split; [congruence |]. split; congruence.
      - apply IH; auto. apply (in_combine_l _ _ _ _ Hp). }
    destruct G as (kn & w & A & B & ->). apply find_kid_ok in A. destruct A as [A1 A2].
    destruct (H k Hk) as (cx & ce & w' & X1 & X2 & X3 & X4 & X5 & X6).
    assert (w' = w). { assert (Y := U k cx kn Hk X1 A1 X2 A2). congruence. } subst w'.
    apply existsb_exists. exists ce. split; auto. cbn [fst snd]. rewrite X5, String.eqb_refl. cbn.
    apply String.eqb_eq. unfold text_str. destruct X6 as [-> | [-> ->]]; reflexivity.
Qed.

Lemma find_first : forall {A} (p : A -> bool) l,
  match find p l with
  | Some x => exists a b, l = a ++ x :: b /\ p x = true /\ forall y, In y a -> p y = false
  | None => forall y, In y l -> p y = false
  end.
Proof.
  intros A p l. induction l as [| y l IH]; cbn; [tauto |]. destruct (p y) eqn:E.
  - exists [], l. repeat split; auto. intros z [].
  - destruct (find p l) as [x |].
    + destruct IH as (a & b & -> & P & N). exists (y :: a), b. repeat split; auto.
      intros z [<- | Hz]; auto.
    + intros z [<- | Hz]; auto.
Qed.

Lemma ns_found : forall nm m keys x s t l, Scope m -> Forall (Known nm m) keys ->
  ns_pred_string nm keys x = Ok s ->
  (forall k a b, In k keys -> In a (xkids x) -> In b (xkids x) -> xtag a = k -> xtag b = k -> xtext a = xtext b) ->
  (forall c, In c (xkids x) -> In (xtag c) keys -> exists v, xtext c = Some v /\ ~ In "'"%char (chars v)) ->
  exists o, ns_find_key m t s l = Ok o /\
  match o with
  | Some u => exists a e b, l = a ++ (u, e) :: b /\ xtag e = t /\ SameKeys keys x e /\
                forall u' e', In (u', e') a -> xtag e' = t -> ~ SameKeys keys x e'
  | None => forall u e, In (u, e) l -> xtag e = t -> ~ SameKeys keys x e
  end.
Proof.
  intros nm m keys x s t l S F H U T. destruct (ns_pred_pstr nm keys x s H) as (ks & F2 & _).
  assert (TV : Forall (fun kn => exists v, xtext kn = Some v /\ ~ In "'"%char (chars v)) ks).
  { assert (G : forall k, In k keys -> forall kn, find_kid k (xkids x) = Some kn -> exists v, xtext kn = Some v /\ ~ In "'"%char (chars v)).
    { intros k Hk kn E. apply find_kid_ok in E. destruct E as [E1 E2]. apply T; auto. rewrite E2. exact Hk. }
    clear -F2 G. induction F2 as [| k kn keys ks A B IH]; constructor.
    - apply (G k); [left; reflexivity | exact A].
    - apply IH. intros k' I. apply G. right. exact I. }
  assert (T1 : Forall (fun kn => xtext kn <> None) ks).
  { revert TV. apply Forall_impl. intros kn (v & E & _). congruence. }
  assert (T2 : Forall (fun kn => has_char "'" (text_or kn) = false) ks).
  { revert TV. apply Forall_impl. intros kn (v & E & N). unfold text_or. rewrite E. apply has_char_not. exact N. }
  rewrite (ns_find_ok nm m keys x s t l ks S F H F2 T2). eexists. split; [reflexivity |].
  assert (G := find_first (fun e : ent => has_tag t e && matches_preds (combine keys (map text_or ks)) (snd e)) l).
  assert (MS := fun e => matches_same keys x e ks F2 U T1).
  assert (P : forall u e, has_tag t (u, e) && matches_preds (combine keys (map text_or ks)) (snd (u, e)) = true <->
    xtag e = t /\ SameKeys keys x e).
  { intros u e. rewrite andb_true_iff. cbn [snd]. rewrite MS. unfold has_tag. cbn [snd]. rewrite String.eqb_eq. tauto. }
  destruct (find _ l) as [(u, e) |].
  - cbn. destruct G as (a & b & -> & A & N). exists a, e, b. apply P in A. destruct A as [A1 A2]. repeat split; auto.
    intros u' e' I E K. specialize (N _ I). assert (X := proj2 (P u' e') (conj E K)). congruence.
  - cbn. intros u e I E K. specialize (G _ I). assert (X := proj2 (P u e) (conj E K)). congruence.
Qed.
