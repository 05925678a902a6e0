(** Proofs for C82 and C83. *)
From Coq Require Import String Ascii List Bool Arith Lia OrderedTypeEx.
From Verif Require Import Base BaseP XmlM CompileM CompileP DeviceP ContextM ContextSpec.
Import ListNotations.
Open Scope string_scope.
Open Scope list_scope.

(** ** Modules *)
Lemma modid_ok : eqb_ok modid_eqb.
Proof.
  intros (a, b) (c, d). unfold modid_eqb. cbn. rewrite andb_true_iff, !String.eqb_eq. split; [intros (-> & ->); auto | intro E; injection E as -> ->; auto].
Qed.
Lemma dset_fresh : forall k (v : module) (d : modules), ~ In k (map fst d) -> dset modid_eqb k v d = d ++ [(k, v)].
Proof.
  induction d as [| (k', v') d IH]; intro N; cbn; auto. destruct (modid_eqb k k') eqn:E.
  - apply modid_ok in E. subst k'. exfalso. apply N. left. auto.
  - rewrite IH; auto. intro H. apply N. right. auto.
Qed.
Lemma dels : forall ks (d : modules), fold_left (fun d k => ddel k d) ks d = filter (fun e => negb (mem modid_eqb (fst e) ks)) d.
Proof.
  induction ks as [| k ks IH]; intro d; cbn [fold_left].
  - cbn. symmetry. induction d as [| e d IHd]; auto. cbn. f_equal. exact IHd.
  - rewrite IH. unfold ddel. induction d as [| e d IHd]; auto. cbn [filter]. cbn [mem]. destruct (modid_eqb (fst e) k) eqn:E; cbn [negb orb filter]; rewrite IHd; auto.
Qed.
Lemma puts : forall subs (d : modules), NoDup (map fst (d ++ subs)) -> fold_left (fun d e => dset modid_eqb (fst e) (snd e) d) subs d = d ++ subs.
Proof.
  induction subs as [| (k, v) subs IH]; intros d N; cbn [fold_left]; [symmetry; apply app_nil_r |].
  cbn [fst snd]. rewrite dset_fresh.
  - rewrite IH; rewrite <- app_assoc; auto.
  - rewrite map_app in N. cbn in N. apply NoDup_remove_2 in N. intro H. apply N. apply in_or_app. auto.
Qed.
Lemma NoDup_filter_map : forall (f : modid * module -> bool) d, NoDup (map fst d) -> NoDup (map fst (filter f d)).
Proof.
  induction d as [| e d IH]; intro N; cbn in *; auto. inversion N; subst. destruct (f e); cbn; auto. constructor; auto.
  intro H. apply H1. apply in_map_iff in H. destruct H as (x & <- & X). apply filter_In in X. apply in_map. tauto.
Qed.
Lemma key_once : forall (d : modules) e e', NoDup (map fst d) -> In e d -> In e' d -> fst e = fst e' -> e = e'.
Proof.
  induction d as [| x d IH]; intros e e' N I I' E; [destruct I |]. cbn in N. inversion N as [| ? ? A B]; subst.
  destruct I as [-> | I], I' as [-> | I']; auto.
  - exfalso. apply A. rewrite E. apply in_map. auto.
  - exfalso. apply A. rewrite <- E. apply in_map. auto.
Qed.

Lemma nodup_app : forall {A} (a b : list A), NoDup a -> NoDup b -> (forall x, In x a -> ~ In x b) -> NoDup (a ++ b).
Proof.
  induction a as [| x a IH]; intros b N M D; cbn; auto. inversion N; subst. constructor.
  - intro H. apply in_app_or in H. destruct H as [H | H]; [auto | exact (D x (or_introl eq_refl) H)].
  - apply IH; auto. intros y Y. apply D. right. auto.
Qed.

Theorem sort_exact : forall d, NoDup (map fst d) ->
  sort_modules d = filter (fun e => negb (is_sub (snd e))) d ++ filter (fun e => is_sub (snd e)) d.
Proof.
  intros d N. unfold sort_modules. rewrite dels.
  assert (F : filter (fun e => negb (mem modid_eqb (fst e) (map fst (filter (fun e => is_sub (snd e)) d)))) d = filter (fun e => negb (is_sub (snd e))) d).
  { apply filter_ext_in. intros e I. f_equal. apply Bool.eq_iff_eq_true. rewrite (mem_In modid_eqb modid_ok), in_map_iff. split.
    - intros (x & E & X). apply filter_In in X. destruct X as (X & S). rewrite <- (key_once d x e N X I E). auto.
    - intro S. exists e. split; auto. apply filter_In. auto. }
  rewrite F. apply puts. rewrite map_app. apply nodup_app; try (apply NoDup_filter_map; auto).
  intros k A B. apply in_map_iff in A. destruct A as (x & <- & X). apply in_map_iff in B. destruct B as (y & E & Y).
  apply filter_In in X. apply filter_In in Y. destruct X as (X & X'). destruct Y as (Y & Y'). rewrite (key_once d y x N Y X E) in Y'. rewrite Y' in X'. discriminate.
Qed.

(** ** Revisions *)
Lemma cmp_refl : forall a, String.compare a a = Eq.
Proof. intro a. apply String_as_OT.cmp_eq. reflexivity. Qed.
Lemma cmp_flip : forall a b, String.compare a b = CompOpp (String.compare b a).
Proof. exact String_as_OT.cmp_antisym. Qed.
Lemma not_gt_trans : forall a b c, String.compare a b <> Gt -> String.compare b c <> Gt -> String.compare a c <> Gt.
Proof.
  intros a b c H1 H2. destruct (String.compare a b) eqn:E1; [| | congruence].
  - apply String_as_OT.cmp_eq in E1. subst b. exact H2.
  - destruct (String.compare b c) eqn:E2; [| | congruence].
    + apply String_as_OT.cmp_eq in E2. subst c. rewrite E1. discriminate.
    + apply String_as_OT.cmp_lt in E1. apply String_as_OT.cmp_lt in E2. pose proof (String_as_OT.lt_trans _ _ _ E1 E2) as L.
      apply String_as_OT.cmp_lt in L. unfold String_as_OT.cmp in L. rewrite L. discriminate.
Qed.

Definition better (name : string) (latest : option string) (nr : string * string) : option string :=
  let '(n, r) := nr in
  if String.eqb n name && match latest with None => true | Some l => str_gt r l end then Some r else latest.
Lemma latest_max : forall keys n l0,
  match fold_left (better n) keys l0 with
  | None => l0 = None /\ forall r, ~ In (n, r) keys
  | Some r => (In (n, r) keys \/ l0 = Some r) /\ (forall r', In (n, r') keys \/ l0 = Some r' -> String.compare r' r <> Gt)
  end.
Proof.
  induction keys as [| (n', r') keys IH]; intros n l0; cbn [fold_left].
  - destruct l0 as [r |]; [| split; auto]. split; auto. intros r' [[] | E]. injection E as ->. rewrite cmp_refl. discriminate.
  - specialize (IH n (better n l0 (n', r'))). destruct (fold_left (better n) keys (better n l0 (n', r'))) as [r |].
    + destruct IH as (I1 & I2). unfold better in I1, I2. destruct (String.eqb_spec n' n) as [-> | NE]; cbn [andb] in *.
      * destruct l0 as [l |].
        -- unfold str_gt in I1, I2. destruct (String.compare r' l) eqn:C.
           ++ split; [destruct I1; [left; right; auto | auto] |]. intros x [[X | X] | X]; auto. injection X as ->. apply (not_gt_trans x l r); [rewrite C; discriminate | auto].
           ++ split; [destruct I1; [left; right; auto | auto] |]. intros x [[X | X] | X]; auto. injection X as ->. apply (not_gt_trans x l r); [rewrite C; discriminate | auto].
           ++ split; [destruct I1 as [I1 | I1]; [left; right; auto | injection I1 as ->; left; left; auto] |]. intros x [[X | X] | X]; auto; [injection X as ->; auto |].
              injection X as ->. apply (not_gt_trans x r' r); auto. rewrite cmp_flip, C. discriminate.
        -- split; [destruct I1 as [I1 | I1]; [left; right; auto | injection I1 as ->; left; left; auto] |]. intros x [[X | X] | X]; auto; [injection X as ->; auto | discriminate].
      * split; [destruct I1; [left; right; auto | auto] |]. intros x [[X | X] | X]; auto. congruence.
    + destruct IH as (I1 & I2). unfold better in I1. destruct (String.eqb_spec n' n) as [-> | NE]; cbn [andb] in I1.
      * destruct l0 as [l |]; [destruct (str_gt r' l) |]; discriminate.
      * split; auto. intros x [X | X]; [congruence | exact (I2 x X)].
Qed.
Theorem latest_iff : forall keys n r, latest_revision keys n = Some r <-> Newest keys n r.
Proof.
  intros keys n r. unfold latest_revision. change (fun latest '(n0, r0) => if (n0 =? n)%string && match latest with None => true | Some l => str_gt r0 l end then Some r0 else latest) with (better n).
  pose proof (latest_max keys n None) as M. split.
  - intro H. rewrite H in M. destruct M as ([M1 | M1] & M2); [| discriminate]. split; auto.
  - intros (H1 & H2). destruct (fold_left (better n) keys None) as [r' |].
    + destruct M as ([M1 | M1] & M2); [| discriminate]. f_equal. specialize (H2 r' M1). specialize (M2 r (or_introl H1)).
      destruct (String.compare r' r) eqn:C; [apply String_as_OT.cmp_eq in C; auto | | congruence]. rewrite cmp_flip, C in M2. cbn in M2. congruence.
    + destruct M as (_ & M). exfalso. exact (M r H1).
Qed.

Definition revstep (d : list (string * string)) (nr : string * string) : list (string * string) :=
  let '(n, r) := nr in
  match assoc String.eqb n d with
  | None => dset String.eqb n r d
  | Some r0 => if str_gt r r0 then dset String.eqb n r d else d
  end.
Lemma revisions_assoc : forall keys d n, assoc String.eqb n (fold_left revstep keys d) = fold_left (better n) keys (assoc String.eqb n d).
Proof.
  induction keys as [| (n', r') keys IH]; intros d n; cbn [fold_left]; auto. rewrite IH. f_equal. unfold revstep, better.
  destruct (String.eqb_spec n' n) as [-> | NE]; cbn [andb].
  - destruct (assoc String.eqb n d) as [r0 |] eqn:A; [destruct (str_gt r' r0) |]; rewrite ?(assoc_dset' String.eqb string_eqb_ok), ?String.eqb_refl; auto.
  - assert (E : String.eqb n n' = false) by (apply String.eqb_neq; auto).
    destruct (assoc String.eqb n' d) as [r0 |]; [destruct (str_gt r' r0) |]; rewrite ?(assoc_dset' String.eqb string_eqb_ok), ?E; auto.
Qed.
Lemma revisions_nodup : forall keys d, NoDup (map fst d) -> NoDup (map fst (fold_left revstep keys d)).
Proof.
  induction keys as [| (n, r) keys IH]; intros d N; cbn [fold_left]; auto. apply IH. unfold revstep.
  destruct (assoc String.eqb n d) as [r0 |]; [destruct (str_gt r r0) |]; auto; apply DeviceP.dset_keys; auto.
Qed.
Lemma assoc_nodup : forall {K V} (eqb : K -> K -> bool), eqb_ok eqb -> forall (l : list (K * V)) k v, NoDup (map fst l) -> (assoc eqb k l = Some v <-> In (k, v) l).
Proof.
  intros K V eqb OK l k v. induction l as [| (k', v') l IH]; intro N; cbn; [split; [discriminate | intros []] |]. cbn in N. inversion N as [| ? ? A B]; subst.
  destruct (eqb k k') eqn:E.
  - apply OK in E. subst k'. split; [intro H; injection H as ->; auto | intros [H | H]; [injection H as ->; auto |]]. exfalso. apply A. apply (in_map fst) in H. exact H.
  - rewrite IH; auto. split; auto. intros [H | H]; auto. injection H as -> ->. assert (eqb k k = true) by (apply OK; auto). congruence.
Qed.
Theorem pruned_exact : forall d, NoDup (map fst d) ->
  exists revs l, validate_context true d = (sort_modules d, Ok l) /\ NoDup (map fst revs) /\
    (forall n r, In (n, r) revs <-> Newest (map fst d) n r) /\ Forall2 (fun k m => In (k, m) d) revs l.
Proof.
  intros d N. unfold validate_context. set (revs := revisions (map fst d)).
  assert (R : NoDup (map fst revs)) by (apply (revisions_nodup (map fst d) []); constructor).
  assert (Q : forall n r, In (n, r) revs <-> Newest (map fst d) n r).
  { intros n r. rewrite <- latest_iff. rewrite <- (assoc_nodup String.eqb string_eqb_ok revs n r R). unfold revs, revisions.
    change (fun d0 '(n0, r0) => match assoc String.eqb n0 d0 with None => dset String.eqb n0 r0 d0 | Some r1 => if str_gt r0 r1 then dset String.eqb n0 r0 d0 else d0 end) with revstep.
    rewrite revisions_assoc. reflexivity. }
  assert (M : forall q, (forall k, In k q -> In k revs) -> exists l, mapM (fun k => match assoc modid_eqb k (sort_modules d) with Some m => Ok m | None => Err KeyError end) q = Ok l /\ Forall2 (fun k m => In (k, m) d) q l).
  { assert (S : NoDup (map fst (sort_modules d))).
    { rewrite sort_exact by auto. rewrite map_app. apply nodup_app; try (apply NoDup_filter_map; auto).
      intros k A B. apply in_map_iff in A. destruct A as (x & <- & X). apply in_map_iff in B. destruct B as (y & E & Y).
      apply filter_In in X. apply filter_In in Y. destruct X as (X & X'). destruct Y as (Y & Y'). rewrite (key_once d y x N Y X E) in Y'. rewrite Y' in X'. discriminate. }
    assert (J : forall e, In e (sort_modules d) <-> In e d).
    { intro e. rewrite sort_exact by auto. rewrite in_app_iff, !filter_In. destruct (is_sub (snd e)); cbn; tauto. }
    induction q as [| (n, r) q IH]; intro H; [exists []; split; [reflexivity | constructor] |].
    destruct IH as (l & E & F); [intros k K; apply H; right; auto |].
    assert (X : Newest (map fst d) n r) by (apply Q; apply H; left; auto). destruct X as (X & _). apply in_map_iff in X. destruct X as (((n', r'), m) & XE & X). cbn in XE. injection XE as -> ->.
    exists (m :: l). cbn [mapM]. assert (A : assoc modid_eqb (n, r) (sort_modules d) = Some m) by (apply (assoc_nodup modid_eqb modid_ok); auto; apply J; auto).
    rewrite A. cbn [bind]. rewrite E. cbn [bind]. split; auto. }
  destruct (M revs) as (l & E & F); auto. exists revs, l. rewrite E. auto.
Qed.

(** ** Files of the repository *)
Lemma reset_step : forall {H} (files : list (string * string * H)) d m,
  assoc String.eqb m (fold_left (fun d '(m, r, h) =>
    let d1 := match assoc String.eqb m d with None => dset String.eqb m [] d | Some _ => d end in
    match assoc String.eqb m d1 with Some l => dset String.eqb m (l ++ [(r, h)]) d1 | None => d1 end) files d) =
  match assoc String.eqb m d, map (fun '(_, r, h) => (r, h)) (filter (fun '(n, _, _) => String.eqb n m) files) with
  | None, [] => None
  | None, l => Some l
  | Some l, l' => Some (l ++ l')
  end.
Proof.
  intros H files. induction files as [| ((n, r), h) files IH]; intros d m; cbn [fold_left].
  - cbn. destruct (assoc String.eqb m d); auto. rewrite app_nil_r. auto.
  - rewrite IH. clear IH. cbn [filter].
    assert (A : forall d1 l, assoc String.eqb n d1 = Some l -> assoc String.eqb m (dset String.eqb n (l ++ [(r, h)]) d1) = if String.eqb m n then Some (l ++ [(r, h)]) else assoc String.eqb m d1)
      by (intros d1 l _; apply (assoc_dset' String.eqb string_eqb_ok)).
    destruct (assoc String.eqb n d) as [l |] eqn:E.
    + cbn zeta. rewrite E, (A d l E). rewrite String.eqb_sym. destruct (String.eqb_spec n m) as [-> | NE]; cbn [map]; [rewrite E, <- app_assoc; reflexivity | reflexivity].
    + cbn zeta. rewrite (assoc_dset' String.eqb string_eqb_ok), String.eqb_refl, (assoc_dset' String.eqb string_eqb_ok), (assoc_dset' String.eqb string_eqb_ok).
      rewrite String.eqb_sym. destruct (String.eqb_spec n m) as [-> | NE]; cbn [map]; [rewrite E; reflexivity | reflexivity].
Qed.
Theorem reset_exact : forall {H} (files : list (string * string * H)) m,
  assoc String.eqb m (reset_revs files) =
  match map (fun '(_, r, h) => (r, h)) (filter (fun '(n, _, _) => String.eqb n m) files) with [] => None | l => Some l end.
Proof. intros H files m. unfold reset_revs. rewrite reset_step. reflexivity. Qed.

(** ** The page of a comparison *)
Lemma line_cut : forall x x' a b, one_line x -> one_line x' -> (x ++ nl ++ a = x' ++ nl ++ b)%string -> x = x' /\ a = b.
Proof.
  induction x as [| c x IH]; intros [| c' x'] a b O O' E; cbn in E.
  - injection E as ->. auto.
  - exfalso. injection E as <- _. apply O'. left. reflexivity.
  - exfalso. injection E as -> _. apply O. left. reflexivity.
  - injection E as -> E. apply IH in E; [destruct E as (-> & ->); auto | intro H; apply O; right; auto | intro H; apply O'; right; auto].
Qed.
Lemma line_not : forall x x' a, one_line x' -> (x ++ nl ++ a)%string <> x'.
Proof.
  induction x as [| c x IH]; intros [| c' x'] a O E; cbn in E; try discriminate.
  - injection E as <- _. apply O. left. reflexivity.
  - injection E as <- E. apply (IH x' a); auto. intro H. apply O. right. auto.
Qed.
Lemma lines_inj : forall l l', l <> [] -> l' <> [] -> Forall one_line l -> Forall one_line l' -> String.concat nl l = String.concat nl l' -> l = l'.
Proof.
  induction l as [| x l IH]; intros l' N N' F F' E; [congruence |]. destruct l' as [| x' l']; [congruence |].
  inversion F as [| ? ? O FL]; subst. inversion F' as [| ? ? O' FL']; subst.
  destruct l as [| y l], l' as [| y' l'].
  - cbn in E. congruence.
  - exfalso. change (String.concat nl (x' :: y' :: l')) with (x' ++ nl ++ String.concat nl (y' :: l'))%string in E. symmetry in E. exact (line_not _ _ _ O E).
  - exfalso. change (String.concat nl (x :: y :: l)) with (x ++ nl ++ String.concat nl (y :: l))%string in E. exact (line_not _ _ _ O' E).
  - change (String.concat nl (x' :: y' :: l')) with (x' ++ nl ++ String.concat nl (y' :: l'))%string in E.
    change (String.concat nl (x :: y :: l)) with (x ++ nl ++ String.concat nl (y :: l))%string in E.
    apply line_cut in E; auto. destruct E as (-> & E). f_equal. apply IH; auto; discriminate.
Qed.

Definition attr_line (kv : string * string) : string := ("  " ++ fst kv ++ " = " ++ print_value (Some (snd kv)))%string.
Definition node_lines (l : list xml) : list string :=
  match l with
  | [] => ["None"]
  | x :: _ => [("tag: '" ++ xtag x ++ "'")%string; ("text: " ++ print_value (xtext x))%string; "attributes:"] ++ map attr_line (xattrs x)
  end.
Lemma concat_lines : forall l r, l <> [] -> r <> [] -> (String.concat nl l ++ nl ++ String.concat nl r)%string = String.concat nl (l ++ r).
Proof.
  induction l as [| x l IH]; intros r N R; [congruence |]. destruct l as [| y l].
  - destruct r; [congruence | reflexivity].
  - change (String.concat nl (x :: y :: l)) with (x ++ nl ++ String.concat nl (y :: l))%string. change ((x :: y :: l) ++ r) with (x :: y :: (l ++ r)).
    change (String.concat nl (x :: y :: l ++ r)) with (x ++ nl ++ String.concat nl ((y :: l) ++ r))%string. rewrite <- (IH r) by (auto; discriminate).
    assert (A : forall a b c : string, ((a ++ b) ++ c = a ++ (b ++ c))%string) by (induction a; intros; cbn; congruence).
    rewrite !A. reflexivity.
Qed.
Lemma print_lines : forall l, print_node l = String.concat nl (node_lines l).
Proof. intros [| x l]; reflexivity. Qed.
Definition page_lines (xpath : string) (l1 l2 : list xml) : list string :=
  [(dashes 21 ++ " XPATH " ++ dashes 21)%string; ("'" ++ xpath ++ "'")%string; (dashes 20 ++ " MODEL 1 " ++ dashes 20)%string] ++ node_lines l1 ++
  [(dashes 20 ++ " MODEL 2 " ++ dashes 20)%string] ++ node_lines l2 ++ [dashes 49; ""].
Lemma page_is : forall xpath l1 l2, compare_page xpath l1 l2 = String.concat nl (page_lines xpath l1 l2).
Proof.
  intros xpath l1 l2. unfold page_lines. assert (N : forall l, node_lines l <> []) by (intros [| x l]; discriminate).
  rewrite <- concat_lines; [| discriminate | destruct (node_lines l1); discriminate].
  rewrite <- (concat_lines (node_lines l1)); [| auto | discriminate].
  rewrite <- (concat_lines [(dashes 20 ++ " MODEL 2 " ++ dashes 20)%string]); [| discriminate | destruct (node_lines l2); discriminate].
  rewrite <- (concat_lines (node_lines l2)); [| auto | discriminate].
  unfold compare_page. rewrite !print_lines. cbn [String.concat].
  assert (A : forall a b c : string, ((a ++ b) ++ c = a ++ (b ++ c))%string) by (induction a; intros; cbn; congruence).
  rewrite !A. reflexivity.
Qed.
Lemma one_line_app : forall a b, one_line a -> one_line b -> one_line (a ++ b).
Proof.
  intros a b A B H. assert (E : list_ascii_of_string (a ++ b) = list_ascii_of_string a ++ list_ascii_of_string b) by (clear; induction a; cbn; congruence).
  rewrite E in H. apply in_app_or in H. destruct H; auto.
Qed.
Lemma one_line_lit : forall s, existsb (Ascii.eqb (Ascii.ascii_of_nat 10)) (list_ascii_of_string s) = false -> one_line s.
Proof.
  intros s H I. assert (X : existsb (Ascii.eqb (Ascii.ascii_of_nat 10)) (list_ascii_of_string s) = true) by (apply existsb_exists; exists (Ascii.ascii_of_nat 10); split; auto).
  congruence.
Qed.
Ltac oneline := repeat apply one_line_app; auto; apply one_line_lit; reflexivity.
Lemma node_one : forall l, Plain l -> Forall one_line (node_lines l).
Proof.
  intros [| x l] P; [constructor; [oneline | constructor] |]. destruct P as (P1 & P2 & P3). cbn [node_lines app].
  constructor; [oneline |]. constructor; [destruct (xtext x) as [t |]; unfold print_value; [specialize (P2 t eq_refl); oneline | oneline] |]. constructor; [oneline |].
  apply Forall_forall. intros y Y. apply in_map_iff in Y. destruct Y as ((k, v) & <- & KV). destruct (P3 k v KV) as (K & V & _). unfold attr_line, print_value. cbn [fst snd]. oneline.
Qed.

Lemma tail_inj : forall a b c : string, (a ++ c = b ++ c)%string -> a = b.
Proof.
  intros a b c E. assert (L : String.length a = String.length b).
  { apply (f_equal String.length) in E. assert (A : forall x y, String.length (x ++ y) = String.length x + String.length y) by (induction x; intro y; cbn; auto). rewrite !A in E. lia. }
  revert b L E. induction a as [| ch a IH]; intros [| ch' b] L E; cbn in *; try lia; auto. injection E as -> E. f_equal. apply IH; [lia | exact E].
Qed.
Lemma head_inj : forall a b c : string, (a ++ b = a ++ c)%string -> b = c.
Proof. induction a as [| ch a IH]; intros b c E; cbn in E; auto. injection E as E. auto. Qed.
Lemma blank_cut : forall x x' a b, ~ In " "%char (list_ascii_of_string x) -> ~ In " "%char (list_ascii_of_string x') -> (x ++ " " ++ a = x' ++ " " ++ b)%string -> x = x' /\ a = b.
Proof.
  induction x as [| c x IH]; intros [| c' x'] a b O O' E; cbn in E.
  - injection E as ->. auto.
  - exfalso. injection E as <- _. apply O'. left. reflexivity.
  - exfalso. injection E as -> _. apply O. left. reflexivity.
  - injection E as -> E. apply IH in E; [destruct E as (-> & ->); auto | intro H; apply O; right; auto | intro H; apply O'; right; auto].
Qed.
Lemma value_inj : forall a b, print_value a = print_value b -> a = b.
Proof.
  intros [a |] [b |] E; unfold print_value in E; auto; try discriminate. apply head_inj in E. apply tail_inj in E. congruence.
Qed.
Lemma attr_inj : forall l l', (forall k v, In (k, v) l -> ~ In " "%char (list_ascii_of_string k)) -> (forall k v, In (k, v) l' -> ~ In " "%char (list_ascii_of_string k)) ->
  map attr_line l = map attr_line l' -> l = l'.
Proof.
  induction l as [| (k, v) l IH]; intros [| (k', v') l'] H H' E; try discriminate; auto. cbn [map] in E. injection E as E1 E2.
  assert (X : k = k' /\ v = v').
  { apply blank_cut in E1; [| exact (H k v (or_introl eq_refl)) | exact (H' k' v' (or_introl eq_refl))].
    destruct E1 as (-> & E1). split; auto. cbn in E1. injection E1 as E1. change "'" with ("'" ++ "")%string in E1. apply tail_inj in E1. auto. }
  destruct X as (-> & ->). f_equal. apply IH; auto; intros k v I; [apply (H k v) | apply (H' k v)]; right; auto.
Qed.
Lemma shown_iff : forall l l', Plain l -> Plain l' -> (node_lines l = node_lines l' <-> shown l = shown l').
Proof.
  intros [| x l] [| x' l'] P P'; cbn [node_lines shown app]; try (split; intro; discriminate); [tauto |].
  destruct P as (_ & _ & P). destruct P' as (_ & _ & P'). split; intro E.
  - injection E as E1 E2 E3. apply tail_inj in E1. apply value_inj in E2. apply attr_inj in E3; [| intros k v I; apply (P k v I) | intros k v I; apply (P' k v I)]. congruence.
  - injection E as -> -> ->. reflexivity.
Qed.
Lemma mark_cut : forall (m : string) a a' b b', ~ In m a -> ~ In m a' -> a ++ m :: b = a' ++ m :: b' -> a = a' /\ b = b'.
Proof.
  induction a as [| x a IH]; intros [| x' a'] b b' N N' E; cbn in E.
  - injection E as ->. auto.
  - exfalso. injection E as <- _. apply N'. left. auto.
  - exfalso. injection E as -> _. apply N. left. auto.
  - injection E as -> E. apply IH in E; [destruct E as (-> & ->); auto | intro H; apply N; right; auto | intro H; apply N'; right; auto].
Qed.
Lemma no_mark : forall l, ~ In (dashes 20 ++ " MODEL 2 " ++ dashes 20)%string (node_lines l).
Proof.
  intros [| x l] H; [destruct H as [H | []]; discriminate |]. destruct H as [H | [H | [H | H]]]; try discriminate.
  apply in_map_iff in H. destruct H as ((k, v) & H & _). discriminate.
Qed.
Theorem page_exact : forall p p' l1 l2 m1 m2, one_line p -> one_line p' -> Plain l1 -> Plain l2 -> Plain m1 -> Plain m2 ->
  (compare_page p l1 l2 = compare_page p' m1 m2 <-> p = p' /\ shown l1 = shown m1 /\ shown l2 = shown m2).
Proof.
  intros p p' l1 l2 m1 m2 O O' P1 P2 Q1 Q2. rewrite !page_is. rewrite <- (shown_iff l1 m1), <- (shown_iff l2 m2) by auto. split.
  - intro E. apply lines_inj in E; try discriminate.
    + unfold page_lines in E. cbn [app] in E. injection E as E1 E2. apply tail_inj in E1. split; auto.
      apply mark_cut in E2; try apply no_mark. destruct E2 as (E2 & E3). split; auto. apply app_inv_tail in E3. auto.
    + unfold page_lines. apply Forall_app. split; [repeat constructor; oneline |]. apply Forall_app. split; [apply node_one; auto |]. apply Forall_app. split; [repeat constructor; oneline |].
      apply Forall_app. split; [apply node_one; auto | repeat constructor; oneline].
    + unfold page_lines. apply Forall_app. split; [repeat constructor; oneline |]. apply Forall_app. split; [apply node_one; auto |]. apply Forall_app. split; [repeat constructor; oneline |].
      apply Forall_app. split; [apply node_one; auto | repeat constructor; oneline].
  - intros (-> & E1 & E2). unfold page_lines. rewrite E1, E2. reflexivity.
Qed.

Theorem pruned_any : forall prunes d, NoDup (map fst d) ->
  exists revs l, validate_context prunes d = (sort_modules d, Ok l) /\ NoDup (map fst revs) /\
    (forall n r, In (n, r) revs <-> prunes = true /\ Newest (map fst d) n r) /\ Forall2 (fun k m => In (k, m) d) revs l.
Proof.
  intros [|] d N.
  - destruct (pruned_exact d N) as (revs & l & A & B & C & D). exists revs, l. split; auto. split; auto. split; auto. intros n r. rewrite C. tauto.
  - exists [], []. split; [reflexivity |]. split; [constructor |]. split; [| constructor]. intros n r. split; [intros [] | intros (X & _); discriminate].
Qed.
