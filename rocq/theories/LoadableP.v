(** Proofs about LoadableM.v. *)
From Coq Require Import String Ascii List Bool Arith NArith Permutation Sorted Lia.
From Verif Require Import Base BaseP XmlM TagM RunningM RunSpec RegexP LoadableM LoadableSpec.
Import ListNotations.
Open Scope string_scope.
Open Scope list_scope.
Open Scope nat_scope.

(** ** Sorting *)
Lemma leb_total : forall a b, String.leb a b = false -> String.leb b a = true.
Proof.
  intros a b. unfold String.leb. rewrite (String.compare_antisym b a). destruct (String.compare a b); cbn; congruence.
Qed.
Lemma leb_trans : forall a b c, String.leb a b = true -> String.leb b c = true -> String.leb a c = true.
Proof.
  induction a as [| x a IH]; intros b c H1 H2; [destruct c; reflexivity |].
  destruct b as [| y b]; [discriminate |]. destruct c as [| z c]; [unfold String.leb in H2; cbn in H2; discriminate |].
  unfold String.leb in *. cbn [String.compare] in *. unfold Ascii.compare in *.
  destruct (N.compare_spec (N_of_ascii x) (N_of_ascii y)) as [E | E | E]; try discriminate;
    destruct (N.compare_spec (N_of_ascii y) (N_of_ascii z)) as [E' | E' | E']; try discriminate;
    destruct (N.compare_spec (N_of_ascii x) (N_of_ascii z)) as [E'' | E'' | E'']; try reflexivity; try (exfalso; lia).
  apply (IH b c); assumption.
Qed.
Lemma insert_perm : forall s l, Permutation (insert s l) (s :: l).
Proof.
  intros s l. induction l as [| x l IH]; cbn [insert]; [reflexivity |]. destruct (String.leb s x); [reflexivity |].
  rewrite IH. apply perm_swap.
Qed.
Lemma insert_asc : forall s l, Ascending l -> Ascending (insert s l).
Proof.
  intros s l H. induction H as [| x l H IH F]; cbn [insert]; [repeat constructor |].
  destruct (String.leb s x) eqn:E.
  - constructor; [constructor; auto |]. constructor; [exact E |]. eapply Forall_impl; [| exact F]. intros y Hy. eapply leb_trans; eauto.
  - constructor; [exact IH |]. rewrite Forall_forall in *. intros y I. apply (Permutation_in _ (insert_perm s l)) in I.
    destruct I as [<- | I]; [apply leb_total; exact E | apply F; exact I].
Qed.
Lemma sort_ok : forall l, SortedOf (sort l) l.
Proof.
  induction l as [| s l (P & A)]; [split; [reflexivity | constructor] |]. split; cbn [sort fold_right].
  - rewrite insert_perm. constructor. exact P.
  - apply insert_asc. exact A.
Qed.

(** ** Paths *)
Lemma select_reached : forall ps l y, ps <> [] -> (In y (select ps l) <-> exists x, In x l /\ Reached x ps y).
Proof.
  induction ps as [| p ps IH]; intros l y N; [congruence |]. destruct ps as [| q ps].
  - cbn [select]. rewrite filter_In, String.eqb_eq. split.
    + intros (I & <-). exists y. split; [exact I | constructor].
    + intros (x & I & H). inversion H as [x0 | x0 k ps0 y0 Ik Hk]; subst; [auto | inversion Hk].
  - change (select (p :: q :: ps) l) with (select (q :: ps) (flat_map xkids (filter (fun x => String.eqb (xtag x) p) l))).
    rewrite IH by discriminate. split.
    + intros (k & I & H). apply in_flat_map in I. destruct I as (x & I & Ik). apply filter_In in I. destruct I as (I & E). apply String.eqb_eq in E.
      exists x. split; [exact I |]. rewrite <- E. econstructor; eauto.
    + intros (x & I & H). inversion H as [x0 | x0 k ps0 y0 Ik Hk]; subst. exists k. split; [| exact Hk]. apply in_flat_map. exists x.
      split; [| exact Ik]. apply filter_In. split; [exact I | apply String.eqb_refl].
Qed.
Lemma all_some_map : forall l, all_some (map Some l) = Some l.
Proof. induction l as [| s l IH]; [reflexivity |]. cbn. rewrite IH. reflexivity. Qed.
Lemma all_some_ok : forall l l', all_some l = Some l' -> l = map Some l'.
Proof.
  induction l as [| [s |] l IH]; intros l' H; cbn in H; [injection H as <-; reflexivity | | discriminate].
  destruct (all_some l) as [l0 |]; [| discriminate]. injection H as <-. cbn. rewrite (IH l0 eq_refl). reflexivity.
Qed.
Lemma sorted_texts_some : forall l, exists l', sorted_texts (map Some l) = Ok (map Some l') /\ SortedOf l' l.
Proof.
  intros [| a [| b l]].
  - exists []. split; [reflexivity |]. split; [reflexivity | constructor].
  - exists [a]. split; [reflexivity |]. split; [reflexivity |]. repeat constructor.
  - exists (sort (a :: b :: l)). split; [| apply sort_ok]. assert (E := all_some_map (a :: b :: l)). cbn [map] in *. unfold sorted_texts. rewrite E. reflexivity.
Qed.
Lemma sorted_texts_in : forall l l', sorted_texts l = Ok l' -> Permutation l' l.
Proof.
  intros l l' H. unfold sorted_texts in H. destruct l as [| a [| b l]].
  - injection H as <-. reflexivity.
  - assert (l' = [a]) by (destruct a; congruence). subst. reflexivity.
  - destruct (all_some (a :: b :: l)) as [l0 |] eqn:E.
    + apply all_some_ok in E. assert (l' = map Some (sort l0)) by congruence. subst l'. rewrite E. apply Permutation_map. apply sort_ok.
    + discriminate.
Qed.

Lemma attempt_in : forall ps x l, ps <> [] -> attempt ps (Replied x) = Some l ->
  forall t, In t l <-> exists y, Reached x ps y /\ xtext y = t.
Proof.
  intros ps x l N H t. unfold attempt in H. destruct (sorted_texts _) as [l0 |] eqn:E; [| discriminate]. injection H as <-.
  apply sorted_texts_in in E. split.
  - intro I. apply (Permutation_in _ E) in I. apply in_map_iff in I. destruct I as (y & <- & I). apply (select_reached ps [x] y N) in I.
    destruct I as (x' & [<- | []] & R). eauto.
  - intros (y & R & <-). apply (Permutation_in _ (Permutation_sym E)). apply in_map. apply select_reached; [exact N |]. exists x. split; [left; reflexivity | exact R].
Qed.

(** ** Capabilities *)
Lemma has_cap_ok : forall p caps, has_cap p caps = true <-> exists r, In (p ++ r)%string caps.
Proof.
  intros p caps. unfold has_cap. rewrite existsb_exists. split.
  - intros (c & I & H). apply starts_eq in H. exists (sdrop (String.length p) c). rewrite <- H. exact I.
  - intros (r & I). exists (p ++ r)%string. split; [exact I |]. apply starts_app.
Qed.

Lemma name_char_ok : forall c, name_char c = true <-> PlainChar c.
Proof.
  intro c. unfold name_char, PlainChar. cbv zeta. rewrite !orb_true_iff, !andb_true_iff, !Nat.leb_le, Nat.eqb_eq. tauto.
Qed.
Lemma plain_all : forall s, Plain s <-> all_chars name_char s.
Proof. induction s as [| c s IH]; cbn; [tauto |]. rewrite name_char_ok, IH. tauto. Qed.

Lemma stop_ok : forall s, Stop s <-> stops name_char s.
Proof. destruct s as [| c s]; cbn; [tauto |]. rewrite <- name_char_ok, not_true_iff_false. tauto. Qed.

Lemma here_found : forall m rest, m <> "" -> Plain m -> Stop rest -> module_here ("module=" ++ m ++ rest)%string = Some m.
Proof.
  intros m rest N P S. unfold module_here. destruct (starts_app "module=" (m ++ rest)) as (-> & E). change (String.length "module=") with 7 in E. rewrite E.
  rewrite (span_max name_char m rest) by (try apply plain_all; try apply stop_ok; assumption). cbn [fst]. destruct m; [congruence | reflexivity].
Qed.
Lemma here_within : forall s n, module_here s = Some n -> exists r, s = ("module=" ++ r)%string.
Proof. intros s n H. unfold module_here in H. destruct (starts "module=" s) eqn:E; [| discriminate]. apply starts_eq in E. eauto. Qed.
Lemma none_found : forall s, ~ Within "module=" s -> module_in s = None.
Proof.
  induction s as [| c s IH]; intro N; [reflexivity |]. cbn [module_in].
  destruct (module_here (String c s)) as [n |] eqn:E.
  - exfalso. apply N. apply here_within in E. destruct E as (r & E). exists "", r. exact E.
  - apply IH. intros (a & b & ->). apply N. exists (String c a), b. reflexivity.
Qed.
Lemma app_len : forall a b, String.length (a ++ b)%string = String.length a + String.length b.
Proof. induction a as [| c a IH]; intro b; cbn; [reflexivity | rewrite IH; reflexivity]. Qed.
(** The first place where the text occurs is the one looked at. *)
Lemma first_found : forall pre m rest,
  (forall a b, (pre ++ "module=" ++ m ++ rest)%string = (a ++ "module=" ++ b)%string -> String.length pre <= String.length a) ->
  m <> "" -> Plain m -> Stop rest -> module_in (pre ++ "module=" ++ m ++ rest)%string = Some m.
Proof.
  induction pre as [| c pre IH]; intros m rest F N P S.
  - change ("" ++ "module=" ++ m ++ rest)%string with ("module=" ++ m ++ rest)%string.
    assert (H := here_found m rest N P S). destruct ("module=" ++ m ++ rest)%string as [| c s]; [discriminate |]. cbn [module_in]. rewrite H. reflexivity.
  - change (String c pre ++ "module=" ++ m ++ rest)%string with (String c (pre ++ "module=" ++ m ++ rest)) in *. cbn [module_in].
    destruct (module_here _) as [n |] eqn:E.
    + exfalso. apply here_within in E. destruct E as (r & E). specialize (F "" r E). cbn in F. lia.
    + apply IH; auto. intros a b G. specialize (F (String c a) b). cbn [String.append String.length] in F. rewrite <- Nat.succ_le_mono in F. apply F. cbn. f_equal. exact G.
Qed.

Lemma app_split : forall a pre s t, (pre ++ s)%string = (a ++ t)%string -> String.length a <= String.length pre -> exists x, pre = (a ++ x)%string /\ (x ++ s)%string = t.
Proof.
  induction a as [| c a IH]; intros pre s t H L; [exists pre; split; [reflexivity | exact H] |].
  destruct pre as [| d pre]; [cbn in L; lia |]. cbn in H, L. injection H as E H. destruct (IH pre s t H) as (x & -> & X); [lia |]. exists x. subst. auto.
Qed.
Lemma fresh_first : forall pre z, ~ Within "module=" pre ->
  forall a b, (pre ++ "module=" ++ z)%string = (a ++ "module=" ++ b)%string -> String.length pre <= String.length a.
Proof.
  intros pre z N a b H. destruct (le_lt_dec (String.length pre) (String.length a)) as [L | L]; [exact L | exfalso].
  destruct (app_split a pre _ _ H (Nat.lt_le_incl _ _ L)) as (x & -> & X).
  rewrite app_len in L. clear H.
  destruct x as [| c1 x]; [cbn in L; lia |]. apply N. clear L N. exists a.
  cbn in X. injection X as -> X.
  do 6 (destruct x as [| ?c x]; [discriminate |]; cbn in X; injection X as -> X). exists x. reflexivity.
Qed.

Lemma params_split : forall before p after, exists rest, Stop rest /\ params (before ++ p :: after) = (params (before ++ [""]) ++ p ++ rest)%string.
Proof.
  intros before p after. exists (match after with [] => "" | _ => ("&" ++ params after)%string end). split.
  - destruct after; cbn; [exact I |]. unfold PlainChar. cbn. lia.
  - assert (X : forall s, (s ++ "")%string = s) by (induction s as [| c s IH]; cbn; congruence).
    induction before as [| q before IH]; cbn [app].
    + cbn [params]. destruct after; cbn [String.append]; [rewrite X; reflexivity | reflexivity].
    + assert (P : forall l, l <> [] -> params (q :: l) = (q ++ "&" ++ params l)%string) by (intros [| b l] Hl; [congruence | reflexivity]).
      rewrite (P (before ++ p :: after)) by (destruct before; discriminate). rewrite (P (before ++ [""])) by (destruct before; discriminate).
      rewrite IH, !app_s_assoc. reflexivity.
Qed.
Lemma tells_ok : forall c o, Tells c o -> module_in c = o.
Proof.
  intros c o [uri before m after N P W | c' W]; [| apply none_found; exact W].
  unfold capability in *. destruct (params_split before ("module=" ++ m)%string after) as (rest & S & ->).
  replace (uri ++ "?" ++ params (before ++ [""]) ++ ("module=" ++ m) ++ rest)%string with ((uri ++ "?" ++ params (before ++ [""])) ++ "module=" ++ m ++ rest)%string by (rewrite !app_s_assoc; reflexivity).
  apply first_found; auto. apply fresh_first. exact W.
Qed.
Theorem caps_ok : forall caps ms, Forall2 Tells caps ms -> SortedOf (from_caps caps) (flat_map (fun o => match o with Some m => [m] | None => [] end) ms).
Proof.
  intros caps ms F. unfold from_caps.
  replace (flat_map (fun o : option string => match o with Some m => [m] | None => [] end) ms) with (flat_map (fun c => match module_in c with Some n => [n] | None => [] end) caps); [apply sort_ok |].
  induction F as [| c o caps ms T F IH]; [reflexivity |]. cbn [flat_map]. rewrite (tells_ok c o T), IH. reflexivity.
Qed.

Lemma here_sound : forall s n, module_here s = Some n -> n <> "" /\ Plain n /\ exists r, s = ("module=" ++ n ++ r)%string /\ Stop r.
Proof.
  intros s n H. unfold module_here in H. destruct (starts "module=" s) eqn:E; [| discriminate]. apply starts_eq in E. change (String.length "module=") with 7 in E.
  destruct (span name_char (sdrop 7 s)) as (a, b) eqn:S. destruct (span_ok _ _ _ _ S) as (A & B & C). cbn [fst] in H.
  assert (a = n) as -> by (destruct a; congruence). split; [intro X; subst n; discriminate |]. split; [apply plain_all; exact B |].
  exists b. split; [rewrite <- A; exact E | apply stop_ok; exact C].
Qed.
Lemma in_sound : forall s n, module_in s = Some n -> n <> "" /\ Plain n /\ exists a r, s = (a ++ "module=" ++ n ++ r)%string /\ Stop r.
Proof.
  induction s as [| c s IH]; intros n H; cbn [module_in] in H.
  - vm_compute in H. discriminate.
  - destruct (module_here (String c s)) as [m |] eqn:E.
    + assert (m = n) by congruence. subst m. destruct (here_sound _ _ E) as (A & B & r & C & D). split; [exact A |]. split; [exact B |]. exists "", r. split; [exact C | exact D].
    + destruct (IH n H) as (A & B & a & r & -> & D). split; [exact A |]. split; [exact B |]. exists (String c a), r. split; [reflexivity | exact D].
Qed.
Theorem caps_sound : forall caps n, In n (from_caps caps) -> n <> "" /\ Plain n /\ exists c a r, In c caps /\ c = (a ++ "module=" ++ n ++ r)%string /\ Stop r.
Proof.
  intros caps n I. unfold from_caps in I. apply (Permutation_in _ (proj1 (sort_ok _))) in I. apply in_flat_map in I. destruct I as (c & I & H).
  destruct (module_in c) as [m |] eqn:E; [| destruct H]. destruct H as [<- | []]. destruct (in_sound _ _ E) as (A & B & a & r & C & D).
  split; [exact A |]. split; [exact B |]. exists c, a, r. auto.
Qed.

(** ** The property *)
Theorem loadable_kept : forall sv kept l q k, models_loadable sv kept = (l, q, k) ->
  k = Some l /\ (kept <> None -> kept = Some l /\ q = []) /\ forall sv', models_loadable sv' k = (l, [], k).
Proof.
  intros sv kept l q k H. assert (k = Some l) as ->.
  { unfold models_loadable in H. destruct kept as [l0 |]; [congruence |]. destruct (if has_cap monitoring_ns _ then _ else _); [congruence |].
    destruct (if has_cap yang_lib_1_0 _ then _ else _); congruence. }
  split; [reflexivity |]. split; [| reflexivity]. intro N. destruct kept as [l0 |]; [| congruence]. cbn in H. split; congruence.
Qed.

(** What a request gives *)
Definition Gives (sv : server) (r : req) (l : list (option string)) : Prop :=
  attempt (match r with AskMonitoring => monitoring_path | AskLibrary => library_path end) (sv_answer sv r) = Some l.
Lemma offers_dec : forall sv p, (Offers sv p /\ has_cap p (sv_caps sv) = true) \/ (~ Offers sv p /\ has_cap p (sv_caps sv) = false).
Proof. intros sv p. destruct (has_cap p (sv_caps sv)) eqn:E; [left | right]; split; auto; [apply has_cap_ok; exact E |]. intro O. apply has_cap_ok in O. congruence. Qed.
Lemma order_gives : forall sv,
  (forall l, Offers sv monitoring_ns -> Gives sv AskMonitoring l -> models_loadable sv None = (l, [AskMonitoring], Some l)) /\
  ((Offers sv monitoring_ns -> forall l, ~ Gives sv AskMonitoring l) ->
    exists q, (In AskMonitoring q <-> Offers sv monitoring_ns) /\ (In AskLibrary q <-> Offers sv yang_lib_1_0) /\ NoDup q /\
    (forall l, Offers sv yang_lib_1_0 -> Gives sv AskLibrary l -> models_loadable sv None = (l, q, Some l)) /\
    ((Offers sv yang_lib_1_0 -> forall l, ~ Gives sv AskLibrary l) ->
      models_loadable sv None = (map Some (from_caps (sv_caps sv)), q, Some (map Some (from_caps (sv_caps sv)))))).
Proof.
  intro sv. unfold models_loadable, Gives. cbv zeta.
  destruct (offers_dec sv monitoring_ns) as [(O1 & ->) | (O1 & ->)]; destruct (offers_dec sv yang_lib_1_0) as [(O2 & ->) | (O2 & ->)]; cbv iota;
    (split; [intros l O G; try contradiction; rewrite G; reflexivity |]); intro F.
  all: try (assert (attempt monitoring_path (sv_answer sv AskMonitoring) = None) as -> by (destruct (attempt monitoring_path (sv_answer sv AskMonitoring)) as [l0 |]; [exfalso; apply (F O1 l0); reflexivity | reflexivity])).
  all: eexists; split; [| split; [| split; [| split; [intros l O G; try contradiction; rewrite G; reflexivity |]]]].
  all: try (intro F2; try (assert (attempt library_path (sv_answer sv AskLibrary) = None) as -> by (destruct (attempt library_path (sv_answer sv AskLibrary)) as [l0 |]; [exfalso; apply (F2 O2 l0); reflexivity | reflexivity])); reflexivity).
  all: cbn [app In]; try (split; intro H; tauto || (intuition discriminate)).
  all: repeat constructor; cbn; intuition discriminate.
Qed.

Lemma texts_some : forall l, (forall y, In y l -> xtext y <> None) -> exists l', map xtext l = map Some l'.
Proof.
  induction l as [| y l IH]; intro H; [exists []; reflexivity |]. destruct IH as (l' & E); [intros z I; apply H; right; exact I |].
  destruct (xtext y) as [s |] eqn:T; [| exfalso; apply (H y (or_introl eq_refl)); exact T]. exists (s :: l'). cbn [map]. rewrite T, E. reflexivity.
Qed.
Lemma attempt_lists : forall ps x, ps <> [] -> Texts x ps -> exists l, Lists x ps l /\ attempt ps (Replied x) = Some (map Some l).
Proof.
  intros ps x N T. destruct (texts_some (select ps [x])) as (l0 & E).
  { intros y I. apply (select_reached ps [x] y N) in I. destruct I as (x' & [<- | []] & R). apply (T y R). }
  destruct (sorted_texts_some l0) as (l & S & P & A). exists l.
  assert (AT : attempt ps (Replied x) = Some (map Some l)) by (unfold attempt; rewrite E, S; reflexivity).
  split; [| exact AT]. split; [exact A |]. intro s. rewrite <- (attempt_in ps x _ N AT (Some s)). rewrite in_map_iff. split.
  - intro I. exists s. auto.
  - intros (s' & E' & I). assert (s' = s) by congruence. subst. exact I.
Qed.
(** ** Positions *)
Lemma select_app : forall ps a b, select ps (a ++ b) = select ps a ++ select ps b.
Proof.
  induction ps as [| p ps IH]; intros a b; [reflexivity |]. destruct ps as [| q ps].
  - cbn [select]. apply filter_app.
  - change (select (p :: q :: ps)) with (fun l => select (q :: ps) (flat_map xkids (filter (fun x => String.eqb (xtag x) p) l))). cbv beta.
    rewrite filter_app, flat_map_app. apply IH.
Qed.
Lemma select_below : forall x q ps, select (xtag x :: q :: ps) [x] = select (q :: ps) (xkids x).
Proof.
  intros x q ps. change (select (xtag x :: q :: ps) [x]) with (select (q :: ps) (flat_map xkids (filter (fun y => String.eqb (xtag y) (xtag x)) [x]))).
  cbn [filter]. rewrite String.eqb_refl. cbn [flat_map]. rewrite app_nil_r. reflexivity.
Qed.
Lemma at_ps : forall x i ps y, At x i ps y -> ps <> [].
Proof. intros x i ps y H. inversion H; discriminate. Qed.
Lemma at_reached : forall x i ps y, At x i ps y -> Reached x ps y.
Proof. intros x i ps y H. induction H as [x | x i k is ps y N A IH]; [constructor |]. apply re_below with (k := k); [exact (nth_error_In _ _ N) | exact IH]. Qed.
Lemma reached_at : forall x ps y, Reached x ps y -> exists i, At x i ps y.
Proof.
  intros x ps y H. induction H as [x | x k ps y I R (i & A)]; [exists []; constructor |]. apply In_nth_error in I. destruct I as (n & N).
  exists (n :: i). econstructor; eauto.
Qed.
Lemma at_in : forall x i ps y, At x i ps y -> In y (select ps [x]).
Proof. intros x i ps y A. apply select_reached; [exact (at_ps _ _ _ _ A) |]. exists x. split; [left; reflexivity | exact (at_reached _ _ _ _ A)]. Qed.
Lemma in_some : forall (y : xml) l, In y l -> 1 <= List.length l.
Proof. intros y [| a l] I; [destruct I | cbn; lia]. Qed.
Lemma two_kids : forall ps l i j k k' y z, nth_error l i = Some k -> nth_error l j = Some k' -> i < j ->
  In y (select ps [k]) -> In z (select ps [k']) -> 2 <= List.length (select ps l).
Proof.
  intros ps l i j k k' y z Ni Nj L Iy Iz. destruct (nth_error_split _ _ Ni) as (a & b & -> & La).
  rewrite nth_error_app2 in Nj by lia. destruct (j - List.length a) as [| n] eqn:Ej; [lia |]. cbn [nth_error] in Nj.
  destruct (nth_error_split _ _ Nj) as (c & d & -> & _).
  change (a ++ k :: c ++ k' :: d) with (a ++ [k] ++ c ++ [k'] ++ d). rewrite !select_app, !app_length.
  apply in_some in Iy. apply in_some in Iz. lia.
Qed.
Lemma two_found : forall x i ps y, At x i ps y -> forall j z, At x j ps z -> i <> j -> 2 <= List.length (select ps [x]).
Proof.
  intros x i ps y A. induction A as [x | x i k is ps y N A IH]; intros j z B D.
  - inversion B as [x0 | x0 i0 k0 is0 ps0 y0 N0 A0]; subst; [congruence | inversion A0].
  - destruct ps as [| q ps]; [inversion A |]. inversion B as [x0 | x0 i0 k0 is0 ps0 y0 N0 A0]; subst. rewrite select_below.
    destruct (Nat.lt_trichotomy i i0) as [L | [-> | L]].
    + exact (two_kids _ _ _ _ _ _ _ _ N N0 L (at_in _ _ _ _ A) (at_in _ _ _ _ A0)).
    + rewrite N in N0. injection N0 as <-. assert (G := IH _ _ A0 ltac:(congruence)).
      destruct (nth_error_split _ _ N) as (a & b & -> & _). change (a ++ k :: b) with (a ++ [k] ++ b). rewrite !select_app, !app_length. lia.
    + exact (two_kids _ _ _ _ _ _ _ _ N0 N L (at_in _ _ _ _ A0) (at_in _ _ _ _ A)).
Qed.
Lemma has_none : forall l, In None l -> all_some l = None.
Proof. induction l as [| [s |] l IH]; intro I; [destruct I | | reflexivity]. destruct I as [D | I]; [discriminate |]. cbn. rewrite (IH I). reflexivity. Qed.
Lemma mixed_none : forall ps x, Mixed x ps -> attempt ps (Replied x) = None.
Proof.
  intros ps x (i & j & y & z & D & A & B & T). assert (L := two_found _ _ _ _ A _ _ B D). assert (I := at_in _ _ _ _ A).
  unfold attempt. apply (in_map xtext) in I. rewrite T in I. rewrite <- (map_length xtext) in L.
  destruct (map xtext (select ps [x])) as [| a [| b l]]; cbn [List.length] in L; try lia. unfold sorted_texts. rewrite (has_none _ I). destruct a; reflexivity.
Qed.
Lemma failed_none : forall a ps l, Failed a ps -> attempt ps a <> Some l.
Proof. intros a ps l [-> | [-> | (x & -> & M)]]; [discriminate | discriminate |]. rewrite (mixed_none ps x M). discriminate. Qed.

(** Conversely, a list of two elements has two positions. *)
Lemma in_at : forall ps l y, ps <> [] -> In y (select ps l) -> exists a k i, nth_error l a = Some k /\ At k i ps y.
Proof.
  intros ps l y N I. apply (select_reached ps l y N) in I. destruct I as (k & I & R). apply In_nth_error in I. destruct I as (a & E).
  apply reached_at in R. destruct R as (i & A). eauto.
Qed.
Lemma long_in : forall (l : list xml), 1 <= List.length l -> exists y, In y l.
Proof. intros [| y l] L; [cbn in L; lia | exists y; left; reflexivity]. Qed.
Lemma short_filter : forall (f : xml -> bool) x, List.length (filter f [x]) <= 1.
Proof. intros f x. cbn [filter]. destruct (f x); cbn; lia. Qed.
Lemma forest_two : forall ps l, ps <> [] -> 2 <= List.length (select ps l) ->
  exists a b k k' i j y z, nth_error l a = Some k /\ nth_error l b = Some k' /\ At k i ps y /\ At k' j ps z /\ (a :: i) <> (b :: j).
Proof.
  induction ps as [| p ps IHp]; intros l N; [congruence |]. induction l as [| x l IHl]; intro L.
  - exfalso. assert (E : select (p :: ps) [] = []) by (clear; revert p; induction ps as [| q ps IH]; intro p; [reflexivity | exact (IH q)]). rewrite E in L. cbn in L. lia.
  - change (x :: l) with ([x] ++ l) in L. rewrite select_app, app_length in L.
    destruct (le_lt_dec 2 (List.length (select (p :: ps) l))) as [G | G].
    { destruct (IHl G) as (a & b & k & k' & i & j & y & z & E1 & E2 & A & B & D). exists (S a), (S b), k, k', i, j, y, z.
      repeat (split; [assumption |]). congruence. }
    destruct (le_lt_dec 2 (List.length (select (p :: ps) [x]))) as [H | H].
    { destruct ps as [| q ps].
      - exfalso. cbn [select] in H. assert (F := short_filter (fun y => String.eqb (xtag y) p) x). lia.
      - destruct (String.eqb (xtag x) p) eqn:E.
        + apply String.eqb_eq in E. subst p. rewrite select_below in H.
          destruct (IHp (xkids x) ltac:(discriminate) H) as (a & b & k & k' & i & j & y & z & E1 & E2 & A & B & D).
          exists 0, 0, x, x, (a :: i), (b :: j), y, z. repeat (split; [reflexivity |]). split; [econstructor; eassumption |]. split; [econstructor; eassumption | congruence].
        + exfalso. change (select (p :: q :: ps) [x]) with (select (q :: ps) (flat_map xkids (filter (fun y => String.eqb (xtag y) p) [x]))) in H.
          cbn [filter] in H. rewrite E in H. cbn [flat_map] in H.
          assert (E' : forall r, select r [] = []) by (clear; induction r as [| q [| q' r] IH]; [reflexivity | reflexivity | exact IH]). rewrite E' in H. cbn in H. lia. }
    destruct (long_in (select (p :: ps) [x])) as (y & Iy); [lia |]. destruct (long_in (select (p :: ps) l)) as (z & Iz); [lia |].
    destruct (in_at _ _ _ N Iy) as (a & k & i & E1 & A). destruct (in_at _ _ _ N Iz) as (b & k' & j & E2 & B).
    destruct a as [| a]; [| destruct a; discriminate]. exists 0, (S b), k, k', i, j, y, z. repeat (split; [assumption |]). congruence.
Qed.
Lemma found_two : forall ps x, ps <> [] -> 2 <= List.length (select ps [x]) -> exists i j y z, i <> j /\ At x i ps y /\ At x j ps z.
Proof.
  intros ps x N L. destruct (forest_two ps [x] N L) as (a & b & k & k' & i & j & y & z & E1 & E2 & A & B & D).
  destruct a as [| [| a]]; [| discriminate | discriminate]. destruct b as [| [| b]]; [| discriminate | discriminate].
  cbn in E1, E2. injection E1 as <-. injection E2 as <-. exists i, j, y, z. split; [congruence | auto].
Qed.
Lemma alone_none : forall ps x, ps <> [] -> Alone x ps -> attempt ps (Replied x) = Some [None].
Proof.
  intros ps x N (i & y & A & T & U). assert (I := at_in _ _ _ _ A). unfold attempt.
  destruct (le_lt_dec 2 (List.length (select ps [x]))) as [L | L].
  - exfalso. destruct (found_two ps x N L) as (j & j' & z & z' & D & B & B'). apply U in B. apply U in B'. congruence.
  - destruct (select ps [x]) as [| y' [| y'' l]]; [destruct I | | cbn in L; lia]. destruct I as [-> | []]. cbn [map]. rewrite T. reflexivity.
Qed.
(** Every reply is of one of the three kinds. *)
Theorem reply_kinds : forall ps x, ps <> [] -> Texts x ps \/ Mixed x ps \/ Alone x ps.
Proof.
  intros ps x N. destruct (all_some (map xtext (select ps [x]))) as [l |] eqn:E.
  - left. intros y R T. apply all_some_ok in E. assert (I : In y (select ps [x])) by (apply select_reached; [exact N |]; exists x; split; [left; reflexivity | exact R]).
    apply (in_map xtext) in I. rewrite T, E in I. apply in_map_iff in I. destruct I as (s & D & _). discriminate.
  - right. assert (I : exists y, In y (select ps [x]) /\ xtext y = None).
    { revert E. generalize (select ps [x]). induction l as [| y l IH]; intro E; [discriminate |]. cbn [map all_some] in E.
      destruct (xtext y) as [s |] eqn:T; [| exists y; split; [left; reflexivity | exact T]].
      destruct (all_some (map xtext l)); [discriminate |]. destruct (IH eq_refl) as (z & I & T'). exists z. split; [right; exact I | exact T']. }
    destruct I as (y & I & T). destruct (in_at _ _ _ N I) as (a & k & i & E1 & A). destruct a as [| [| a]]; [| discriminate | discriminate]. cbn in E1. injection E1 as <-.
    destruct (le_lt_dec 2 (List.length (select ps [x]))) as [L | L].
    + left. destruct (found_two ps x N L) as (j & j' & z & z' & D & B & B'). destruct (list_eq_dec Nat.eq_dec i j) as [-> | Dj].
      * exists j, j', y, z'. auto.
      * exists i, j, y, z. auto.
    + right. exists i, y. split; [exact A |]. split; [exact T |]. intros j z B. destruct (list_eq_dec Nat.eq_dec j i) as [D | D]; [exact D |].
      assert (G := two_found _ _ _ _ B _ _ A D). lia.
Qed.
Theorem loadable_order : forall sv,
  (forall x, Offers sv ncm -> sv_answer sv AskMonitoring = Replied x -> Texts x schemas_path ->
    exists l, Lists x schemas_path l /\ models_loadable sv None = (map Some l, [AskMonitoring], Some (map Some l))) /\
  ((Offers sv ncm -> Failed (sv_answer sv AskMonitoring) schemas_path) ->
    exists q, (In AskMonitoring q <-> Offers sv ncm) /\ (In AskLibrary q <-> Offers sv lib_cap) /\ NoDup q /\
    (forall x, Offers sv lib_cap -> sv_answer sv AskLibrary = Replied x -> Texts x lib_path ->
      exists l, Lists x lib_path l /\ models_loadable sv None = (map Some l, q, Some (map Some l))) /\
    ((Offers sv lib_cap -> Failed (sv_answer sv AskLibrary) lib_path) -> forall ms, Forall2 Tells (sv_caps sv) ms ->
      exists l, SortedOf l (flat_map (fun o => match o with Some m => [m] | None => [] end) ms) /\
      models_loadable sv None = (map Some l, q, Some (map Some l)))).
Proof.
  intro sv. destruct (order_gives sv) as (A & B). split.
  - intros x O E T. destruct (attempt_lists schemas_path x) as (l & L & AT); [discriminate | exact T |]. exists l. split; [exact L |].
    apply A; [exact O |]. unfold Gives. rewrite E. exact AT.
  - intro F. destruct B as (q & Q1 & Q2 & Q3 & B1 & B2).
    { intros O l G. unfold Gives in G. revert G. exact (failed_none _ _ l (F O)). }
    exists q. split; [exact Q1 |]. split; [exact Q2 |]. split; [exact Q3 |]. split.
    + intros x O E T. destruct (attempt_lists lib_path x) as (l & L & AT); [discriminate | exact T |]. exists l. split; [exact L |].
      apply B1; [exact O |]. unfold Gives. rewrite E. exact AT.
    + intros F2 ms T. exists (from_caps (sv_caps sv)). split; [apply caps_ok; exact T |]. apply B2. intros O l G. unfold Gives in G.
      revert G. exact (failed_none _ _ l (F2 O)).
Qed.

(** ** The only identifier has no text *)
Theorem loadable_alone : forall sv x,
  (Offers sv ncm -> sv_answer sv AskMonitoring = Replied x -> Alone x schemas_path ->
    models_loadable sv None = ([None], [AskMonitoring], Some [None])) /\
  ((Offers sv ncm -> Failed (sv_answer sv AskMonitoring) schemas_path) ->
    Offers sv lib_cap -> sv_answer sv AskLibrary = Replied x -> Alone x lib_path -> exists q, models_loadable sv None = ([None], q, Some [None])).
Proof.
  intros sv x. destruct (order_gives sv) as (G & H). split.
  - intros O E A. apply G; [exact O |]. unfold Gives. rewrite E. apply (alone_none schemas_path x); [discriminate | exact A].
  - intros F O E A. destruct H as (q & _ & _ & _ & B & _).
    { intros O' l G'. revert G'. exact (failed_none _ _ l (F O')). }
    exists q. apply B; [exact O |]. unfold Gives. rewrite E. apply (alone_none lib_path x); [discriminate | exact A].
Qed.

Lemma pick_named : forall u n t ks l, filter (fun x => String.eqb (xtag x) (qn u n)) (named u n t ks :: l) = named u n t ks :: filter (fun x => String.eqb (xtag x) (qn u n)) l.
Proof. intros u n t ks l. cbn [filter]. unfold named at 1. cbn [xtag]. unfold qn. rewrite String.eqb_refl. reflexivity. Qed.
Lemma select_step : forall u n t ks q ps, select (qn u n :: q :: ps) [named u n t ks] = select (q :: ps) ks.
Proof.
  intros u n t ks q ps. change (select (qn u n :: q :: ps) [named u n t ks]) with (select (q :: ps) (flat_map xkids (filter (fun x => String.eqb (xtag x) (qn u n)) [named u n t ks]))).
  rewrite pick_named. cbn [filter flat_map]. unfold named. cbn [xkids]. rewrite app_nil_r. reflexivity.
Qed.
Lemma schemas_selected : forall l, Forall Leaves l -> map xtext (select monitoring_path [schemas_reply l]) = map Some (map sc_id l).
Proof.
  intros l F. unfold monitoring_path, schemas_reply. change nc_url with nc. change monitoring_ns with ncm. rewrite !select_step.
  set (p := qn ncm "schema"). set (q := qn ncm "identifier").
  change (select [p; q] (map schema_xml l)) with (filter (fun x => String.eqb (xtag x) q) (flat_map xkids (filter (fun x => String.eqb (xtag x) p) (map schema_xml l)))).
  subst p q. induction F as [| s l H F IH]; [reflexivity |].
  cbn [map]. unfold schema_xml at 1. rewrite pick_named. cbn [flat_map]. unfold named at 1. cbn [xkids]. rewrite filter_app, map_app, IH. 
  assert (Z : forall k, (forall x, In x k -> xtag x <> ("{" ++ ncm ++ "}identifier")%string) -> filter (fun x => String.eqb (xtag x) (qn ncm "identifier")) k = []).
  { induction k as [| x k IHk]; intro Hk; [reflexivity |]. cbn [filter]. destruct (String.eqb_spec (xtag x) (qn ncm "identifier")) as [E | E].
    - exfalso. apply (Hk x (or_introl eq_refl)). exact E.
    - apply IHk. intros y Hy. apply Hk. right. exact Hy. }
  rewrite filter_app, (Z (sc_before s)) by (intros x Hx; apply H; apply in_app_iff; auto). cbn [app]. rewrite pick_named.
  rewrite (Z (sc_after s)) by (intros x Hx; apply H; apply in_app_iff; auto). reflexivity.
Qed.
Theorem loadable_schemas : forall sv l, Offers sv ncm -> Forall Leaves l -> sv_answer sv AskMonitoring = Replied (schemas_reply l) ->
  exists names, models_loadable sv None = (map Some names, [AskMonitoring], Some (map Some names)) /\ SortedOf names (map sc_id l).
Proof.
  intros sv l O F A. destruct (sorted_texts_some (map sc_id l)) as (names & E & S). exists names. split; [| exact S].
  apply (proj1 (order_gives sv)); [exact O |]. unfold Gives. rewrite A. unfold attempt. rewrite (schemas_selected l F), E. reflexivity.
Qed.
(** ** Counterexamples *)
Theorem library_empty : forall sv l, ~ Offers sv ncm -> Offers sv lib_cap -> sv_answer sv AskLibrary = Replied (library_reply l) ->
  models_loadable sv None = ([], [AskLibrary], Some []).
Proof.
  intros sv l N O A. destruct (proj2 (order_gives sv)) as (q & _ & _ & _ & _ & _); [intro X; contradiction |].
  unfold models_loadable. cbv zeta. destruct (offers_dec sv monitoring_ns) as [(O1 & _) | (_ & ->)]; [contradiction |].
  destruct (offers_dec sv yang_lib_1_0) as [(_ & ->) | (O2 & _)]; [| contradiction]. rewrite A. reflexivity.
Qed.
Theorem name_cut : forall uri before a c b after, a <> "" -> Plain a -> ~ PlainChar c -> ~ Within "module=" (capability uri (before ++ [""])) ->
  module_in (capability uri (before ++ ("module=" ++ a ++ String c b)%string :: after)) = Some a.
Proof.
  intros uri before a c b after N P C W. unfold capability in *. destruct (params_split before ("module=" ++ a ++ String c b)%string after) as (rest & S & ->).
  replace (uri ++ "?" ++ params (before ++ [""]) ++ ("module=" ++ a ++ String c b) ++ rest)%string with ((uri ++ "?" ++ params (before ++ [""])) ++ "module=" ++ a ++ (String c b ++ rest))%string by (rewrite !app_s_assoc; reflexivity).
  apply first_found; auto. apply fresh_first. exact W.
Qed.
Theorem listed_twice : forall sv l, Offers sv ncm -> Forall Leaves l -> sv_answer sv AskMonitoring = Replied (schemas_reply l) ->
  ~ NoDup (map sc_id l) -> ~ NoDup (fst (fst (models_loadable sv None))).
Proof.
  intros sv l O F A N D. destruct (loadable_schemas sv l O F A) as (names & E & P & _). rewrite E in D. cbn [fst] in D. apply NoDup_map_inv in D.
  apply N. apply (Permutation_NoDup P). exact D.
Qed.
