(** Proofs about the compiler helpers. *)
From Coq Require Import String Ascii List Bool Arith NArith Lia.
From Verif Require Import Base BaseP XmlM ConfigM TagP DeviceP CompileM CompileSpec.
Import ListNotations.
Open Scope string_scope.
Open Scope list_scope.
Open Scope nat_scope.

(** ** Revisions *)

Lemma digit_compare : forall a b, Ascii.compare (digit a) (digit b) = Nat.compare (a mod 10) (b mod 10).
Proof.
  assert (D : forall x y, x < 10 -> y < 10 ->
    Ascii.compare (ascii_of_nat (48 + x)) (ascii_of_nat (48 + y)) = Nat.compare x y).
  { intros x y Hx Hy. do 10 (destruct x as [|x]; [do 10 (destruct y as [|y]; [reflexivity|]); lia|]). lia. }
  intros a b. apply D; apply Nat.mod_upper_bound; lia.
Qed.

Definition lex (a b : comparison) : comparison := match a with Eq => b | c => c end.

Lemma compare_cons : forall c d s t, String.compare (String c s) (String d t) = lex (Ascii.compare c d) (String.compare s t).
Proof. intros. cbn. destruct (Ascii.compare c d); reflexivity. Qed.

Lemma compare_div : forall n m, Nat.compare n m = lex (Nat.compare (n / 10) (m / 10)) (Nat.compare (n mod 10) (m mod 10)).
Proof.
  intros n m. pose proof (Nat.div_mod n 10) as E1. pose proof (Nat.div_mod m 10) as E2.
  pose proof (Nat.mod_upper_bound n 10) as B1. pose proof (Nat.mod_upper_bound m 10) as B2.
  destruct (Nat.compare_spec (n / 10) (m / 10)); cbn [lex].
  - destruct (Nat.compare_spec (n mod 10) (m mod 10)); [apply Nat.compare_eq_iff | apply Nat.compare_lt_iff | apply Nat.compare_gt_iff]; lia.
  - apply Nat.compare_lt_iff. lia.
  - apply Nat.compare_gt_iff. lia.
Qed.

Lemma lex_assoc : forall a b c, lex (lex a b) c = lex a (lex b c).
Proof. destruct a; auto. Qed.

Lemma compare_small : forall n m, n < 10 -> m < 10 -> Nat.compare n m = Nat.compare (n mod 10) (m mod 10).
Proof. intros. rewrite !Nat.mod_small by auto. reflexivity. Qed.

Lemma compare_two : forall n m s t, n < 100 -> m < 100 ->
  String.compare (two n s) (two m t) = lex (Nat.compare n m) (String.compare s t).
Proof.
  intros n m s t Hn Hm. unfold two. rewrite !compare_cons, !digit_compare, (compare_div n m), lex_assoc.
  rewrite (compare_small (n / 10) (m / 10)); auto; apply Nat.div_lt_upper_bound; lia.
Qed.

Lemma compare_four : forall n m s t, n < 100 * 100 -> m < 100 * 100 ->
  String.compare (four n s) (four m t) = lex (Nat.compare n m) (String.compare s t).
Proof.
  intros n m s t Hn Hm. unfold four. rewrite !compare_cons, !digit_compare.
  rewrite (compare_div n m), (compare_div (n / 10) (m / 10)), !Nat.div_div by lia.
  rewrite (compare_div (n / (10 * 10)) (m / (10 * 10))), !Nat.div_div by lia.
  rewrite !lex_assoc. change (10 * 10 * 10) with 1000. change (10 * 10) with 100.
  rewrite (compare_small (n / 1000) (m / 1000)); auto; apply Nat.div_lt_upper_bound; lia.
Qed.

Definition cmp_date (a b : date) : comparison :=
  lex (Nat.compare (yr a) (yr b)) (lex (Nat.compare (mo a) (mo b)) (Nat.compare (dy a) (dy b))).

Lemma compare_written : forall a b, Valid a -> Valid b -> String.compare (written a) (written b) = cmp_date a b.
Proof.
  intros a b (Ya & Ma & Da) (Yb & Mb & Db). unfold written, cmp_date.
  rewrite compare_four by auto. f_equal. rewrite compare_cons. cbn [lex].
  assert (Ascii.compare "-" "-" = Eq) as -> by reflexivity. cbn [lex].
  rewrite compare_two by auto. f_equal. rewrite compare_cons.
  assert (Ascii.compare "-" "-" = Eq) as -> by reflexivity. cbn [lex].
  rewrite compare_two by auto. destruct (Nat.compare (dy a) (dy b)); reflexivity.
Qed.

Lemma gt_later : forall a b, Valid a -> Valid b -> (str_gt (written a) (written b) = true <-> Later a b).
Proof.
  intros a b Ha Hb. unfold str_gt. rewrite compare_written by auto. unfold cmp_date, Later.
  destruct (Nat.compare_spec (yr a) (yr b)); cbn [lex]; [|split; [discriminate|lia]|split; [lia|auto]].
  destruct (Nat.compare_spec (mo a) (mo b)); cbn [lex]; [|split; [discriminate|lia]|split; [lia|auto]].
  destruct (Nat.compare_spec (dy a) (dy b)); split; try discriminate; auto; lia.
Qed.

Lemma gt_irrefl : forall s, str_gt s s = false.
Proof.
  assert (forall s, String.compare s s = Eq) as R.
  { induction s as [|c s IHs]; auto. rewrite compare_cons, IHs. unfold Ascii.compare. rewrite BinNat.N.compare_refl. auto. }
  intros s. unfold str_gt. rewrite R. auto.
Qed.

Lemma same_not_later : forall a b, Valid a -> Valid b -> written a = written b -> ~ Later a b.
Proof. intros a b Ha Hb E L. apply gt_later in L; auto. rewrite E, gt_irrefl in L. discriminate. Qed.

(** A fold that keeps the greatest of the elements seen. *)
Lemma latest_inv : forall mods name l0 r,
  fold_left (fun latest '(n, r) =>
    if String.eqb n name && match latest with None => true | Some l => str_gt r l end
    then Some r else latest) mods l0 = Some r ->
  l0 = Some r \/ In (name, r) mods.
Proof.
  induction mods as [|[n x] mods IH]; intros name l0 r H; cbn [fold_left] in H; [auto|].
  destruct (IH _ _ _ H) as [E|E]; [|right; right; auto].
  destruct (String.eqb n name) eqn:En; cbn [andb] in E; [|auto].
  apply String.eqb_eq in En. subst n. destruct l0 as [l|]; [destruct (str_gt x l)|]; auto;
    injection E as ->; right; left; auto.
Qed.

Lemma latest_dates : forall mods name, (forall r, In (name, r) mods -> exists d, Valid d /\ r = written d) ->
  forall l0, (forall l, l0 = Some l -> exists d, Valid d /\ l = written d) ->
  forall r, fold_left (fun latest '(n, r) =>
    if String.eqb n name && match latest with None => true | Some l => str_gt r l end
    then Some r else latest) mods l0 = Some r ->
  forall d x, Valid d -> r = written d -> Valid x -> (l0 = Some (written x) \/ In (name, written x) mods) -> ~ Later x d.
Proof.
  induction mods as [|[n y] mods IH]; intros name HD l0 H0 r H d x Vd Er Vx Hx; cbn [fold_left] in H.
  - destruct Hx as [->|[]]. assert (written x = written d) as Hw by congruence.
    apply same_not_later; auto; congruence.
  - assert (HD' : forall r, In (name, r) mods -> exists d, Valid d /\ r = written d) by (intros; apply HD; right; auto).
    assert (Trans : forall a b c, ~ Later a b -> ~ Later b c -> ~ Later a c) by (unfold Later; lia).
    destruct (String.eqb n name) eqn:En; cbn [andb] in H.
    + apply String.eqb_eq in En. subst n.
      destruct (HD y (or_introl eq_refl)) as (dy0 & Vy & Ey).
      destruct l0 as [l|].
      * destruct (H0 l eq_refl) as (dl & Vl & El). destruct (str_gt y l) eqn:G.
        -- (* y is newer than l *)
           assert (Hy : ~ Later dy0 d).
           { eapply (IH name HD' (Some y)); eauto. intros z Z. injection Z as <-. eauto. left. congruence. }
           subst y l. apply gt_later in G; auto.
           destruct Hx as [Hx|[Hx|Hx]].
           ++ assert (written x = written dl) as Hx' by congruence. assert (~ Later x dl) by (apply same_not_later; auto).
              apply (Trans x dl d); auto. apply (Trans dl dy0 d); auto. unfold Later in *. lia.
           ++ assert (written x = written dy0) as Hx' by congruence. assert (~ Later x dy0) by (apply same_not_later; auto; congruence).
              apply (Trans x dy0 d); auto.
           ++ eapply (IH name HD' (Some (written dy0))); eauto. intros z Z. injection Z as <-. eauto.
        -- assert (Hl : ~ Later dl d).
           { eapply (IH name HD' (Some l)); eauto. left. congruence. }
           destruct Hx as [Hx|[Hx|Hx]]; [eapply (IH name HD' (Some l)); eauto | | eapply (IH name HD' (Some l)); eauto].
           injection Hx as Hx. apply (Trans x dl d); auto.
           intros L. apply gt_later in L; auto. rewrite <- El, <- Hx in L. congruence.
      * assert (Hy : ~ Later dy0 d).
        { eapply (IH name HD' (Some y)); eauto. intros z Z. injection Z as <-. eauto. left. congruence. }
        destruct Hx as [Hx|[Hx|Hx]]; [discriminate| |].
        -- assert (written x = written dy0) as Hx' by congruence. apply (Trans x dy0 d); auto.
           apply same_not_later; auto; congruence.
        -- eapply (IH name HD' (Some y)); eauto. intros z Z. injection Z as <-. eauto.
    + destruct Hx as [Hx|[Hx|Hx]]; [eapply IH; eauto | | eapply IH; eauto].
      injection Hx as -> _. rewrite String.eqb_refl in En. discriminate.
Qed.

Lemma latest_none : forall mods name l0,
  fold_left (fun latest '(n, r) =>
    if String.eqb n name && match latest with None => true | Some l => str_gt r l end
    then Some r else latest) mods l0 = None -> l0 = None /\ forall r, ~ In (name, r) mods.
Proof.
  induction mods as [|[n x] mods IH]; intros name l0 H; cbn [fold_left] in H; [auto|].
  destruct (IH _ _ H) as [E N]. destruct (String.eqb n name) eqn:En; cbn [andb] in E.
  - destruct l0 as [l|]; [destruct (str_gt x l)|]; discriminate.
  - split; auto. intros r [X|X]; [|eapply N; eauto]. injection X as -> _. rewrite String.eqb_refl in En. discriminate.
Qed.

Theorem latest_newest : forall mods name, (forall r, In (name, r) mods -> exists d, Valid d /\ r = written d) ->
  match latest_revision mods name with
  | None => forall r, ~ In (name, r) mods
  | Some r => In (name, r) mods /\
      forall d x, Valid d -> r = written d -> Valid x -> In (name, written x) mods -> ~ Later x d
  end.
Proof.
  intros mods name HD. unfold latest_revision.
  destruct (fold_left _ mods None) as [r|] eqn:E.
  - split; [destruct (latest_inv _ _ _ _ E) as [X|X]; [discriminate | auto]|].
    intros d x Vd Er Vx Hx. eapply (latest_dates mods name HD None); eauto. discriminate.
  - apply latest_none in E. tauto.
Qed.

Lemma unknown_gt : forall d, str_gt (written d) "unknown" = false /\ str_gt "unknown" (written d) = true.
Proof.
  assert (D : forall x, x < 10 -> Ascii.compare (ascii_of_nat (48 + x)) "u" = Lt /\
                              Ascii.compare "u" (ascii_of_nat (48 + x)) = Gt).
  { intros x Hx. do 10 (destruct x as [|x]; [split; reflexivity|]). lia. }
  intros d. destruct (D (yr d / 1000 mod 10)) as [D1 D2]; [apply Nat.mod_upper_bound; lia|].
  unfold str_gt, written, four. rewrite !compare_cons. unfold digit at 1.
  rewrite D1. cbn [lex]. split; auto. unfold digit at 1. rewrite D2. auto.
Qed.

Theorem unknown_wins : forall mods name, (forall r, In (name, r) mods -> r = "unknown" \/ exists d, Valid d /\ r = written d) ->
  In (name, "unknown") mods -> latest_revision mods name = Some "unknown".
Proof.
  intros mods name. unfold latest_revision.
  assert (G : forall mods l0, (forall r, In (name, r) mods -> r = "unknown" \/ exists d, Valid d /\ r = written d) ->
    l0 = Some "unknown" -> fold_left (fun latest '(n, r) =>
    if String.eqb n name && match latest with None => true | Some l => str_gt r l end
    then Some r else latest) mods l0 = Some "unknown").
  { induction mods0 as [|[n x] m IH]; intros l0 H E; auto. cbn [fold_left]. apply IH; [intros; apply H; right; auto|].
    subst l0. destruct (String.eqb n name) eqn:En; cbn [andb]; auto. apply String.eqb_eq in En. subst n.
    destruct (H x (or_introl eq_refl)) as [->|(d & _ & ->)]; [reflexivity|]. rewrite (proj1 (unknown_gt d)). auto. }
  assert (K : forall mods l0, (forall r, In (name, r) mods -> r = "unknown" \/ exists d, Valid d /\ r = written d) ->
    (l0 = None \/ l0 = Some "unknown" \/ exists d, l0 = Some (written d)) -> In (name, "unknown") mods ->
    fold_left (fun latest '(n, r) =>
    if String.eqb n name && match latest with None => true | Some l => str_gt r l end
    then Some r else latest) mods l0 = Some "unknown").
  { induction mods0 as [|[n x] m IH]; intros l0 H E Hin; [contradiction|]. cbn [fold_left].
    assert (H' : forall r, In (name, r) m -> r = "unknown" \/ exists d, Valid d /\ r = written d) by (intros; apply H; right; auto).
    destruct Hin as [X|X].
    - injection X as -> ->. apply G; auto. rewrite String.eqb_refl. cbn [andb].
      destruct E as [->|[->|(d & ->)]]; auto. rewrite (proj2 (unknown_gt d)). auto.
    - apply IH; auto. destruct (String.eqb n name) eqn:En; cbn [andb]; auto. apply String.eqb_eq in En. subst n.
      destruct (H x (or_introl eq_refl)) as [->|(d & _ & ->)].
      + destruct E as [->|[->|(d & ->)]]; auto. rewrite (proj2 (unknown_gt d)). auto.
      + destruct E as [->|[->|(d' & ->)]]; eauto.
        * rewrite (proj1 (unknown_gt d)). auto.
        * destruct (str_gt (written d) (written d')); eauto. }
  intros H Hin. apply K; auto.
Qed.

(** ** Splitting *)

Lemma split_none : forall c s, Without c s -> str_split c s = [s].
Proof.
  induction s as [|d s IH]; intros H; [reflexivity|]. destruct H as [Hd Hs]. cbn [str_split].
  destruct (Ascii.eqb d c) eqn:E; [apply Ascii.eqb_eq in E; contradiction|]. rewrite IH by auto. auto.
Qed.

Lemma split_first : forall c s t, Without c s -> str_split c (s ++ String c t)%string = s :: str_split c t.
Proof.
  induction s as [|d s IH]; intros t H; cbn [append str_split].
  - rewrite Ascii.eqb_refl. auto.
  - destruct H as [Hd Hs]. destruct (Ascii.eqb d c) eqn:E; [apply Ascii.eqb_eq in E; contradiction|].
    rewrite IH by auto. auto.
Qed.

Lemma split_two : forall p n, Without ":" p -> Without ":" n -> str_split ":" (p ++ ":" ++ n)%string = [p; n].
Proof. intros. cbn [append]. rewrite split_first, split_none; auto. Qed.

Lemma pair_inj : forall a b a' b', Without ":" a -> Without ":" b -> Without ":" a' -> Without ":" b' ->
  (a ++ ":" ++ b)%string = (a' ++ ":" ++ b')%string -> a = a' /\ b = b'.
Proof.
  intros a b a' b' Ha Hb Ha' Hb' E. apply (f_equal (str_split ":")) in E. rewrite !split_two in E by auto.
  injection E as -> ->. auto.
Qed.

(** ** Identities *)

Definition step (module : string) (d : iddeps) (x : mstmt * identity) : iddeps := add_identity module (fst x) d (snd x).

Lemma fold_map : forall module m l d, fold_left (step module) (map (pair m) l) d = fold_left (add_identity module m) l d.
Proof. induction l as [|i l IH]; intros d; [reflexivity|]. cbn [map fold_left]. rewrite IH. reflexivity. Qed.

Lemma deps_all : forall module ms d, identity_deps module ms d = fold_left (step module) (all_ids ms) d.
Proof.
  unfold identity_deps, all_ids. induction ms as [|m ms IH]; intros d; [reflexivity|].
  cbn [fold_left flat_map]. rewrite fold_left_app, IH. f_equal. unfold add_module.
  destruct (ms_module m); [rewrite fold_map|]; reflexivity.
Qed.

Notation key_of := (fun m i => (ms_name m ++ ":" ++ id_name i)%string).

Lemma get_set : forall k v k' (d : iddeps), assoc String.eqb k' (dset String.eqb k v d) =
  if String.eqb k' k then Some v else assoc String.eqb k' d.
Proof.
  intros. apply (assoc_dset' String.eqb str_eqb_ok).
Qed.

Lemma step_grow : forall module d x k v, assoc String.eqb k d = Some v ->
  exists v', assoc String.eqb k (step module d x) = Some (v ++ v').
Proof.
  intros module d [m i] k v H. unfold step, add_identity. cbn [fst snd].
  assert (Keep : exists v', assoc String.eqb k d = Some (v ++ v')) by (exists []; rewrite app_nil_r; auto).
  destruct (id_bases i) as [|b r].
  - destruct (assoc String.eqb (key_of m i) d) as [w|] eqn:E; [auto|]. rewrite get_set.
    destruct (String.eqb k (key_of m i)) eqn:E2; auto. apply String.eqb_eq in E2. subst k. congruence.
  - destruct (assoc String.eqb (base_key module m b) d) as [w|] eqn:E; rewrite get_set.
    + destruct (String.eqb k (base_key module m b)) eqn:E2; auto. apply String.eqb_eq in E2. subst k.
      exists [key_of m i]. congruence.
    + destruct (String.eqb k (base_key module m b)) eqn:E2; auto. apply String.eqb_eq in E2. subst k. congruence.
Qed.

Lemma fold_grow : forall module l d k v, assoc String.eqb k d = Some v ->
  exists v', assoc String.eqb k (fold_left (step module) l d) = Some (v ++ v').
Proof.
  induction l as [|x l IH]; intros d k v H; [exists []; rewrite app_nil_r; auto|].
  destruct (step_grow module d x k v H) as [v1 H1]. destruct (IH _ _ _ H1) as [v2 H2].
  exists (v1 ++ v2). rewrite app_assoc. auto.
Qed.

(** What an entry of the table comes from. *)
Lemma step_from : forall module d x k v e, assoc String.eqb k (step module d x) = Some v -> In e v ->
  (exists w, assoc String.eqb k d = Some w /\ In e w) \/
  exists b r, id_bases (snd x) = b :: r /\ k = base_key module (fst x) b /\ e = key_of (fst x) (snd x).
Proof.
  intros module d [m i] k v e. unfold step, add_identity. cbn [fst snd]. intros H He.
  destruct (id_bases i) as [|b r].
  - destruct (assoc String.eqb (key_of m i) d) as [w|] eqn:E; [eauto|]. rewrite get_set in H.
    destruct (String.eqb k (key_of m i)); [injection H as <-; contradiction | eauto].
  - destruct (assoc String.eqb (base_key module m b) d) as [w|] eqn:E; rewrite get_set in H;
      destruct (String.eqb k (base_key module m b)) eqn:E2; eauto.
    + apply String.eqb_eq in E2. subst k. injection H as <-. apply in_app_or in He as [He|[He|[]]]; [eauto|].
      right. exists b, r. auto.
    + injection H as <-. contradiction.
Qed.

Lemma fold_from : forall module l d k v e, assoc String.eqb k (fold_left (step module) l d) = Some v -> In e v ->
  (exists w, assoc String.eqb k d = Some w /\ In e w) \/
  exists m i b r, In (m, i) l /\ id_bases i = b :: r /\ k = base_key module m b /\ e = key_of m i.
Proof.
  induction l as [|x l IH]; intros d k v e H He; [eauto|]. cbn [fold_left] in H.
  destruct (IH _ _ _ _ H He) as [(w & Hw & Iw)|(m & i & b & r & Hi & X)].
  - destruct (step_from _ _ _ _ _ _ Hw Iw) as [?|(b & r & X)]; auto. right. exists (fst x), (snd x), b, r.
    destruct x; cbn [fst snd] in *. split; [left; auto|auto].
  - right. exists m, i, b, r. split; [right; auto | auto].
Qed.

Lemma base_means : forall module m b mn n, Means m b mn n -> (Without ":" b -> ms_name m = module) ->
  base_key module m b = (mn ++ ":" ++ n)%string.
Proof.
  intros module m b mn n HM HW. unfold base_key. destruct HM as [p mn n Hp Hn Ha|n Hn].
  - rewrite split_two, Ha by auto. reflexivity.
  - rewrite split_none, HW by auto. reflexivity.
Qed.

Lemma step_registers : forall module d m i mn n,
  (IsId m i mn n /\ id_bases i = [] \/ DerivedFirst module m i mn n) ->
  exists v, assoc String.eqb (mn ++ ":" ++ n)%string (step module d (m, i)) = Some v.
Proof.
  intros module d m i mn n [[[<- <-] E]|(b & r & E & HM & HW)]; unfold step, add_identity; cbn [fst snd]; rewrite E.
  - destruct (assoc String.eqb (key_of m i) d) as [w|] eqn:Ew; [eauto|]. rewrite get_set, String.eqb_refl. eauto.
  - rewrite (base_means _ _ _ _ _ HM HW). destruct (assoc String.eqb (mn ++ ":" ++ n)%string d) eqn:Ew;
      rewrite get_set, String.eqb_refl; eauto.
Qed.

Lemma step_adds : forall module d m i mn n w, DerivedFirst module m i mn n ->
  assoc String.eqb (mn ++ ":" ++ n)%string d = Some w ->
  assoc String.eqb (mn ++ ":" ++ n)%string (step module d (m, i)) = Some (w ++ [key_of m i]).
Proof.
  intros module d m i mn n w (b & r & E & HM & HW) H. unfold step, add_identity. cbn [fst snd]. rewrite E.
  rewrite (base_means _ _ _ _ _ HM HW), H, get_set, String.eqb_refl. auto.
Qed.

Lemma listed_key : forall module l1 m i l2 mn n, DerivedFirst module m i mn n ->
  (exists m0 i0, In (m0, i0) l1 /\ (IsId m0 i0 mn n /\ id_bases i0 = [] \/ DerivedFirst module m0 i0 mn n)) ->
  exists v, assoc String.eqb (mn ++ ":" ++ n)%string (fold_left (step module) (l1 ++ (m, i) :: l2) []) = Some v /\
            In (key_of m i) v.
Proof.
  intros module l1 m i l2 mn n HD (m0 & i0 & Hin & HR).
  apply in_split in Hin as (la & lb & ->). rewrite !fold_left_app. cbn [fold_left].
  set (d0 := fold_left (step module) la []).
  destruct (step_registers module d0 m0 i0 mn n HR) as [v0 H0].
  destruct (fold_grow module lb _ _ _ H0) as [v1 H1].
  pose proof (step_adds module _ m i mn n _ HD H1) as H2.
  destruct (fold_grow module l2 _ _ _ H2) as [v3 H3].
  exists (((v0 ++ v1) ++ [key_of m i]) ++ v3). split; [exact H3|].
  apply in_or_app. left. apply in_or_app. right. left. auto.
Qed.

(** The prefix of a module. *)
Lemma all_ids_in : forall ms m i, In (m, i) (all_ids ms) -> In m ms /\ ms_module m = true /\ In i (ms_ids m).
Proof.
  intros ms m i H. unfold all_ids in H. apply in_flat_map in H as (m' & Hm & H).
  destruct (ms_module m') eqn:E; [|contradiction]. apply in_map_iff in H as (i' & X & Hi).
  injection X as -> ->. auto.
Qed.

Lemma prefix_in : forall ms d, 
  (forall m, In m ms -> ms_module m = true -> NoDup (map ms_name ms) ->
   assoc String.eqb (ms_name m) (module_prefixes ms d) = Some (ms_prefix m)) /\
  (forall k, ~ In k (map ms_name ms) -> assoc String.eqb k (module_prefixes ms d) = assoc String.eqb k d).
Proof.
  assert (GS : forall k v k' (d : list (string * string)), assoc String.eqb k' (dset String.eqb k v d) =
     if String.eqb k' k then Some v else assoc String.eqb k' d).
  { intros. apply (assoc_dset' String.eqb str_eqb_ok). }
  unfold module_prefixes. induction ms as [|m0 ms IH]; intros d; (split; [|]).
  - contradiction.
  - auto.
  - intros m [->|Hin] Hm ND; cbn [fold_left map] in *; inversion ND as [|x l N1 N2]; subst.
    + rewrite (proj2 (IH _)) by auto. rewrite Hm, GS, String.eqb_refl. auto.
    + apply IH; auto.
  - intros k Hk. cbn [fold_left map] in *. rewrite (proj2 (IH _)) by (intro; apply Hk; right; auto).
    destruct (ms_module m0); auto. rewrite GS. destruct (String.eqb k (ms_name m0)) eqn:E; auto.
    apply String.eqb_eq in E. subst k. exfalso. apply Hk. left. auto.
Qed.

Definition shown (m : mstmt) (i : identity) : string := (ms_prefix m ++ ":" ++ id_name i)%string.

Lemma values_of : forall module ms mt bt mn n, Named ms -> Means mt bt mn n ->
  exists l, identityref_values (identity_deps module ms []) (module_prefixes ms []) mt bt = Ok l /\
    (forall v, In v l <-> exists m i w, In (m, i) (all_ids ms) /\ v = shown m i /\
       assoc String.eqb (mn ++ ":" ++ n)%string (identity_deps module ms []) = Some w /\ In (key_of m i) w).
Proof.
  intros module ms mt bt mn n (ND & Nm & Np & Ni) HM. unfold identityref_values.
  assert (match str_split ":" bt with
             | p :: n :: _ => match assoc String.eqb p (ms_prefixes mt) with
                              | None => None
                              | Some mn => Some (mn ++ ":" ++ n)%string
                              end
             | _ => Some (ms_name mt ++ ":" ++ bt)%string
             end = Some (mn ++ ":" ++ n)%string) as ->.
  { destruct HM as [p mn n Hp Hn Ha|n Hn]; [rewrite split_two, Ha by auto; auto | rewrite split_none by auto; auto]. }
  set (k := (mn ++ ":" ++ n)%string). rewrite deps_all.
  assert (From : forall w e, assoc String.eqb k (fold_left (step module) (all_ids ms) []) = Some w -> In e w ->
            exists m i, In (m, i) (all_ids ms) /\ e = key_of m i).
  { intros w e Hw He. destruct (fold_from _ _ _ _ _ _ Hw He) as [(w' & X & _)|(m & i & b & r & Hi & _ & _ & X)];
      [discriminate | eauto]. }
  destruct (assoc String.eqb k (fold_left (step module) (all_ids ms) [])) as [w|].
  2:{ exists []. split; [reflexivity|]. intros v. split; [contradiction|]. intros (m & i & w & _ & _ & X & _). discriminate. }
  assert (From' : forall e, In e w -> exists m i, In (m, i) (all_ids ms) /\ e = key_of m i) by (intros; eapply From; eauto).
  clear From.
  set (f := fun v => match str_split ":" v with
                     | mn :: n :: _ => match assoc String.eqb mn (module_prefixes ms []) with
                                       | Some p => Ok (p ++ ":" ++ n)%string
                                       | None => Err KeyError
                                       end
                     | _ => Err IndexError
                     end).
  assert (F : forall m i, In (m, i) (all_ids ms) -> f (key_of m i) = Ok (shown m i)).
  { intros m i H. pose proof (all_ids_in _ _ _ H) as (Hm & Hk & _). unfold f.
    rewrite split_two; [|apply Nm; auto|eapply Ni; eauto].
    rewrite (proj1 (prefix_in ms [])) by auto. reflexivity. }
  assert (G : forall w, (forall e, In e w -> exists m i, In (m, i) (all_ids ms) /\ e = key_of m i) ->
     exists l, mapM f w = Ok l /\ forall v, In v l <-> exists m i, In (m, i) (all_ids ms) /\ v = shown m i /\ In (key_of m i) w).
  { clear From'. clear w. induction w as [|e w IH]; intros H.
    - exists []. split; auto. intros v. split; [contradiction|]. intros (m & i & _ & _ & []).
    - destruct IH as (l & El & Il); [intros; apply H; right; auto|].
      destruct (H e (or_introl eq_refl)) as (m & i & Hi & ->).
      exists (shown m i :: l). cbn [mapM]. rewrite F, El by auto. split; [reflexivity|].
      intros v. split.
      + intros [<-|Hv]; [exists m, i; repeat split; auto; left; auto|].
        apply Il in Hv as (m1 & i1 & A & B & C). exists m1, i1. repeat split; auto. right. auto.
      + intros (m1 & i1 & A & -> & [C|C]).
        * left. apply F in A. rewrite <- C, F in A by auto. injection A as A. auto.
        * right. apply Il. exists m1, i1. auto. }
  destruct (G w From') as (l & El & Il). exists l. split; [exact El|]. intros v. rewrite Il. split.
  - intros (m & i & A & B & C). exists m, i, w. auto.
  - intros (m & i & w' & A & B & C & D). injection C as <-. exists m, i. auto.
Qed.

Theorem derived_listed : forall module ms l1 m i l2 mn n mt bt, Named ms ->
  all_ids ms = l1 ++ (m, i) :: l2 -> DerivedFirst module m i mn n ->
  (exists m0 i0, In (m0, i0) l1 /\ (IsId m0 i0 mn n /\ id_bases i0 = [] \/ DerivedFirst module m0 i0 mn n)) ->
  Means mt bt mn n ->
  exists l, identityref_values (identity_deps module ms []) (module_prefixes ms []) mt bt = Ok l /\
    In (ms_prefix m ++ ":" ++ id_name i)%string l.
Proof.
  intros module ms l1 m i l2 mn n mt bt HN E HD HR HM.
  destruct (values_of module ms mt bt mn n HN HM) as (l & El & Il). exists l. split; [exact El|].
  apply Il. destruct (listed_key module l1 m i l2 mn n HD HR) as (v & Hv & Iv).
  exists m, i, v. rewrite deps_all, E. repeat split; auto. apply in_or_app. right. left. auto.
Qed.

Lemma means_without : forall ms m b mn n, Named ms -> In m ms -> Means m b mn n -> Without ":" mn /\ Without ":" n.
Proof.
  intros ms m b mn n (ND & Nm & Np & Ni) Hm HM. destruct HM as [p mn n Hp Hn Ha|n Hn]; split; auto.
  - eapply (Np m p mn Hm). apply (assoc_In' String.eqb str_eqb_ok). exact Ha.
Qed.

Theorem listed_derived : forall module ms mt bt mn n l v, Named ms -> Clean module ms -> In mt ms -> Means mt bt mn n ->
  identityref_values (identity_deps module ms []) (module_prefixes ms []) mt bt = Ok l -> In v l ->
  exists m i, In (m, i) (all_ids ms) /\ v = (ms_prefix m ++ ":" ++ id_name i)%string /\ Derived m i mn n.
Proof.
  intros module ms mt bt mn n l v HN HC Ht HM El Hv.
  destruct (values_of module ms mt bt mn n HN HM) as (l' & El' & Il). rewrite El in El'. injection El' as <-.
  apply Il in Hv as (m & i & w & A & B & C & D). rewrite deps_all in C.
  destruct (fold_from _ _ _ _ _ _ C D) as [(w' & X & _)|(m1 & i1 & b & r & Hi & Eb & Ek & Ei)]; [discriminate|].
  pose proof HN as (ND & Nm & Np & Ni).
  destruct (all_ids_in _ _ _ A) as (Im & Km & _). destruct (all_ids_in _ _ _ Hi) as (Im1 & Km1 & _).
  apply pair_inj in Ei as [E1 E2]; auto; try (eapply Ni; eauto).
  assert (m1 = m) as ->.
  { pose proof (proj1 (prefix_in ms [])) as P. clear - ND Im Im1 E1.
    induction ms as [|x ms IH]; [contradiction|]. cbn [map] in ND. inversion ND as [|y ys N1 N2]; subst.
    destruct Im as [->|Im], Im1 as [->|Im1]; auto.
    - exfalso. apply N1. rewrite E1. apply in_map. auto.
    - exfalso. apply N1. rewrite <- E1. apply in_map. auto. }
  exists m, i1. split; [auto|]. split; [rewrite B; unfold shown; rewrite E2; auto|].
  destruct (HC m i1 b r Hi Eb) as (mn1 & n1 & HM1 & HW1).
  rewrite (base_means _ _ _ _ _ HM1 HW1) in Ek.
  destruct (means_without ms mt bt mn n HN Ht HM) as [W1 W2].
  destruct (means_without ms m b mn1 n1 HN Im HM1) as [W3 W4].
  apply pair_inj in Ek as [-> ->]; auto. exists b. split; [rewrite Eb; left; auto | auto].
Qed.

(** ** Paths *)

Lemma split_concat : forall l, l <> [] -> (forall w, In w l -> Without "/" w) -> str_split "/" (String.concat "/" l) = l.
Proof.
  induction l as [|w l IH]; intros N H; [contradiction|]. destruct l as [|w' l].
  - apply split_none. apply H. left. auto.
  - change (String.concat "/" (w :: w' :: l)) with (w ++ "/" ++ String.concat "/" (w' :: l))%string.
    cbn [append]. rewrite split_first by (apply H; left; auto). f_equal. apply IH; [discriminate|].
    intros; apply H; right; auto.
Qed.

Lemma without_app : forall c a b, Without c a -> Without c b -> Without c (a ++ b)%string.
Proof. induction a as [|d a IH]; intros b Ha Hb; cbn [append]; auto. destruct Ha. split; auto. Qed.

Lemma colon_none : forall s, Without ":" s -> split_colon s = None.
Proof.
  induction s as [|c s IH]; intros H; [reflexivity|]. destruct H as [H1 H2]. cbn [split_colon].
  destruct (Ascii.eqb c ":") eqn:E; [apply Ascii.eqb_eq in E; contradiction|]. rewrite IH; auto.
Qed.

Lemma colon_some : forall a b, Without ":" a -> split_colon (a ++ ":" ++ b)%string = Some (a, b).
Proof.
  induction a as [|c a IH]; intros b H; [reflexivity|]. destruct H as [H1 H2].
  cbn [append split_colon]. destruct (Ascii.eqb c ":") eqn:E; [apply Ascii.eqb_eq in E; contradiction|].
  change (String ":" b) with (":" ++ b)%string. rewrite IH; auto.
Qed.

Lemma step_slash : forall s, SimpleStep s -> Without "/" (show_step s).
Proof.
  destruct s as [|n|p n]; cbn [SimpleStep show_step].
  - intros _. cbn. repeat split; discriminate.
  - intros (H & _). auto.
  - intros [(Hp & _) (Hn & _)]. apply without_app; auto. cbn [append Without]. split; [discriminate | auto].
Qed.

Lemma show_words : forall p, psteps p <> [] -> Forall SimpleStep (psteps p) ->
  str_split "/" (show p) = (if absolute p then [""] else []) ++ map show_step (psteps p).
Proof.
  intros [ab l] HN HS. unfold show. cbn [absolute psteps] in *. apply split_concat.
  - destruct ab; [discriminate|]. destruct l; [contradiction | discriminate].
  - intros w Hw. apply in_app_or in Hw as [Hw|Hw].
    + destruct ab; [|contradiction]. destruct Hw as [<-|[]]. cbn. auto.
    + apply in_map_iff in Hw as (s & <- & Hs). apply step_slash. rewrite Forall_forall in HS. auto.
Qed.

(** The compact steps. *)
Fixpoint csteps (cur : string) (l : list pstep) : list pstep :=
  match l with
  | [] => []
  | Qual p n :: r => (if String.eqb p cur then Plain n else Qual p n) :: csteps p r
  | s :: r => s :: csteps cur r
  end.

Lemma compact_csteps : forall l cur, Forall SimpleStep l -> compact_parts cur (map show_step l) = map show_step (csteps cur l).
Proof.
  induction l as [|s l IH]; intros cur H; [reflexivity|]. inversion H as [|x y H1 H2]; subst.
  cbn [map compact_parts]. destruct s as [|n|p n]; cbn [SimpleStep show_step] in *.
  - rewrite colon_none by (cbn; repeat split; discriminate). rewrite String.eqb_refl. cbn [csteps map show_step]. f_equal. auto.
  - destruct H1 as (_ & H1 & _). rewrite colon_none by auto. rewrite String.eqb_refl. cbn [csteps map show_step]. f_equal. auto.
  - destruct H1 as [(_ & H1 & _) _]. rewrite colon_some by auto. cbn [csteps].
    destruct (String.eqb p cur) eqn:E; cbn [map show_step]; f_equal; auto.
    apply String.eqb_eq in E. subst p. auto.
Qed.

Lemma csteps_meaning : forall l local cur, Steady local cur l ->
  compact_meaning cur (csteps cur l) = map (yang_meaning local) l.
Proof.
  induction l as [|s l IH]; intros local cur H; [reflexivity|].
  destruct s as [|n|p n]; cbn [Steady csteps compact_meaning map yang_meaning] in *.
  - f_equal. auto.
  - destruct H as [-> H]. f_equal. auto.
  - destruct (String.eqb p cur) eqn:E; cbn [compact_meaning]; f_equal; auto.
    + apply String.eqb_eq in E. congruence.
    + apply String.eqb_eq in E. subst p. auto.
Qed.

Lemma csteps_tight : forall l cur, Tight cur (csteps cur l).
Proof.
  induction l as [|s l IH]; intros cur; [exact I|]. destruct s as [|n|p n]; cbn [csteps Tight]; auto.
  destruct (String.eqb p cur) eqn:E; cbn [Tight].
  - apply String.eqb_eq in E. subst p. auto.
  - split; auto. apply String.eqb_neq. auto.
Qed.

Lemma csteps_simple : forall l cur, Forall SimpleStep l -> Forall SimpleStep (csteps cur l).
Proof.
  induction l as [|s l IH]; intros cur H; [constructor|]. inversion H as [|x y H1 H2]; subst.
  destruct s as [|n|p n]; cbn [csteps]; constructor; auto. destruct (String.eqb p cur); cbn [SimpleStep] in *; tauto.
Qed.

Theorem compact_keeps : forall local p, psteps p <> [] -> Forall SimpleStep (psteps p) -> Steady local local (psteps p) ->
  exists q, compact_path local (show p) = show q /\ absolute q = absolute p /\ Forall SimpleStep (psteps q) /\
    compact_meaning local (psteps q) = map (yang_meaning local) (psteps p) /\ Tight local (psteps q).
Proof.
  intros local p HN HS HT. exists (Path (absolute p) (csteps local (psteps p))). cbn [absolute psteps].
  split; [|split; [auto|split; [apply csteps_simple; auto|split; [apply csteps_meaning; auto|apply csteps_tight]]]].
  unfold compact_path. rewrite show_words by auto. unfold show. cbn [absolute psteps]. f_equal.
  destruct (absolute p); cbn [app].
  - cbn [compact_parts split_colon]. rewrite String.eqb_refl. f_equal. apply compact_csteps. auto.
  - apply compact_csteps. auto.
Qed.

Lemma without_not_colon : forall a b, Without ":" (a ++ ":" ++ b)%string -> False.
Proof. induction a as [|c a IH]; intros b H; cbn [append Without] in H; destruct H as [H1 H2]; [congruence | exact (IH b H2)]. Qed.

Lemma show_step_inj : forall s t, SimpleStep s -> SimpleStep t -> show_step s = show_step t -> s = t.
Proof.
  assert (Q : forall p n, (p ++ ":" ++ n)%string = ".." -> False).
  { intros p n E. apply (without_not_colon p n). rewrite E. cbn. repeat split; discriminate. }
  destruct s as [|n|p n], t as [|n'|p' n']; cbn [SimpleStep show_step]; intros Hs Ht E; auto; unfold SimpleName in *;
    try (exfalso; tauto); try (exfalso; now eauto); try congruence.
  - exfalso. destruct Ht as (_ & _ & _ & Ht). congruence.
  - exfalso. eapply (without_not_colon p' n'). rewrite <- E. tauto.
  - exfalso. eapply (without_not_colon p n). rewrite E. tauto.
  - apply pair_inj in E as [-> ->]; tauto.
Qed.

Theorem show_inj : forall p q, psteps p <> [] -> psteps q <> [] -> Forall SimpleStep (psteps p) -> Forall SimpleStep (psteps q) ->
  show p = show q -> p = q.
Proof.
  intros p q Np Nq Sp Sq E. apply (f_equal (str_split "/")) in E. rewrite !show_words in E by auto.
  assert (M : forall l l', Forall SimpleStep l -> Forall SimpleStep l' -> map show_step l = map show_step l' -> l = l').
  { induction l as [|s l IH]; intros [|s' l'] H H' X; try discriminate; auto.
    inversion H; inversion H'; subst. cbn [map] in X.
    assert (show_step s = show_step s') by congruence. f_equal; [apply show_step_inj; auto | apply IH; auto; congruence]. }
  assert (NE : forall s, SimpleStep s -> show_step s <> "").
  { destruct s as [|n|p0 n]; cbn [SimpleStep show_step]; [discriminate|intros (_&_&X&_); auto|].
    intros _ X. destruct p0; discriminate. }
  destruct p as [a l], q as [a' l']. cbn [absolute psteps] in *.
  destruct a, a'; cbn [app] in E.
  - f_equal. apply M; auto. congruence.
  - exfalso. destruct l' as [|s l']; [contradiction|]. inversion Sq; subst. cbn [map] in E.
    apply (NE s); auto. congruence.
  - exfalso. destruct l as [|s l]; [contradiction|]. inversion Sp; subst. cbn [map] in E.
    apply (NE s); auto. congruence.
  - f_equal. apply M; auto.
Qed.

(** ** Copies *)

Lemma ostr_eqb_ok' : eqb_ok ostr_eqb.
Proof. unfold ostr_eqb. apply opt_eqb_ok. apply str_eqb_ok. Qed.

Lemma oget_set : forall k v k' (d : list (option string * string)), assoc ostr_eqb k' (dset ostr_eqb k v d) =
  if ostr_eqb k' k then Some v else assoc ostr_eqb k' d.
Proof. intros. apply assoc_dset'. apply ostr_eqb_ok'. Qed.

Lemma scope_other : forall l outer p, ~ In p (map fst l) -> assoc ostr_eqb p (scope outer l) = assoc ostr_eqb p outer.
Proof.
  unfold scope. induction l as [|[q u] l IH]; intros outer p H; [reflexivity|]. cbn [fold_left map fst] in *.
  rewrite IH by (intro; apply H; right; auto). rewrite oget_set.
  destruct (ostr_eqb p q) eqn:E; auto. apply ostr_eqb_ok' in E. exfalso. apply H. left. auto.
Qed.

Lemma scope_has : forall l outer p u, NoDup (map fst l) -> In (p, u) l -> assoc ostr_eqb p (scope outer l) = Some u.
Proof.
  induction l as [|[q v] l IH]; intros outer p u ND H; [contradiction|]. cbn [map fst] in ND.
  inversion ND as [|x y N1 N2]; subst. destruct H as [H|H].
  - injection H as -> ->. unfold scope. cbn [fold_left]. change (fold_left _ l ?d) with (scope d l).
    rewrite scope_other by auto. rewrite oget_set. rewrite (proj2 (ostr_eqb_ok' p p)) by auto. auto.
  - unfold scope. cbn [fold_left]. change (fold_left _ l ?d) with (scope d l). apply IH; auto.
Qed.

Lemma oset_keys : forall k v (l : list (option string * string)), NoDup (map fst l) -> NoDup (map fst (dset ostr_eqb k v l)).
Proof.
  intros k v l. induction l as [| [k' v'] r IH]; simpl; intro N.
  - constructor; [intros [] | constructor].
  - inversion N as [| a b N1 N2]; subst. destruct (ostr_eqb k k') eqn:E; simpl.
    + apply ostr_eqb_ok' in E. subst k'. constructor; auto.
    + constructor; auto. intro X. apply in_map_iff in X. destruct X as (e & E1 & E2).
      apply dset_In' in E2. destruct E2 as [E2 | E2].
      * subst e. simpl in E1. subst k'. rewrite (proj2 (ostr_eqb_ok' k k)) in E by auto. discriminate.
      * apply N1. apply in_map_iff. exists e. auto.
Qed.

Lemma scope_nodup : forall l outer, NoDup (map fst outer) -> NoDup (map fst (scope outer l)).
Proof.
  unfold scope. induction l as [|[q v] l IH]; intros outer H; [auto|]. cbn [fold_left]. apply IH.
  apply oset_keys. auto.
Qed.

Lemma filter_nodup : forall (f : option string * string -> bool) l, NoDup (map fst l) -> NoDup (map fst (filter f l)).
Proof.
  intros f l. induction l as [|x l IH]; intros H; [constructor|]. cbn [map] in H. inversion H as [|a b N1 N2]; subst.
  cbn [filter]. destruct (f x); auto. cbn [map]. constructor; auto. intros X. apply N1.
  apply in_map_iff in X as (y & E & Y). apply filter_In in Y as [Y _]. apply in_map_iff. eauto.
Qed.

(** Induction on nodes. *)
Fixpoint nnode_ind' (P : nnode -> Prop)
  (HE : forall t tx a d k, Forall P k -> P (NElem t tx a d k)) (HC : forall t, P (NComment t)) (x : nnode) : P x :=
  match x with
  | NElem t tx a d k => HE t tx a d k ((fix go (l : list nnode) : Forall P l :=
      match l with [] => Forall_nil P | c :: r => Forall_cons c (nnode_ind' P HE HC c) (go r) end) k)
  | NComment t => HC t
  end.

Definition fresh (out here : list (option string * string)) : list (option string * string) :=
  filter (fun '(p, u) => negb (opt_eqb String.eqb (assoc ostr_eqb p out) (Some u))) here.

Fixpoint copies (outer out : list (option string * string)) (l : list nnode) : res (list nnode) :=
  match l with
  | [] => Ok []
  | c :: r => let! c' := append_copy outer out c in let! r' := copies outer out r in Ok (c' :: r')
  end.

Lemma append_elem : forall outer out t tx a d k,
  append_copy outer out (NElem t tx a d k) =
  let! k' := copies (scope outer d) (scope out (fresh out (scope outer d))) k in
  Ok (NElem t tx a (fresh out (scope outer d)) k').
Proof.
  intros. cbn [append_copy]. unfold fresh.
  match goal with |- bind ?x _ = bind ?y _ => assert (x = y) as ->; [|reflexivity] end.
  induction k as [|c r IH]; [reflexivity|]. cbn [copies]. rewrite <- IH. reflexivity.
Qed.

Lemma fresh_scope : forall out here p u, NoDup (map fst here) -> assoc ostr_eqb p here = Some u ->
  assoc ostr_eqb p (scope out (fresh out here)) = Some u.
Proof.
  intros out here p u ND H. pose proof (assoc_In' ostr_eqb ostr_eqb_ok' _ _ _ H) as Hin.
  destruct (opt_eqb String.eqb (assoc ostr_eqb p out) (Some u)) eqn:E.
  - apply (opt_eqb_ok String.eqb str_eqb_ok) in E. rewrite scope_other; auto.
    intros X. apply in_map_iff in X as ([q v] & Eq & Hf). cbn [fst] in Eq. subst q. apply filter_In in Hf as [Hf Hn].
    assert (v = u) as ->.
    { clear - ND Hin Hf. induction here as [|[q w] l IH]; [contradiction|]. cbn [map fst] in ND.
      inversion ND as [|a b N1 N2]; subst. destruct Hin as [X|X], Hf as [Y|Y]; auto; try congruence.
      - injection X as -> ->. exfalso. apply N1. apply in_map_iff. exists (p, v). auto.
      - injection Y as -> ->. exfalso. apply N1. apply in_map_iff. exists (p, u). auto. }
    rewrite E in Hn. rewrite (proj2 (opt_eqb_ok String.eqb str_eqb_ok (Some u) (Some u))) in Hn by auto. discriminate.
  - apply scope_has; [apply filter_nodup; auto|]. apply filter_In. split; auto. rewrite E. auto.
Qed.

Theorem copy_keeps : forall x outer out, NoDup (map fst outer) -> NoComment x ->
  exists y, append_copy outer out x = Ok y /\ Copied outer out x y.
Proof.
  induction x as [t tx a d k IH|t] using nnode_ind'; intros outer out ND HC; [|inversion HC].
  inversion HC as [t' tx' a' d' k' HK]; subst. rewrite append_elem.
  assert (K : exists k', copies (scope outer d) (scope out (fresh out (scope outer d))) k = Ok k' /\
     Forall2 (Copied (scope outer d) (scope out (fresh out (scope outer d)))) k k').
  { pose proof (scope_nodup d outer ND) as ND'. revert IH HK ND'. generalize (scope outer d). intros here IH HK ND'.
    generalize (scope out (fresh out here)). intros o. clear HC.
    induction k as [|c r IHk]; [exists []; split; [reflexivity | constructor]|].
    inversion IH as [|x1 y1 I1 I2]; subst. inversion HK as [|x2 y2 K1 K2]; subst.
    destruct (I1 here o ND' K1) as (c' & Ec & Cc). destruct (IHk I2 K2) as (r' & Er & Cr).
    exists (c' :: r'). cbn [copies]. rewrite Ec, Er. split; [reflexivity | constructor; auto]. }
  destruct K as (k' & Ek & Ck). rewrite Ek. eexists. split; [reflexivity|]. constructor; auto.
  intros p u H. apply fresh_scope; auto. apply scope_nodup. auto.
Qed.

(** A comment anywhere makes it raise. *)
Theorem copy_comment : forall x outer out, ~ NoComment x -> append_copy outer out x = Err TypeError.
Proof.
  induction x as [t tx a d k IH|t] using nnode_ind'; intros outer out HC; [|reflexivity]. rewrite append_elem.
  assert (~ Forall NoComment k) as HK by (intro; apply HC; constructor; auto). clear HC.
  generalize (scope outer d), (scope out (fresh out (scope outer d))). intros h o.
  assert (copies h o k = Err TypeError) as ->; [|reflexivity].
  induction k as [|c r IHk]; [exfalso; apply HK; constructor|]. inversion IH as [|x1 y1 I1 I2]; subst. cbn [copies].
  destruct (append_copy h o c) as [c'|e] eqn:E; cbn [bind].
  - rewrite IHk; auto. intros F. apply HK. constructor; auto.
    clear - E. revert h o c' E. induction c as [t tx a d k IH|t] using nnode_ind'; intros h o c' E; [|discriminate].
    rewrite append_elem in E. destruct (copies _ _ k) as [k'|] eqn:Ek; [|discriminate]. constructor. clear E.
    revert k' Ek. generalize (scope h d), (scope o (fresh o (scope h d))). intros h' o'.
    induction k as [|x k IHk]; intros k' Ek; constructor; inversion IH as [|x1 y1 I1 I2]; subst; cbn [copies] in Ek;
      destruct (append_copy h' o' x) as [x'|] eqn:Ex; try discriminate; cbn [bind] in Ek.
    + eapply I1; eauto.
    + destruct (copies h' o' k) as [k2|] eqn:E2; [|discriminate]. eapply IHk; eauto.
  - destruct (append_copy h o c) as [|e'] eqn:E'; [discriminate|]. injection E as ->.
    assert (forall x h o e, append_copy h o x = Err e -> e = TypeError) as T.
    { clear. induction x as [t tx a d k IH|t] using nnode_ind'; intros h o e H; [|cbn in H; congruence].
      rewrite append_elem in H. destruct (copies _ _ k) as [k'|e2] eqn:Ek; cbn [bind] in H; [discriminate|].
      injection H as ->. revert Ek. generalize (scope h d), (scope o (fresh o (scope h d))). intros h' o'.
      induction k as [|x k IHk]; [discriminate|]. inversion IH as [|x1 y1 I1 I2]; subst. cbn [copies].
      destruct (append_copy h' o' x) as [x'|e3] eqn:Ex; cbn [bind].
      - destruct (copies h' o' k) as [k2|e3] eqn:E2; cbn [bind]; [discriminate|]. intros X. injection X as ->. eapply IHk; eauto.
      - intros X. injection X as ->. eapply I1; eauto. }
    f_equal. eapply T; eauto.
Qed.
