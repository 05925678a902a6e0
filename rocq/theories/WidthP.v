(** Proofs about the memory of widths. *)
From Coq Require Import String Ascii List Bool Arith.
From Coq Require Import Lia.
From Verif Require Import Base BaseP XmlM TagM XPathM ReorderM PrintM WidthM WidthSpec.
Import ListNotations.
Open Scope string_scope.
Open Scope list_scope.

Lemma names_at : forall nm pos x y p q, SameNames nm x y -> node_at x pos = Some p -> node_at y pos = Some q ->
  map nm (xkids p) = map nm (xkids q).
Proof.
  intros nm pos. induction pos as [| i r IH]; intros x y p q S P Q.
  - cbn in P, Q. injection P as <-. injection Q as <-. inversion S. assumption.
  - cbn in P, Q. destruct (nth_error (xkids x) i) as [a |] eqn:A; [| discriminate].
    destruct (nth_error (xkids y) i) as [b |] eqn:B; [| discriminate].
    inversion S as [x0 y0 _ K]; subst. exact (IH a b p q (K i a b A B) P Q).
Qed.
Lemma mapM_names : forall (nm : xml -> res string) l l', map nm l = map nm l' -> mapM nm l = mapM nm l'.
Proof.
  intros nm l. induction l as [| a l IH]; intros [| b l'] E; try discriminate; [reflexivity |].
  cbn [map] in E. injection E as E1 E2. cbn [mapM]. rewrite E1, (IH _ E2). reflexivity.
Qed.
Lemma place_eq : forall a b, place_eqb a b = true -> a = b.
Proof.
  unfold place_eqb. induction a as [| i a IH]; intros [| j b] E; try discriminate; [reflexivity |].
  cbn in E. apply andb_true_iff in E as [E1 E2]. apply Nat.eqb_eq in E1. f_equal; auto.
Qed.

Section Prints.
Variable nm : xml -> res string.
Variable tail : xml -> option (string -> string).
Variable all : list xml.
Hypothesis alike : forall x y, In x all -> In y all -> SameNames nm x y.

Definition kept (c : widths) : Prop := forall pos w, assoc place_eqb pos c = Some w ->
  forall t p, In t all -> node_at t pos = Some p -> width nm p = Ok w.

Lemma width_kept : forall tree pos p c, kept c -> In tree all -> node_at tree pos = Some p ->
  fst (width_c nm pos p c) = width nm p /\ kept (snd (width_c nm pos p c)).
Proof.
  intros tree pos p c K T P. unfold width_c. destruct (assoc place_eqb pos c) as [w |] eqn:A.
  - split; [symmetry; exact (K pos w A tree p T P) | exact K].
  - destruct (width nm p) as [w |] eqn:W; [| split; [reflexivity | exact K]]. split; [reflexivity |].
    intros q v Q t y Ht Hy. cbn [snd assoc] in Q. destruct (place_eqb q pos) eqn:E.
    + apply place_eq in E. subst q. injection Q as <-. rewrite <- W. unfold width.
      rewrite (mapM_names nm (xkids y) (xkids p)); [reflexivity |]. exact (names_at nm pos t tree y p (alike t tree Ht T) Hy P).
    + exact (K q v Q t y Ht Hy).
Qed.
Lemma line_kept : forall tree section px c, kept c -> In tree all ->
  fst (emit_line_c nm tail tree section px c) = emit_line nm tail tree section px /\ kept (snd (emit_line_c nm tail tree section px c)).
Proof.
  intros tree section [pos x] c K T. unfold emit_line_c, emit_line. destruct (nm x) as [n |]; cbn [bind]; [| split; [reflexivity | exact K]].
  destruct (tail x) as [f |]; [| split; [reflexivity | exact K]].
  destruct (node_at tree (removelast pos)) as [p |] eqn:P; [| split; [reflexivity | exact K]].
  destruct (width_kept tree _ p c K T P) as [E K2]. destruct (width_c nm (removelast pos) p c) as [r c2]. cbn [fst snd] in *. subst r.
  destruct (width nm p); cbn [bind fst snd]; split; try reflexivity; exact K2.
Qed.
Lemma lines_kept : forall tree section l c, kept c -> In tree all ->
  fst (emit_lines_c nm tail tree section l c) = mapM (emit_line nm tail tree section) l /\ kept (snd (emit_lines_c nm tail tree section l c)).
Proof.
  intros tree section l. induction l as [| px l IH]; intros c K T; [split; [reflexivity | exact K] |].
  cbn [emit_lines_c mapM]. destruct (line_kept tree section px c K T) as [E K1].
  destruct (emit_line_c nm tail tree section px c) as [r c1]. cbn [fst snd] in *. subst r.
  destruct (emit_line nm tail tree section px) as [s |]; cbn [bind]; [| split; [reflexivity | exact K1]].
  destruct (IH c1 K1 T) as [E K2]. destruct (emit_lines_c nm tail tree section l c1) as [r c2]. cbn [fst snd] in *. subst r.
  destruct (mapM _ l); cbn [bind fst snd]; split; try reflexivity; exact K2.
Qed.
Lemma tree_kept : forall tree c, kept c -> In tree all ->
  fst (emit_tree_c nm tail tree c) = emit_tree nm tail tree /\ kept (snd (emit_tree_c nm tail tree c)).
Proof.
  intros tree c K T. unfold emit_tree_c, emit_tree, emit_children_c, emit_children.
  destruct (lines_kept tree "other" (roots_of 0 "other" (xkids tree)) c K T) as [E K1].
  destruct (emit_lines_c nm tail tree "other" _ c) as [r c1]. cbn [fst snd] in *. subst r.
  destruct (mapM _ (roots_of 0 "other" _)) as [a |]; cbn [bind]; [| split; [reflexivity | exact K1]].
  destruct (lines_kept tree "rpc" (roots_of 0 "rpc" (xkids tree)) c1 K1 T) as [E K2].
  destruct (emit_lines_c nm tail tree "rpc" _ c1) as [r c2]. cbn [fst snd] in *. subst r.
  destruct (mapM _ (roots_of 0 "rpc" _)) as [b |]; cbn [bind]; [| split; [reflexivity | exact K2]].
  destruct (lines_kept tree "notification" (roots_of 0 "notification" (xkids tree)) c2 K2 T) as [E K3].
  destruct (emit_lines_c nm tail tree "notification" _ c2) as [r c3]. cbn [fst snd] in *. subst r.
  destruct (mapM _ (roots_of 0 "notification" _)) as [n |]; cbn [bind]; split; try reflexivity; exact K3.
Qed.
Lemma prints_kept : forall l c, kept c -> incl l all -> prints nm tail c l = map (emit_tree nm tail) l.
Proof.
  induction l as [| t l IH]; intros c K I; [reflexivity |]. cbn [prints map].
  destruct (tree_kept t c K (I t (or_introl eq_refl))) as [E K2]. destruct (emit_tree_c nm tail t c) as [s c2]. cbn [fst snd] in *. subst s.
  f_equal. apply IH; [exact K2 |]. intros x Hx. apply I. right. exact Hx.
Qed.
End Prints.

Theorem prints_fresh : forall nm tail l, (forall x y, In x l -> In y l -> SameNames nm x y) ->
  prints nm tail [] l = map (emit_tree nm tail) l.
Proof. intros nm tail l H. apply (prints_kept nm tail l H); [intros pos w E; discriminate | apply incl_refl]. Qed.

Lemma same_refl : forall nm x, SameNames nm x x.
Proof.
  intros nm. assert (R : forall n x, height x <= n -> SameNames nm x x).
  { induction n as [| n IH]; intros x H.
    - destruct x; cbn in H. inversion H.
    - constructor; [reflexivity |]. intros i a b A B. rewrite A in B. injection B as <-. apply IH.
      apply nth_error_In in A. destruct x as [t tx at_ ks]. cbn [xkids] in A. cbn [height] in H.
      apply le_S_n in H. eapply Nat.le_trans; [| exact H]. clear H. induction ks as [| k ks IHk]; [destruct A |].
      cbn [fold_right map list_max] in *. destruct A as [<- | A]; [apply Nat.le_max_l |].
      eapply Nat.le_trans; [apply IHk; exact A | apply Nat.le_max_r]. }
  intros x. apply (R (height x)). reflexivity.
Qed.
Theorem prints_again : forall nm tail t n, prints nm tail [] (repeat t n) = repeat (emit_tree nm tail t) n.
Proof.
  intros nm tail t n. rewrite prints_fresh.
  - induction n; cbn; [reflexivity | f_equal; assumption].
  - intros x y X Y. apply repeat_spec in X, Y. subst. apply same_refl.
Qed.

(** ** Which width is used *)
(** The width of the first call for the place [p] that did not raise *)
Fixpoint FirstWidth (nm : xml -> res string) (p : list nat) (l : list (list nat * xml)) : option nat :=
  match l with
  | [] => None
  | (q, x) :: r => if list_eq_dec Nat.eq_dec p q then match width nm x with Ok w => Some w | Err _ => FirstWidth nm p r end
                   else FirstWidth nm p r
  end.
Lemma place_refl : forall a, place_eqb a a = true.
Proof. unfold place_eqb. induction a as [| i a IH]; [reflexivity |]. cbn. rewrite Nat.eqb_refl. exact IH. Qed.
Definition holds (nm : xml -> res string) (pre : list (list nat * xml)) (c : widths) : Prop :=
  forall p, assoc place_eqb p c = match FirstWidth nm p pre with Some w => Some w | None => None end.
Lemma first_app : forall nm p pre q x, FirstWidth nm p (pre ++ [(q, x)]) =
  match FirstWidth nm p pre with
  | Some w => Some w
  | None => if list_eq_dec Nat.eq_dec p q then match width nm x with Ok w => Some w | Err _ => None end else None
  end.
Proof.
  intros nm p pre q x. induction pre as [| [q0 y] pre IH]; cbn [app FirstWidth].
  - destruct (list_eq_dec Nat.eq_dec p q); [| reflexivity]. destruct (width nm x); reflexivity.
  - destruct (list_eq_dec Nat.eq_dec p q0); [| exact IH]. destruct (width nm y); [reflexivity | exact IH].
Qed.
Lemma run_first : forall nm l pre c, holds nm pre c ->
  forall i p x, nth_error l i = Some (p, x) ->
  nth_error (width_run nm l c) i = Some (match FirstWidth nm p (pre ++ firstn i l) with Some w => Ok w | None => width nm x end).
Proof.
  intros nm l. induction l as [| [q y] l IH]; intros pre c H i p x E; [destruct i; discriminate |].
  cbn [width_run]. destruct (width_c nm q y c) as [a c'] eqn:W. destruct i as [| i].
  - cbn in E. injection E as -> ->. cbn [nth_error firstn]. rewrite app_nil_r. unfold width_c in W. rewrite H in W.
    destruct (FirstWidth nm p pre); [injection W as <- _; reflexivity |].
    destruct (width nm x); injection W as <- _; reflexivity.
  - cbn [nth_error] in E |- *. cbn [firstn].
    assert (H' : holds nm (pre ++ [(q, y)]) c').
    { intros r. rewrite first_app. unfold width_c in W. rewrite (H q) in W.
      destruct (list_eq_dec Nat.eq_dec r q) as [-> | N].
      - destruct (FirstWidth nm q pre) as [w |] eqn:F; [injection W as _ <-; rewrite H, F; reflexivity |].
        destruct (width nm y) as [w |]; injection W as _ <-; [cbn [assoc]; rewrite place_refl; reflexivity | rewrite H, F; reflexivity].
      - assert (X : assoc place_eqb r c' = assoc place_eqb r c).
        { destruct (FirstWidth nm q pre); [injection W as _ <-; reflexivity |].
          destruct (width nm y); injection W as _ <-; [| reflexivity]. cbn [assoc].
          destruct (place_eqb r q) eqn:Q; [exfalso; apply N; apply place_eq; exact Q | reflexivity]. }
        rewrite X, H. destruct (FirstWidth nm r pre); reflexivity. }
    rewrite (IH (pre ++ [(q, y)]) c' H' i p x E). rewrite <- app_assoc. reflexivity.
Qed.
Theorem width_first : forall nm l i p x, nth_error l i = Some (p, x) ->
  nth_error (width_run nm l []) i = Some (match FirstWidth nm p (firstn i l) with Some w => Ok w | None => width nm x end).
Proof. intros nm l i p x E. exact (run_first nm l [] [] (fun _ => eq_refl) i p x E). Qed.

Lemma fold_max : forall l w, w <= fold_left (fun w s => Nat.max w (String.length s)) l w /\
  (forall s, In s l -> String.length s <= fold_left (fun w s => Nat.max w (String.length s)) l w) /\
  (fold_left (fun w s => Nat.max w (String.length s)) l w = w \/ exists s, In s l /\ fold_left (fun w s => Nat.max w (String.length s)) l w = String.length s).
Proof.
  induction l as [| a l IH]; intros w; [cbn; split; [apply le_n |]; split; [intros s [] | left; reflexivity] |].
  cbn [fold_left]. destruct (IH (Nat.max w (String.length a))) as (A & B & C). split; [eapply Nat.le_trans; [apply Nat.le_max_l | exact A] |]. split.
  - intros s [<- | I]; [eapply Nat.le_trans; [apply Nat.le_max_r | exact A] | apply B; exact I].
  - destruct C as [C | (s & I & C)]; [| right; exists s; split; [right; exact I | exact C]].
    destruct (Nat.max_spec w (String.length a)) as [[_ M] | [_ M]]; rewrite C, M; [right; exists a; split; [left; reflexivity | reflexivity] | left; reflexivity].
Qed.

Lemma mapM_err : forall (f : xml -> res string) l e, mapM f l = Err e -> exists y e', In y l /\ f y = Err e'.
Proof.
  intros f l. induction l as [| a l IH]; intros e E; [discriminate |]. cbn in E.
  destruct (f a) as [b | e0] eqn:F; [| exists a, e0; split; [left; reflexivity | exact F]].
  destruct (mapM f l) as [c | e1]; [discriminate |].
  destruct (IH e1 eq_refl) as (y & e' & I & Y). exists y, e'. split; [right; exact I | exact Y].
Qed.
Lemma mapM_ok : forall (f : xml -> res string) l r, mapM f l = Ok r ->
  (forall y, In y l -> exists s, f y = Ok s /\ In s r) /\ (forall s, In s r -> exists y, In y l /\ f y = Ok s).
Proof.
  intros f l. induction l as [| a l IH]; intros r E; cbn in E.
  - injection E as <-. split; intros ? [].
  - destruct (f a) as [b |] eqn:F; [| discriminate]. destruct (mapM f l) as [c |] eqn:M; [| discriminate].
    injection E as <-. destruct (IH c eq_refl) as [A B]. split.
    + intros y [<- | I]; [exists b; split; [exact F | left; reflexivity] |].
      destruct (A y I) as (s & S & J). exists s. split; [exact S | right; exact J].
    + intros s [<- | I]; [exists a; split; [left; reflexivity | exact F] |].
      destruct (B s I) as (y & J & S). exists y. split; [right; exact J | exact S].
Qed.
Lemma width_raises : forall nm x e, width nm x = Err e -> Raises nm x.
Proof.
  intros nm x e E. unfold width in E. destruct (mapM nm (xkids x)) as [l | e0] eqn:M; [discriminate |].
  exact (mapM_err nm _ _ M).
Qed.
Lemma width_is : forall nm x w, width nm x = Ok w -> IsWidth nm x w.
Proof.
  intros nm x w E. unfold width in E. destruct (mapM nm (xkids x)) as [l |] eqn:M; [| discriminate].
  cbn [bind] in E. apply mapM_ok in M. destruct M as [A B].
  destruct (fold_max l 0) as (_ & U & V). set (n := fold_left _ l 0) in *.
  assert (W : w = (n + 3 + 2) / 3 * 3) by congruence. clear E. subst w.
  assert (D := Nat.div_mod (n + 3 + 2) 3 ltac:(discriminate)).
  assert (R := Nat.mod_upper_bound (n + 3 + 2) 3 ltac:(discriminate)).
  set (q := (n + 3 + 2) / 3) in *. set (m := (n + 3 + 2) mod 3) in *. clearbody q m.
  split; [exists q; lia |]. split; [lia |]. split.
  - intros y I. destruct (A y I) as (s & S & J). exists s. split; [exact S |]. specialize (U s J). lia.
  - intros k K F. destruct V as [V | (s & J & V)]; [lia |].
    destruct (B s J) as (y & I & S). destruct (F y I) as (s' & S' & L). rewrite S in S'. injection S' as <-. lia.
Qed.
Lemma first_at : forall nm p l, match FirstWidth nm p l with
  | Some w => exists j y, nth_error l j = Some (p, y) /\ width nm y = Ok w /\
                (forall k z, k < j -> nth_error l k = Some (p, z) -> Raises nm z)
  | None => forall k z, nth_error l k = Some (p, z) -> Raises nm z
  end.
Proof.
  intros nm p l. induction l as [| [q x] l IH]; [intros [| k] z E; discriminate |].
  cbn [FirstWidth]. destruct (list_eq_dec Nat.eq_dec p q) as [<- | N].
  - destruct (width nm x) as [w | e] eqn:W.
    + exists 0, x. split; [reflexivity |]. split; [exact W |]. intros k z K. lia.
    + apply width_raises in W. destruct (FirstWidth nm p l) as [w |].
      * destruct IH as (j & y & J & Y & K). exists (S j), y. split; [exact J |]. split; [exact Y |].
        intros [| k] z L E; [injection E as <-; exact W | apply (K k z); [lia | exact E]].
      * intros [| k] z E; [injection E as <-; exact W | exact (IH k z E)].
  - destruct (FirstWidth nm p l) as [w |].
    + destruct IH as (j & y & J & Y & K). exists (S j), y. split; [exact J |]. split; [exact Y |].
      intros [| k] z L E; [injection E as E _; congruence | apply (K k z); [lia | exact E]].
    + intros [| k] z E; [injection E as E _; congruence | exact (IH k z E)].
Qed.
Lemma nth_firstn : forall (A : Type) (l : list A) i j a, nth_error (firstn i l) j = Some a -> j < i /\ nth_error l j = Some a.
Proof.
  intros A l. induction l as [| b l IH]; intros [| i] [| j] a E; try discriminate; cbn in E |- *; [split; [lia | exact E] |].
  destruct (IH i j a E). split; [lia | assumption].
Qed.
Lemma firstn_nth : forall (A : Type) (l : list A) i j, j < i -> nth_error (firstn i l) j = nth_error l j.
Proof.
  intros A l. induction l as [| b l IH]; intros [| i] [| j] L; try lia; try reflexivity. cbn. apply IH. lia.
Qed.
Theorem width_used : forall nm l i p x, nth_error l i = Some (p, x) ->
  match nth_error (width_run nm l []) i with
  | Some (Ok w) => exists j y, j <= i /\ nth_error l j = Some (p, y) /\ IsWidth nm y w /\
      (forall k z, k < j -> nth_error l k = Some (p, z) -> Raises nm z)
  | Some (Err _) => forall k z, k <= i -> nth_error l k = Some (p, z) -> Raises nm z
  | None => False
  end.
Proof.
  intros nm l i p x E. rewrite (width_first nm l i p x E). assert (F := first_at nm p (firstn i l)).
  destruct (FirstWidth nm p (firstn i l)) as [w |].
  - destruct F as (j & y & J & Y & K). apply nth_firstn in J. destruct J as [L J].
    exists j, y. split; [lia |]. split; [exact J |]. split; [apply width_is; exact Y |].
    intros k z H Z. apply (K k z H). rewrite firstn_nth by lia. exact Z.
  - assert (G : forall k z, k < i -> nth_error l k = Some (p, z) -> Raises nm z).
    { intros k z H Z. apply (F k z). rewrite firstn_nth by exact H. exact Z. }
    destruct (width nm x) as [w | e] eqn:W.
    + exists i, x. split; [lia |]. split; [exact E |]. split; [apply width_is; exact W | exact G].
    + apply width_raises in W. intros k z H Z. destruct (Nat.eq_dec k i) as [-> | N]; [rewrite E in Z; injection Z as <-; exact W |].
      apply (G k z); [lia | exact Z].
Qed.
