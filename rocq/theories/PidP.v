(** Proofs about PidM.v. *)
From Coq Require Import String Ascii List Bool Arith Lia.
From Verif Require Import Base BaseP TagM TagSpec RefM RefSpec RefP IidSpec IidP PidM PidSpec.
Import ListNotations.
Open Scope string_scope.
Open Scope list_scope.

Lemma delim_ok : forall c, is_delim c = true <-> Delim c.
Proof.
  intro c. unfold is_delim, Delim. rewrite existsb_exists. split.
  - intros (x & I & E). apply Ascii.eqb_eq in E. subst. exact I.
  - intro I. exists c. split; [exact I | apply Ascii.eqb_refl].
Qed.

Lemma all_words : forall l, exists x, Words x /\ spelled x = l.
Proof.
  induction l as [| c r ([ps w] & [H1 H2] & E)]; [exists ([], []); split; [split; [intros ? ? [] | intros ? []] | reflexivity] |].
  cbn [fst snd] in *. destruct (is_delim c) eqn:D.
  - apply delim_ok in D. exists (([], c) :: ps, w). split.
    + split; cbn [fst snd]; [| exact H2]. intros w' c' [Q | I]; [injection Q as <- <-; split; [intros ? [] | exact D] | auto].
    + rewrite <- E. reflexivity.
  - assert (N : ~ Delim c) by (rewrite <- delim_ok, D; discriminate). destruct ps as [| [w1 c1] ps].
    + exists ([], c :: w). split; [split; cbn [fst snd]; [intros ? ? [] | intros c' [<- | I]; auto] |]. rewrite <- E. reflexivity.
    + exists ((c :: w1, c1) :: ps, w). split.
      * split; cbn [fst snd]; [| exact H2]. intros w' c' [Q | I].
        -- injection Q as <- <-. destruct (H1 w1 c1 (or_introl eq_refl)) as [P Q]. split; [| exact Q]. intros d [<- | I]; auto.
        -- apply H1. right. exact I.
      * rewrite <- E. reflexivity.
Qed.

Section Loop.
Variables (T : table) (nurl : string) (m : nsmap) (to : option nsmap).
Let conv := pid_conv T nurl m to.
Let loop := pid_loop T nurl m to.

Lemma loop_word : forall w tag rest new, Plain w -> loop (w ++ rest) tag new = loop rest (tag ++ w) new.
Proof.
  unfold loop. induction w as [| c w IH]; intros tag rest new P; [rewrite app_nil_r; reflexivity |].
  cbn [app pid_loop]. destruct (is_delim c) eqn:D; [apply delim_ok in D; destruct (P c (or_introl eq_refl) D) |].
  rewrite IH by (intros d I; apply P; right; exact I). rewrite <- app_assoc. reflexivity.
Qed.

Lemma loop_words : forall ps last new, Words (ps, last) ->
  loop (spelled (ps, last)) [] new = (let! r := swapped conv ps last in Ok (new ++ r)).
Proof.
  unfold loop, conv. induction ps as [| [w c] ps IH]; intros last new [H1 H2]; cbn [fst snd] in *.
  - cbn [spelled fst snd flat_map app swapped]. assert (E := loop_word last [] [] new H2). unfold loop in E. rewrite app_nil_r in E. rewrite E.
    cbn [app pid_loop]. destruct last; cbn [word bind]; [rewrite app_nil_r |]; reflexivity.
  - assert (W : Words (ps, last)) by (split; [intros; apply H1; right; assumption | exact H2]).
    destruct (H1 w c (or_introl eq_refl)) as [P D]. apply delim_ok in D.
    unfold spelled. cbn [fst snd flat_map]. rewrite <- !app_assoc.
    assert (E := loop_word w [] ([c] ++ flat_map (fun '(w, c) => w ++ [c]) ps ++ last) new P). unfold loop in E. rewrite E.
    cbn [app pid_loop]. rewrite D. change (flat_map (fun '(w, c) => w ++ [c]) ps ++ last) with (spelled (ps, last)).
    cbn [swapped]. destruct w as [| w0 w].
    + rewrite (IH last (new ++ [c]) W). cbn [word bind]. destruct (swapped (pid_conv T nurl m to) ps last) as [r | e]; [| reflexivity].
      cbn [bind app]. rewrite <- app_assoc. reflexivity.
    + cbn [word]. destruct (pid_conv T nurl m to (w0 :: w)) as [w' | e]; [| reflexivity]. cbn [bind].
      rewrite (IH last ((new ++ [c]) ++ w') W). destruct (swapped (pid_conv T nurl m to) ps last) as [r | e]; [| reflexivity].
      cbn [bind app]. rewrite <- !app_assoc. reflexivity.
Qed.
End Loop.

Lemma pid_exact : forall T w t m to x, Unambiguous T -> In w (map e_url T) -> Name t -> Words x ->
  parse_instanceid T (RNode (etree w t) m (Some (to_s (spelled x)))) to =
  (let! l := swapped (pid_conv T w m to) (fst x) (snd x) in Ok (to_s l)).
Proof.
  intros T w t m to [ps last] U Iw Nt W. unfold parse_instanceid. rewrite node_url_ok by assumption. cbn [bind r_text r_nsmap].
  rewrite of_to, (loop_words T w m to ps last [] W). cbn [fst snd app].
  destruct (swapped (pid_conv T w m to) ps last) as [r | e]; reflexivity.
Qed.

(** One step. *)
Lemma one_step : forall conv (c : ascii) w, swapped conv [([], c)] w = rewritten conv [([], c)] w.
Proof. reflexivity. Qed.

(** More than one item. *)
Lemma letter_delim : forall c, Letter c -> c <> "."%char -> ~ Delim c.
Proof.
  intros c L N D. unfold Letter in L. cbn in L. unfold Delim in D. cbn in D.
  repeat (destruct D as [<- | D]; [try congruence; repeat (destruct L as [L | L]; [discriminate L |]); destruct L |]). destruct D.
Qed.
Lemma qname_plain : forall T m d p n u, Resolved T m d p u -> YangId n -> NoDotQ p n -> Plain (qname p n).
Proof.
  intros T m d p n u R Y [N1 N2] c I.
  assert (X : forall s, YangId s -> NoDot s -> In c (chars s) -> ~ Delim c).
  { intros s [_ Hs] D J. apply letter_delim; [auto |]. intros ->. apply D. exact J. }
  destruct p as [p |]; cbn [qname] in I; cbv iota in N2; [| exact (X n Y N1 I)].
  inversion R; subst. apply in_app_or in I. destruct I as [I | [<- | I]]; [apply (X p); auto | | exact (X n Y N1 I)].
  intro D. unfold Delim in D. cbn in D. repeat (destruct D as [D | D]; [discriminate D |]). destruct D.
Qed.
Lemma qname_nonempty : forall p n, YangId n -> qname p n <> [].
Proof. intros [p |] n [(c & r & -> & _) _]; cbn; [destruct (chars p); discriminate | discriminate]. Qed.

(** Readable paths begin with a letter after the first slash. *)
Lemma readable : forall T m l s c d r, Denotes T m None l s -> show_items l = c :: d :: r -> Alpha d.
Proof.
  intros T m l s c d r D E. inversion D as [| d0 p n u l' s' R Y D' | | |]; subst; [discriminate |].
  cbn [show_items flat_map show_item] in E. injection E as _ E.
  assert (F : exists a q, qname p n = a :: q /\ Alpha a).
  { destruct p as [p |]; cbn [qname].
    - inversion R as [| ? ? [(a & q & -> & A) _] _]; subst. exists a. eexists. split; [reflexivity | exact A].
    - destruct Y as [(a & q & -> & A) _]. exists a. eexists. split; [reflexivity | exact A]. }
  destruct F as (a & q & F & A). rewrite F in E. injection E as <- _. exact A.
Qed.

Theorem pid_lost : forall T w t m to i j l s text, Unambiguous T -> In w (map e_url T) -> Name t ->
  Denotes T m None (i :: j :: l) s -> Tame i ->
  parse_instanceid T (RNode (etree w t) m (Some (to_s (show_items (i :: j :: l))))) to = Ok text ->
  forall T' m' l' s', to_s (show_items l') = text -> ~ Denotes T' m' None l' s'.
Proof.
  intros T w t m to i j l s text U Iw Nt D Tm E T' m' l' s' E' D'.
  inversion D as [| d0 p n u l0 s0 R Y D1 | | |]; subst. cbn [Tame] in Tm.
  assert (P := qname_plain T m None p n u R Y Tm). assert (NE := qname_nonempty p n Y).
  assert (J : exists c rest, show_items (j :: l) = c :: rest /\ (c = "/"%char \/ c = "["%char)).
  { destruct j; cbn; eexists _, _; split; try reflexivity; auto. }
  destruct J as (c & rest & J & C).
  destruct (all_words rest) as ([ps last] & W & Sp).
  assert (X : to_s (show_items (Step p n :: j :: l)) = to_s (spelled (([], "/"%char) :: (qname p n, c) :: ps, last))).
  { f_equal. change (show_items (Step p n :: j :: l)) with (show_item (Step p n) ++ show_items (j :: l)). rewrite J, <- Sp.
    unfold spelled. cbn [fst snd flat_map show_item app]. rewrite <- !app_assoc. reflexivity. }
  assert (WX : Words (([], "/"%char) :: (qname p n, c) :: ps, last)).
  { destruct W as [W1 W2]. cbn [fst snd] in *. split; cbn [fst snd]; [| exact W2].
    intros w' c' [Q | [Q | I]]; [injection Q as <- <-; split; [intros ? [] | left; reflexivity] | injection Q as <- <- | auto].
    split; [exact P |]. destruct C as [-> | ->]; cbn; auto. }
  rewrite X, pid_exact in E by assumption. cbn [fst snd] in E.
  apply bind_ok in E. destruct E as (o & E & Q). injection Q as Q. assert (E' := eq_sym Q).
  apply (f_equal of_s) in E'. rewrite !of_to in E'. cbn [swapped word bind] in E.
  apply bind_ok in E. destruct E as (o1 & E & Q1). injection Q1 as <-.
  apply bind_ok in E. destruct E as (w1 & _ & E). apply bind_ok in E. destruct E as (o2 & _ & Q2). injection Q2 as <-.
  cbn [app] in E'. assert (A := readable T' m' l' s' _ _ _ D' E'). unfold Alpha in A. cbn in A.
  destruct C as [-> | ->]; repeat (destruct A as [A | A]; [discriminate A |]); destruct A.
Qed.

Lemma pid_one : forall T w t m to c q, Unambiguous T -> In w (map e_url T) -> Name t -> Delim c -> Plain q ->
  parse_instanceid T (RNode (etree w t) m (Some (to_s (c :: q)))) to =
  (let! l := rewritten (pid_conv T w m to) [([], c)] q in Ok (to_s l)).
Proof.
  intros T w t m to c q U Iw Nt D P. rewrite <- one_step.
  change (c :: q) with (spelled ([([], c)], q)). rewrite pid_exact; auto. split; cbn [fst snd]; [| exact P].
  intros w' c' [Q | []]. injection Q as <- <-. split; [intros ? [] | exact D].
Qed.
