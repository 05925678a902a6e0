(** Proofs about the parser of YANG statements. *)
From Coq Require Import String Ascii List Bool Arith Lia.
From Verif Require Import ParseM ParseSpec.
Import ListNotations.
Open Scope string_scope.
Open Scope list_scope.
Open Scope nat_scope.

Scheme Spells_mut := Minimality for Spells Sort Prop with SpellsAll_mut := Minimality for SpellsAll Sort Prop.
Scheme Nested_mut := Minimality for Nested Sort Prop with NestedAll_mut := Minimality for NestedAll Sort Prop.

Lemma pbind_ok : forall {A B} (x : pres A) (f : A -> pres B) b, pbind x f = POk b -> exists a, x = POk a /\ f a = POk b.
Proof. intros A B [a | e] f b H; [exists a; auto | discriminate]. Qed.

Section P.
  Variable ident : string -> bool.
  Variable keep : bool.
  Notation parse := (parse ident keep).
  Notation kids_of := (kids_of ident keep).

  Definition is_version (k : string) (a : option string) : bool :=
    andb (String.eqb k "yang-version") (match a with Some x => String.eqb x "1.1" | None => false end).

  (** What a successful call did, for a statement that is no comment: [st1] is the state at
      the keyword, [st2] that at the opening brace or the semicolon. *)
  Definition ArgToks (a : option string) (la : list token) : Prop := Arg a (map t_tok la).
  Definition Head (st1 : pst) (k : string) (a : option string) (st2 : pst) (t : token) (r : list token) : Prop :=
    exists t1 la, p_toks st1 = t1 :: la ++ t :: r /\ t_tok t1 = Word [(k, false)] /\ ident k = true /\ ArgToks a la /\
      p_toks st2 = t :: r /\ p_at st2 = t_from t /\ p_last st2 = p_last st1 /\ p_1_1 st2 = orb (p_1_1 st1) (is_version k a).

  Definition Skipped (inner : bool) (st st1 : pst) : Prop :=
    st1 = st \/ keep = true /\ inner = false /\ exists t r c e m, p_toks st = t :: r /\ t_tok t = Comment c e m /\ st1 = skip_tok st.

  Lemma parse_inv : forall n inner st s st', parse (S n) inner st = POk (s, st') ->
    (keep = true /\ inner = true /\ exists t r c e m, p_toks st = t :: r /\ t_tok t = Comment c e m /\ st' = skip_tok st /\
       s = Stmt "_comment" (Some c) (fst (t_to t)) (p_at st) (p_last st, snd (t_to t)) (Some (e, m)) []) \/
    (exists st1 k a st2 t r line ks st3, Skipped inner st st1 /\ Head st1 k a st2 t r /\
       (t_tok t = Semi /\ ks = [] /\ st3 = skip_tok st2 \/ t_tok t = Open /\ kids_of n (set_last (skip_tok st2)) = POk (ks, st3)) /\
       s = Stmt k a line (p_at st) (p_at st3) None ks /\ st' = set_last st3).
  Proof.
    intros n inner st s st' H. cbn [ParseM.parse] in H. unfold get_comment in H.
    assert (B : forall st1, statement ident (kids_of n) (p_at st) st1 = POk (s, st') ->
              exists k a st2 t r line ks st3, Head st1 k a st2 t r /\
       (t_tok t = Semi /\ ks = [] /\ st3 = skip_tok st2 \/ t_tok t = Open /\ kids_of n (set_last (skip_tok st2)) = POk (ks, st3)) /\
       s = Stmt k a line (p_at st) (p_at st3) None ks /\ st' = set_last st3).
    { clear H. intros st1 H. unfold statement in H.
      apply pbind_ok in H. destruct H as ((k & q1) & K & H). unfold get_keyword in K.
      destruct (p_toks st1) as [| t1 r1] eqn:T1; [discriminate |].
      destruct (t_tok t1) as [[| (w, [|]) [| ? ?]] | | | |] eqn:TT1; try discriminate.
      destruct (ident w) eqn:I; [| discriminate]. injection K as -> <-. unfold skip_tok in H. rewrite T1 in H. cbn [p_toks p_at p_last p_1_1] in H.
      apply pbind_ok in H. destruct H as ((t & q2) & K & H). unfold peek in K. cbn [p_toks p_at p_last p_1_1] in K.
      destruct r1 as [| t2 r2]; [discriminate |]. injection K as <- <-.
      apply pbind_ok in H. destruct H as ((a & q3) & K & H).
      assert (A : exists la r3 at3, t2 :: r2 = la ++ r3 /\ ArgToks a la /\ q3 = PSt r3 at3 (p_last st1) (p_1_1 st1)).
      { destruct (t_tok t2) as [l | | | |] eqn:TT2; try (exists [], (t2 :: r2), (t_from t2); injection K as <- <-; split; [| split]; [reflexivity | constructor | reflexivity]);
          try (cbn in K; rewrite TT2 in K; discriminate).
        cbn in K. rewrite TT2 in K. injection K as <- <-. exists [t2], r2, (t_to t2). split; [reflexivity |]. split; [| reflexivity].
        unfold ArgToks. cbn. rewrite TT2. constructor. }
      clear K. destruct A as (la & r3 & at3 & E & A & ->).
      apply pbind_ok in H. destruct H as ((t & q4) & K & H). unfold peek in K.
      assert (V : version k a (PSt r3 at3 (p_last st1) (p_1_1 st1)) = PSt r3 at3 (p_last st1) (orb (p_1_1 st1) (is_version k a))).
      { unfold version. change (k =? "yang-version")%string with (String.eqb k "yang-version"). fold (is_version k a). destruct (is_version k a); rewrite ?orb_true_r, ?orb_false_r; reflexivity. }
      rewrite V in K, H. cbn [p_toks p_at p_last p_1_1] in K. destruct r3 as [| t3 r3]; [discriminate |]. injection K as <- <-.
      apply pbind_ok in H. destruct H as ((ks & q5) & K & H). injection H as <- <-.
      exists k, a, (PSt (t3 :: r3) (t_from t3) (p_last st1) (orb (p_1_1 st1) (is_version k a))), t3, r3, (fst at3), ks, q5.
      split. { exists t1, la. rewrite T1, E. repeat split; auto. }
      split. { destruct (t_tok t3) eqn:TT3; try discriminate; [right | left]; auto. injection K as <- <-. auto. }
      split; [| reflexivity]. unfold set_last. cbn. destruct (p_at q5); reflexivity. }
    destruct keep eqn:KP.
    2: { right. destruct inner; destruct (B st H) as (k & a & st2 & t & r & line & ks & st3 & X); exists st, k, a, st2, t, r, line, ks, st3; (split; [left; auto | exact X]). }
    destruct (p_toks st) as [| t0 r0] eqn:T0; [| destruct (t_tok t0) as [| | | | c e m] eqn:TT0];
      try (right; destruct inner; destruct (B st H) as (k & a & st2 & t & r & line & ks & st3 & X); exists st, k, a, st2, t, r, line, ks, st3; (split; [left; auto | exact X])).
    destruct inner.
    - left. split; auto. split; auto. injection H as <- <-. exists t0, r0, c, e, m. unfold skip_tok. rewrite T0. cbn. auto.
    - right. destruct (B _ H) as (k & a & st2 & t & r & line & ks & st3 & X). exists (skip_tok st), k, a, st2, t, r, line, ks, st3.
      split; [| exact X]. right. split; auto. split; auto. exists t0, r0, c, e, m. auto.
  Qed.

  Lemma kids_inv : forall n st ks st', kids_of (S n) st = POk (ks, st') ->
    exists t r, p_toks st = t :: r /\
      (t_tok t = Close /\ ks = [] /\ st' = PSt r (t_to t) (p_last st) (p_1_1 st) \/
       t_tok t <> Close /\ exists s ks' st1, parse n true (PSt (t :: r) (t_from t) (p_last st) (p_1_1 st)) = POk (s, st1) /\
         kids_of n st1 = POk (ks', st') /\ ks = s :: ks').
  Proof.
    intros n st ks st' H. cbn [ParseM.kids_of] in H. apply pbind_ok in H. destruct H as ((t0 & st0) & P & H).
    unfold peek in P. destruct (p_toks st) as [| t r] eqn:T; [discriminate |]. injection P as <- <-. exists t, r. split; auto.
    assert (D : t_tok t = Close \/ t_tok t <> Close) by (destruct (t_tok t); [right | right | left | right | right]; congruence).
    destruct D as [D | D].
    - left. rewrite D in H. injection H as <- <-. auto.
    - right. split; auto. assert (H' : pbind (parse n true (PSt (t :: r) (t_from t) (p_last st) (p_1_1 st))) (fun '(s, st1) => pbind (kids_of n st1) (fun '(l, st2) => POk (s :: l, st2))) = POk (ks, st'))
        by (destruct (t_tok t); auto; congruence).
      apply pbind_ok in H'. destruct H' as ((s & st1) & H1 & H'). apply pbind_ok in H'. destruct H' as ((l & st2) & H2 & H').
      injection H' as <- <-. exists s, l, st1. auto.
  Qed.

  (** ** What is read is what is written *)
  Lemma app_split3 : forall (t1 : token) la t r w c rest, r = w ++ c :: rest ->
    t1 :: la ++ t :: r = (t1 :: la ++ [t] ++ w ++ [c]) ++ rest.
  Proof. intros. subst r. cbn. rewrite <- !app_assoc. cbn. rewrite <- app_assoc. reflexivity. Qed.

  Lemma sound : forall n,
    (forall inner st s st', parse n inner st = POk (s, st') ->
       exists w, p_toks st = w ++ p_toks st' /\ w <> [] /\
         (if inner then Spells ident keep (shape s) (map t_tok w) else SpellsTop ident keep (shape s) (map t_tok w))) /\
    (forall st ks st', kids_of n st = POk (ks, st') ->
       exists w c, p_toks st = w ++ c :: p_toks st' /\ t_tok c = Close /\ SpellsAll ident keep (map shape ks) (map t_tok w)).
  Proof.
    induction n as [| n (IHs & IHk)]; [split; discriminate |]. split.
    - intros inner st s st' H. apply parse_inv in H.
      destruct H as [(K & -> & t & r & c & e & m & T & TT & -> & ->) | (st1 & k & a & st2 & t & r & line & ks & st3 & S & (t1 & la & T1 & TT1 & I & A & T2 & _) & D & -> & ->)].
      + exists [t]. unfold skip_tok. rewrite T. split; [reflexivity |]. split; [discriminate |]. cbn. rewrite TT. constructor. auto.
      + assert (W : exists w, p_toks st1 = w ++ p_toks st3 /\ w <> [] /\ Spells ident keep (Tree k a (map shape ks)) (map t_tok w)).
        { rewrite T1. destruct D as [(TT & -> & ->) | (TT & D)].
          - exists (t1 :: la ++ [t]). unfold skip_tok. rewrite T2. cbn. rewrite <- app_assoc. split; [reflexivity |]. split; [discriminate |].
            rewrite map_app. cbn. rewrite TT1, TT. constructor; auto.
          - apply IHk in D. destruct D as (w & c & E & C & SP). unfold skip_tok in E. rewrite T2 in E. cbn in E.
            exists (t1 :: la ++ [t] ++ w ++ [c]). split; [apply app_split3; auto |]. split; [discriminate |].
            cbn. rewrite map_app. cbn. rewrite map_app. cbn. rewrite TT1, TT, C. constructor; auto. }
        destruct W as (w & E & N & SP). cbn [set_last p_toks]. destruct S as [-> | (K & -> & t0 & r0 & c & e & m & T0 & TT0 & ->)].
        * exists w. split; auto. split; auto. destruct inner; cbn [shape]; auto. constructor. auto.
        * exists (t0 :: w). unfold skip_tok in E. rewrite T0 in E. cbn [p_toks] in E. rewrite T0, E. split; [reflexivity |]. split; [discriminate |].
          cbn. rewrite TT0. apply st_after; auto.
    - intros st ks st' H. apply kids_inv in H. destruct H as (t & r & T & [(TT & -> & ->) | (TT & s & ks' & st1 & H1 & H2 & ->)]).
      + exists [], t. rewrite T. split; [reflexivity |]. split; auto. constructor.
      + apply IHs in H1. destruct H1 as (w1 & E1 & N1 & S1). apply IHk in H2. destruct H2 as (w2 & c & E2 & C & S2).
        cbn [p_toks] in E1. exists (w1 ++ w2), c. rewrite T, E1, E2, <- app_assoc. split; [reflexivity |]. split; auto.
        rewrite map_app. cbn. constructor; auto.
  Qed.

  (** ** All that is written is read *)
  Lemma Spells_len : forall t w, Spells ident keep t w -> 1 <= length w.
  Proof. intros t w H. inversion H; subst; cbn; lia. Qed.

  Lemma map_split : forall (l : list token) a b, map t_tok l = a ++ b -> exists l1 l2, l = l1 ++ l2 /\ map t_tok l1 = a /\ map t_tok l2 = b.
  Proof.
    intros l a. revert l. induction a as [| x a IH]; intros l b H; [exists [], l; auto |].
    destruct l as [| t l]; [discriminate |]. cbn in H. injection H as <- H. destruct (IH l b H) as (l1 & l2 & -> & <- & <-). exists (t :: l1), l2. auto.
  Qed.

  Lemma toks_version : forall k a st, p_toks (version k a st) = p_toks st.
  Proof. intros k a st. unfold version. destruct (andb _ _); reflexivity. Qed.

  (** From the keyword on, for any way to read the substatements *)
  Lemma statement_ok : forall loop first st t1 la t r k a, p_toks st = t1 :: la ++ t :: r -> t_tok t1 = Word [(k, false)] -> ident k = true -> ArgToks a la ->
    (t_tok t = Semi -> exists line st', statement ident loop first st = POk (Stmt k a line first (p_at st') None [], st') /\ p_toks st' = r) /\
    (t_tok t = Open -> exists st2, p_toks st2 = r /\ forall ks st3, loop st2 = POk (ks, st3) ->
       exists line, statement ident loop first st = POk (Stmt k a line first (p_at st3) None ks, set_last st3)).
  Proof.
    intros loop first st t1 la t r k a T TT1 I A. unfold statement, get_keyword. rewrite T, TT1, I. set (st1 := PSt (la ++ t :: r) (t_to t1) (p_last st) (p_1_1 st)).
    assert (E0 : skip_tok st = st1) by (unfold skip_tok, st1; rewrite T; reflexivity). rewrite E0. cbn [pbind].
    assert (X : forall st2, peek st1 = POk (match la with x :: _ => t_tok x | [] => t_tok t end, st2) -> 
                t_tok t = Semi \/ t_tok t = Open ->
                exists st3, match (match la with x :: _ => t_tok x | [] => t_tok t end) with
                            | Open | Semi => POk (None, st2)
                            | _ => pbind (get_strings st2) (fun '(l, st3) => POk (Some (String.concat "" (map fst l)), st3))
                            end = POk (a, st3) /\ p_toks st3 = t :: r).
    { intros st2 P TT. unfold peek in P. unfold ArgToks in A. inversion A as [E1 E2 | l E1 E2].
      - destruct la; [| discriminate]. cbn in P. injection P as <-. exists (PSt (t :: r) (t_from t) (p_last st) (p_1_1 st)). destruct TT as [-> | ->]; auto.
      - destruct la as [| x [| y la]]; try discriminate. cbn in E2. injection E2 as E2. subst a. cbn in P. injection P as P. subst st2. rewrite <- E2. 
        eexists. cbn. rewrite <- E2. cbn. split; reflexivity. }
    assert (P : exists st2, peek st1 = POk (match la with x :: _ => t_tok x | [] => t_tok t end, st2)) by (unfold peek, st1; destruct la; cbn; eexists; reflexivity).
    destruct P as (st2 & P). rewrite P. cbn [pbind].
    split; intro TT.
    - destruct (X st2 P (or_introl TT)) as (st3 & E & T3). rewrite E. cbn [pbind]. unfold peek. rewrite toks_version, T3. cbn [pbind]. rewrite TT. cbn [pbind].
      unfold set_last, skip_tok. cbn [p_toks p_at p_last p_1_1 fst snd]. rewrite <- surjective_pairing.
      exists (fst (p_at (version k a st3))), (PSt r (t_to t) (fst (t_to t)) (p_1_1 (version k a st3))). split; reflexivity.
    - destruct (X st2 P (or_intror TT)) as (st3 & E & T3). rewrite E. cbn [pbind]. unfold peek. rewrite toks_version, T3. cbn [pbind]. rewrite TT.
      eexists. split; [| intros ks st4 L; eexists; rewrite L; cbn [pbind]; unfold set_last; cbn; destruct (p_at st4); reflexivity].
      reflexivity.
  Qed.

  Lemma Forall_len : forall (l : list token), length (map t_tok l) = length l.
  Proof. intro l. apply map_length. Qed.

  Definition Reads (t : tree) (w : list tok) : Prop :=
    forall n st toks rest, map t_tok toks = w -> p_toks st = toks ++ rest -> length w <= n ->
      (exists s st', parse n true st = POk (s, st') /\ shape s = t /\ p_toks st' = rest) /\
      (forall k a ks loop_first st0, t = Tree k a ks -> p_toks st0 = toks ++ rest ->
         exists s st', statement ident (kids_of (pred n)) loop_first st0 = POk (s, st') /\ shape s = t /\ p_toks st' = rest).
  Definition ReadsAll (ts : list tree) (w : list tok) : Prop :=
    forall n st toks c rest, map t_tok toks = w -> t_tok c = Close -> p_toks st = toks ++ c :: rest -> S (length w) <= n ->
      exists ss st', kids_of n st = POk (ss, st') /\ map shape ss = ts /\ p_toks st' = rest.

  Lemma parse_word : forall n inner st t r l, p_toks st = t :: r -> t_tok t = Word l -> parse (S n) inner st = statement ident (kids_of n) (p_at st) st.
  Proof. intros n inner st t r l T TT. cbn [ParseM.parse]. unfold get_comment. rewrite T, TT. destruct keep, inner; reflexivity. Qed.

  Lemma parse_after : forall n st t r c e m, keep = true -> p_toks st = t :: r -> t_tok t = Comment c e m ->
    parse (S n) false st = statement ident (kids_of n) (p_at st) (skip_tok st).
  Proof.
    intros n st t r c e m K T TT. assert (G : get_comment keep st = (Some (c, e, m), skip_tok st)) by (unfold get_comment; rewrite K, T, TT; reflexivity).
    cbn [ParseM.parse]. rewrite G. reflexivity.
  Qed.

  Lemma complete : forall t w, Spells ident keep t w -> Reads t w.
  Proof.
    apply (Spells_mut ident keep Reads ReadsAll).
    - intros k a la I A n st toks rest M T L. destruct toks as [| t1 toks]; [discriminate |]. cbn in M. injection M as M1 M2.
      apply map_split in M2. destruct M2 as (la' & l2 & -> & M2 & M3). destruct l2 as [| t [| ? ?]]; try discriminate. injection M3 as M3. subst la.
      assert (X : forall loop first st0, p_toks st0 = (t1 :: la' ++ [t]) ++ rest -> exists s st', statement ident loop first st0 = POk (s, st') /\ shape s = Tree k a [] /\ p_toks st' = rest).
      { intros loop first st0 T0. cbn in T0. rewrite <- app_assoc in T0. cbn in T0. destruct (statement_ok loop first st0 t1 la' t rest k a T0 M1 I A) as (X & _).
        destruct (X M3) as (line & st' & E & E'). exists (Stmt k a line first (p_at st') None []), st'. auto. }
      split; [| intros; apply X; auto]. destruct n as [| n]; [cbn in L; lia |]. rewrite (parse_word n true st t1 ((la' ++ [t]) ++ rest) [(k, false)]); auto.
    - intros k a la ks body I A _ IH n st toks rest M T L. destruct toks as [| t1 toks]; [discriminate |]. cbn in M. injection M as M1 M2.
      apply map_split in M2. destruct M2 as (la' & l2 & -> & M2 & M3). destruct l2 as [| t l3]; try discriminate. cbn in M3. injection M3 as M3 M4. subst la.
      apply map_split in M4. destruct M4 as (b & l4 & -> & M4 & M5). destruct l4 as [| c [| ? ?]]; try discriminate. injection M5 as M5.
      destruct n as [| n]; [cbn in L; lia |].
      assert (X : forall first st0, p_toks st0 = (t1 :: la' ++ t :: b ++ [c]) ++ rest -> exists s st', statement ident (kids_of n) first st0 = POk (s, st') /\ shape s = Tree k a ks /\ p_toks st' = rest).
      { intros first st0 T0. assert (T1 : p_toks st0 = t1 :: la' ++ t :: b ++ c :: rest).
        { rewrite T0. cbn. rewrite <- app_assoc. cbn. rewrite <- app_assoc. reflexivity. }
        destruct (statement_ok (kids_of n) first st0 t1 la' t (b ++ c :: rest) k a T1 M1 I A) as (_ & X).
        destruct (X M3) as (st2 & E2 & E3). destruct (IH n st2 b c rest M4 M5 E2) as (ss & st3 & F1 & F2 & F3).
        { cbn in L. rewrite app_length in L. cbn in L. rewrite app_length in L. cbn in L. lia. }
        destruct (E3 ss st3 F1) as (line & G). exists (Stmt k a line first (p_at st3) None ss), (set_last st3).
        split; auto. split; [cbn; congruence | exact F3]. }
      split; [| intros; apply X; auto]. rewrite (parse_word n true st t1 ((la' ++ t :: b ++ [c]) ++ rest) [(k, false)]); auto.
    - intros c e m K n st toks rest M T L. split; [| intros; discriminate].
      destruct toks as [| t [| ? ?]]; try discriminate. injection M as M. destruct n as [| n]; [cbn in L; lia |].
      cbn [ParseM.parse]. unfold get_comment. rewrite K, T. cbn [app]. rewrite M. eexists. eexists. split; [reflexivity |]. unfold skip_tok. rewrite T. split; reflexivity.
    - intros n st toks c rest M C T L. destruct toks; [| discriminate]. destruct n as [| n]; [lia |]. cbn [ParseM.kids_of]. unfold peek. rewrite T. cbn [app pbind]. rewrite C.
      eexists. eexists. split; [reflexivity |]. split; reflexivity.
    - intros t ts w ws SP IH _ IHs n st toks c rest M C T L. apply map_split in M. destruct M as (l1 & l2 & -> & M1 & M2).
      destruct n as [| n]; [lia |]. pose proof (Spells_len t w SP) as LW. rewrite app_length in L.
      destruct l1 as [| x l1]; [cbn in M1; subst w; cbn in LW; lia |].
      assert (TT : t_tok x <> Close). { intro TC. rewrite <- M1 in SP. cbn in SP. rewrite TC in SP. inversion SP. }
      assert (E : kids_of (S n) st = pbind (parse n true (PSt (p_toks st) (t_from x) (p_last st) (p_1_1 st))) (fun '(s, st1) => pbind (kids_of n st1) (fun '(l, st2) => POk (s :: l, st2)))).
      { cbn [ParseM.kids_of]. unfold peek. rewrite T. cbn [app pbind]. destruct (t_tok x); auto; congruence. }
      rewrite E. destruct (IH n (PSt (p_toks st) (t_from x) (p_last st) (p_1_1 st)) (x :: l1) (l2 ++ c :: rest) M1) as ((s & st1 & F1 & F2 & F3) & _).
      { cbn [p_toks]. rewrite T, <- app_assoc. reflexivity. } { lia. }
      rewrite F1. cbn [pbind]. destruct (IHs n st1 l2 c rest M2 C F3) as (ss & st2 & G1 & G2 & G3); [lia |].
      rewrite G1. cbn [pbind]. exists (s :: ss), st2. split; auto. split; auto. cbn. congruence.
  Qed.

  (** ** The fuel is enough *)
  Lemma statement_fuel : forall loop first st, statement ident loop first st = PErr Fuel ->
    exists t r st2, length (p_toks st2) + 2 <= length (p_toks st) /\ p_toks st = t :: r /\ loop st2 = PErr Fuel.
  Proof.
    intros loop first st H. unfold statement, get_keyword in H. destruct (p_toks st) as [| t1 r1] eqn:T1; [discriminate |].
    destruct (t_tok t1) as [[| (w, [|]) [| ? ?]] | | | |] eqn:TT1; try discriminate. destruct (ident w); [| discriminate].
    unfold skip_tok at 1 in H. rewrite T1 in H. cbn [pbind] in H. destruct r1 as [| t2 r2]; [discriminate |]. unfold peek at 1 in H. cbn [pbind p_toks p_at p_last p_1_1] in H.
    assert (A : forall a st3, length (p_toks st3) <= length (t2 :: r2) ->
              pbind (peek (version w a st3)) (fun '(t, st5) =>
                pbind (match t with
                       | Open => loop (set_last (skip_tok st5))
                       | Semi => POk ([], skip_tok st5)
                       | _ => PErr (Abort "INCOMPLETE_STATEMENT")
                       end) (fun '(kids, st6) =>
                let st7 := set_last st6 in
                POk (Stmt w a (fst (p_at (version w a st3))) first (p_last st7, snd (p_at st7)) None kids, st7))) = PErr Fuel ->
              exists st2, length (p_toks st2) + 2 <= length (t1 :: t2 :: r2) /\ loop st2 = PErr Fuel).
    { intros a st3 L X. unfold peek in X. rewrite toks_version in X. destruct (p_toks st3) as [| t3 r3]; [discriminate |]. cbn [pbind] in X.
      destruct (t_tok t3); try discriminate. unfold skip_tok in X. cbn [p_toks p_at p_last p_1_1] in X.
      match type of X with pbind (loop ?q) _ = _ => exists q; destruct (loop q) as [(ks, st6) | e] eqn:Lq; [discriminate |] end.
      cbn in X. injection X as ->. split; auto. cbn in *. lia. }
    exists t1, (t2 :: r2).
    destruct (t_tok t2) eqn:TT2; cbn [pbind] in H; try (destruct (A None (PSt (t2 :: r2) (t_from t2) (p_last st) (p_1_1 st)) (le_n _) H) as (q & Q1 & Q2); exists q; auto; fail);
      unfold get_strings in H; cbn [p_toks] in H; rewrite TT2 in H; try discriminate.
    unfold skip_tok in H. cbn [pbind p_toks p_at p_last p_1_1] in H.
    destruct (A (Some (String.concat "" (map fst pieces))) (PSt r2 (t_to t2) (p_last st) (p_1_1 st))) as (q & Q1 & Q2); [cbn; lia | exact H |].
    exists q. auto.
  Qed.

  Lemma enough : forall n,
    (forall inner st, S (length (p_toks st)) <= n -> parse n inner st <> PErr Fuel) /\
    (forall st, S (S (length (p_toks st))) <= n -> kids_of n st <> PErr Fuel).
  Proof.
    induction n as [| n (IHs & IHk)]; [split; intros; lia |]. split.
    - intros inner st L H.
      assert (X : forall st1, length (p_toks st1) <= length (p_toks st) -> statement ident (kids_of n) (p_at st) st1 <> PErr Fuel).
      { intros st1 L1 E. apply statement_fuel in E. destruct E as (t & r & st2 & L2 & _ & E). apply (IHk st2); [lia | exact E]. }
      cbn [ParseM.parse] in H. destruct (get_comment keep st) as (com, st1) eqn:G.
      assert (L1 : length (p_toks st1) <= length (p_toks st)).
      { unfold get_comment in G. destruct keep; [| injection G as _ <-; auto]. destruct (p_toks st) as [| t r] eqn:T; [injection G as _ <-; rewrite T; auto |].
        destruct (t_tok t); injection G as _ <-; rewrite ?T; auto. unfold skip_tok. rewrite T. cbn. lia. }
      destruct com as [((c, e), m) |]; [destruct inner; [discriminate |] |]; apply (X st1 L1 H).
    - intros st L H. cbn [ParseM.kids_of] in H. unfold peek in H. destruct (p_toks st) as [| t r] eqn:T; [discriminate |]. cbn [pbind] in H.
      assert (H' : pbind (parse n true (PSt (t :: r) (t_from t) (p_last st) (p_1_1 st))) (fun '(s, st1) => pbind (kids_of n st1) (fun '(l, st2) => POk (s :: l, st2))) = PErr Fuel)
        by (destruct (t_tok t); auto; discriminate).
      clear H. destruct (parse n true (PSt (t :: r) (t_from t) (p_last st) (p_1_1 st))) as [(s, st1) | e] eqn:P.
      + cbn [pbind] in H'. destruct (sound n) as (S & _). apply S in P. destruct P as (w & E & N & _). cbn [p_toks] in E.
        assert (LW : length (t :: r) = length w + length (p_toks st1)) by (rewrite E, app_length; auto).
        assert (1 <= length w) by (destruct w; [congruence | cbn; lia]).
        destruct (kids_of n st1) as [(l, st2) | e] eqn:K; [discriminate |]. cbn in H'. injection H' as ->.
        apply (IHk st1); [cbn in *; lia | exact K].
      + cbn in H'. injection H' as ->. apply (IHs true (PSt (t :: r) (t_from t) (p_last st) (p_1_1 st))); [cbn in *; lia | exact P].
  Qed.

  Theorem read_iff : forall toks t rest,
    (exists s st, read ident keep toks = POk (s, st) /\ shape s = t /\ p_toks st = rest) <->
    (exists w, toks = w ++ rest /\ SpellsTop ident keep t (map t_tok w)).
  Proof.
    intros toks t rest. split.
    - intros (s & st & H & <- & <-). unfold read in H. destruct (sound (S (length toks))) as (S & _). apply S in H. destruct H as (w & E & _ & SP). exists w. auto.
    - intros (w & -> & SP). unfold read. inversion SP as [k a ks w' W E1 E2 | k a ks w' c e m K W E1 E2].
      + subst w'. destruct w as [| t1 w]; [inversion W |].
        assert (TT : exists l, t_tok t1 = Word l) by (cbn in W; inversion W; eexists; reflexivity).
        destruct TT as (l & TT). rewrite (parse_word _ _ _ t1 (w ++ rest) l); [| reflexivity | exact TT].
        destruct (complete _ _ W (S (length ((t1 :: w) ++ rest))) (PSt ((t1 :: w) ++ rest) (0, 0) 0 false) (t1 :: w) rest) as (_ & X); auto.
        { rewrite map_length, app_length. lia. }
        apply (X k a ks (0, 0) (PSt ((t1 :: w) ++ rest) (0, 0) 0 false)); auto.
      + destruct w as [| t1 w]; [discriminate |]. cbn in E2. injection E2 as E2 E3. subst w'.
        rewrite (parse_after _ _ t1 (w ++ rest) c e m K); [| reflexivity | auto].
        destruct (complete _ _ W (S (length ((t1 :: w) ++ rest))) (PSt (w ++ rest) (t_to t1) 0 false) w rest) as (_ & X); auto.
        { rewrite map_length. cbn. rewrite app_length. lia. }
        apply (X k a ks (0, 0) (PSt (w ++ rest) (t_to t1) 0 false)); auto.
  Qed.
  Theorem read_fuel : forall toks, read ident keep toks <> PErr Fuel.
  Proof. intro toks. unfold read. apply enough. cbn. lia. Qed.
End P.
