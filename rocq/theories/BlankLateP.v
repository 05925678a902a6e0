(** Proofs for C64: blanks before the equals signs of predicates. *)
From Coq Require Import String Ascii List Bool Arith Lia.
From Verif Require Import Base BaseP TagM TagSpec TagP RefM RefSpec RefP RefPropsP IidSpec IidP IidPropsP BlankSpec BlankP.
Import ListNotations.
Open Scope string_scope.
Open Scope list_scope.
Open Scope nat_scope.

(** Items with the blanks that follow the name *)
Definition dit : Type := item * list ascii.
Definition keyw (i : dit) : list ascii :=
  match i with (Pred k _ _, w) => keychars k ++ w | (Step p n, _) => qname p n | (Nth n, _) => chars n end.
Definition showd (i : dit) : list ascii :=
  match i with
  | (Step p n, _) => sl :: qname p n
  | (Pred k q b, w) => lb :: keychars k ++ w ++ eqc :: q :: b ++ [q; rb]
  | (Nth n, _) => lb :: chars n ++ [rb]
  end.
Definition BlankOk (i : dit) : Prop :=
  match i with (Step _ _, w) | (Pred None _ _, w) | (Nth _, w) => w = [] | (Pred (Some _) _ _, w) => Blanks w end.

Lemma late_dec : forall l t, Late l t -> exists ds, map fst ds = l /\ Forall BlankOk ds /\ t = flat_map showd ds.
Proof.
  intros l t H. induction H as [| p n l t H (ds & <- & B & ->) | p n q b l t w W H (ds & <- & B & ->) | q b l t H (ds & <- & B & ->)].
  - exists []. repeat split; auto.
  - exists ((Step p n, []) :: ds). split; [reflexivity |]. split; [constructor; [reflexivity | exact B] |]. reflexivity.
  - exists ((Pred (Some (p, n)) q b, w) :: ds). split; [reflexivity |]. split; [constructor; [exact W | exact B] |].
    cbn [flat_map showd keychars app]. rewrite <- !app_assoc. cbn [app]. rewrite <- !app_assoc. reflexivity.
  - exists ((Pred None q b, []) :: ds). split; [reflexivity |]. split; [constructor; [reflexivity | exact B] |].
    cbn [flat_map showd keychars app]. rewrite <- !app_assoc. reflexivity.
Qed.

Lemma dec_late : forall ds, Forall BlankOk ds -> Forall (fun i => match fst i with Nth _ => False | _ => True end) ds ->
  Late (map fst ds) (flat_map showd ds).
Proof.
  intros ds. induction ds as [| [[p n | [[p n] |] q b | n] w] ds IH]; intros B N; inversion B as [| ? ? B1 B2]; inversion N as [| ? ? N1 N2]; subst;
    cbn [map fst flat_map showd keychars BlankOk] in *.
  - constructor.
  - cbn [app]. constructor. auto.
  - cbn [app]. rewrite <- !app_assoc. cbn [app]. rewrite <- !app_assoc. cbn [app]. constructor; auto.
  - subst w. cbn [app]. rewrite <- !app_assoc. cbn [app]. apply (LSelf q b). auto.
  - contradiction.
Qed.

Lemma late_spaced : forall l t, Late l t -> Spaced l t.
Proof.
  assert (N : Blanks []) by (intros c []). intros l t H. induction H as [| p n l t H IH | p n q b l t w W H IH | q b l t H IH].
  - constructor.
  - constructor. auto.
  - exact (SPred (Some (p, n)) q b l t [] w [] [] N W N N IH).
  - exact (SPred None q b l t [] [] [] [] N N N N IH).
Qed.

Lemma blank_ok : forall c, Blank c -> bad c = false /\ c <> newline /\ c <> ":"%char.
Proof. intros c [-> | ->]; (split; [reflexivity |]; split; discriminate). Qed.
Lemma blanks_not : forall c w, Blanks w -> bad c = true -> ~ In c w.
Proof. intros c w W B I. destruct (blank_ok c (W c I)) as (X & _). congruence. Qed.

Lemma keyw_not : forall k w q b c, BlankOk (Pred k q b, w) -> match k with None => True | Some (p, n) => IdQ p n end -> bad c = true -> c <> ":"%char ->
  ~ In c (keychars k ++ w).
Proof.
  intros [[p n] |] w q b c W K B N I; cbn [keychars BlankOk] in *; apply in_app_or in I; destruct I as [I | I].
  - revert I. apply qname_not; auto.
  - exact (blanks_not c w W B I).
  - destruct I as [<- | []]. discriminate B.
  - subst w. destruct I.
Qed.

Fixpoint segd (acc : list ascii) (l : list dit) : list segment * list ascii :=
  match l with
  | [] => ([], acc)
  | (Step p n, _) :: r => segd (acc ++ sl :: qname p n) r
  | (Pred k q b, w) :: r => (Segment (acc ++ lb :: keychars k ++ w) q b :: fst (segd [rb] r), snd (segd [rb] r))
  | (Nth _, _) :: r => segd acc r
  end.

Definition TameD (i : dit) : Prop := Tame (fst i).
Definition ShapeD (i : dit) : Prop := Shape (fst i).

Lemma spell_segd : forall l acc, Forall TameD l -> spell (fst (segd acc l)) (snd (segd acc l)) = acc ++ flat_map showd l.
Proof.
  induction l as [|[[p n|k q b|n] w] l IH]; intros acc H; inversion H as [|x y H1 H2]; subst; cbn [segd fst snd spell flat_map showd].
  - rewrite app_nil_r. reflexivity.
  - rewrite IH by exact H2. rewrite <- app_assoc. reflexivity.
  - rewrite IH by exact H2. unfold literal. cbn [g_text g_quote g_body].
    rewrite <- !app_assoc. cbn [app]. rewrite <- !app_assoc. cbn [app]. rewrite <- !app_assoc. reflexivity.
  - contradiction.
Qed.

Lemma spelled_segd : forall l acc, Forall TameD l -> Forall ShapeD l -> Forall BlankOk l -> NoEq acc ->
  Spelled (fst (segd acc l)) (snd (segd acc l)) /\ Forall PlainEnd (fst (segd acc l)).
Proof.
  induction l as [|[[p n|k q b|n] w] l IH]; intros acc HT HS HB HA; inversion HT as [|x y T1 T2]; inversion HS as [|x2 y2 S1 S2]; inversion HB as [|x3 y3 B1 B2]; subst;
    cbn [segd fst snd].
  - split; [exact HA | constructor].
  - apply IH; auto. apply noeq_app; [exact HA|]. apply noeq_cons; [discriminate|]. apply noeq_qname. exact S1.
  - unfold TameD, ShapeD in T1, S1. cbn [fst Tame Shape] in *. destruct T1 as [_ T1]. destruct S1 as (Q1 & V1 & K1).
    destruct (IH [rb] T2 S2 B2) as [A B]; [intros [X|[]]; discriminate X|].
    split; [|constructor; [exact T1 | exact B]].
    cbn [Spelled g_text g_quote g_body]. split; [|split; [exact Q1|split; [exact V1|split; [|exact A]]]].
    + apply noeq_app; [exact HA|]. apply noeq_cons; [discriminate|]. apply (keyw_not k w q b); auto. discriminate.
    + rewrite spell_segd by exact T2. cbn [app hd_error]. destruct Q1 as [-> | ->]; discriminate.
  - contradiction.
Qed.

Inductive LowD : dit -> it -> Prop :=
| LowD_step : forall p n w, LowD (Step p n, w) (IS (qname p n))
| LowD_pred : forall k q b w c, SameLiteral (Segment [] q b) c -> LowD (Pred k q b, w) (IP (keychars k ++ w) (q :: b ++ [q]) c).

Lemma pieces_lowd : forall l acc ps, Forall TameD l -> Pieces (fst (segd acc l)) (snd (segd acc l)) ps ->
  exists its, Forall2 LowD l its /\ ps = one1 acc its.
Proof.
  induction l as [|[[p n|k q b|n] w] l IH]; intros acc ps HT HP; inversion HT as [|x y T1 T2]; subst; cbn [segd fst snd] in HP.
  - exists []. split; [constructor|]. inversion HP as [|t N|]; subst; [reflexivity|].
    cbn [one1]. rewrite whole_piece_ne by assumption. reflexivity.
  - destruct (IH _ _ T2 HP) as (its & F & E). exists (IS (qname p n) :: its). split; [constructor; [constructor|exact F]|exact E].
  - inversion HP as [| |g gs t ps' c SL PP]; subst. destruct (IH _ _ T2 PP) as (its & F & ->).
    exists (IP (keychars k ++ w) (q :: b ++ [q]) c :: its). split; [constructor; [constructor; exact SL|exact F]|].
    cbn [one1 g_text]. unfold literal. cbn [g_quote g_body app]. unfold same.
    rewrite <- !app_assoc. cbn [app]. rewrite <- !app_assoc. reflexivity.
  - contradiction.
Qed.

Lemma lowd_ok : forall l its, Forall2 LowD l its -> Forall TameD l -> Forall ShapeD l -> Forall BlankOk l -> Forall LowOk its.
Proof.
  intros l its F. induction F as [|i j l its L F IH]; intros HT HS HB; constructor;
    inversion HT as [|x y T1 T2]; inversion HS as [|x2 y2 S1 S2]; inversion HB as [|x3 y3 B1 B2]; subst; auto.
  destruct L as [p n w|k q b w c SL]; unfold TameD, ShapeD in T1, S1; cbn [fst LowOk Tame Shape] in *.
  - split; [apply qname_ne; exact S1|]. split; [apply qname_not; [exact S1|reflexivity|discriminate]|].
    split; [apply qname_not; [exact S1|reflexivity|discriminate]|]. intros c. apply qname_sep; assumption.
  - destruct S1 as (_ & _ & K). split.
    + intro E. apply app_eq_nil in E. destruct E as [E _]. destruct k as [[p n]|]; cbn [keychars] in E; [exact (qname_ne p n K E) | discriminate].
    + apply (keyw_not k w q b); auto. discriminate.
Qed.

(** A name with blanks behind it is read like the name *)
Lemma qname_blank : forall p n w, qname p n ++ w = qname p (n ++ to_s w)%string.
Proof.
  intros p n w. assert (E : chars (n ++ to_s w)%string = chars n ++ w).
  { change (of_s (n ++ to_s w)%string = of_s n ++ w). rewrite of_app, of_to. reflexivity. }
  destruct p as [p |]; cbn [qname]; rewrite E; [| reflexivity]. rewrite <- app_assoc. reflexivity.
Qed.

Lemma ident_blank : forall n w, YangId n -> Blanks w -> Ident (n ++ to_s w)%string.
Proof.
  intros n w Y W. assert (E : chars (n ++ to_s w)%string = chars n ++ w).
  { change (of_s (n ++ to_s w)%string = of_s n ++ w). rewrite of_app, of_to. reflexivity. }
  destruct (YangId_Ident n Y) as [[A B] C].
  assert (NO : forall c, bad c = true -> ~ In c (chars n) -> ~ In c (chars (n ++ to_s w)%string)).
  { intros c Bc Nc I. rewrite E in I. apply in_app_or in I. destruct I as [I | I]; [auto | exact (blanks_not c w W Bc I)]. }
  split; [split |]; auto. destruct n; [contradiction | discriminate].
Qed.

Lemma parse_blank : forall T m d p n u w, NoDup (map fst m) -> NoDup (map e_name T) -> YangId n -> Blanks w ->
  Resolved T m d p u -> exists o, parse_prefixed T m (to_s (qname p n ++ w)) = Ok (o, (n ++ to_s w)%string) /\
    (match o with Some _ => o | None => d end) = Some u.
Proof.
  intros T m d p n u w Hm HT Hn W HR. rewrite qname_blank, to_s_qname. unfold parse_prefixed. pose proof (ident_blank n w Hn W) as Hi.
  destruct HR as [u Hu|p u Hp HP].
  - rewrite Ident_bare by exact Hi. exists None. auto.
  - rewrite Ident_pref; [|exact (proj1 (YangId_Ident p Hp))|exact Hi].
    exists (Some u). split; [|reflexivity]. destruct HP as [HP|(HN & e & He & <- & <-)].
    + rewrite (assoc_In m (Some p) u Hm HP). reflexivity.
    + rewrite (assoc_none m _ HN), (name_to_url_In T e HT He). reflexivity.
Qed.

Lemma punct_blank : forall p n w, IdQ p n -> NoDotQ p n -> is_punct (qname p n ++ w) = false.
Proof.
  intros p n w H D. pose proof (punct_qname p n H D) as P. pose proof (qname_ne p n H) as N.
  destruct (qname p n) as [| c [| c' r]]; [contradiction | | reflexivity]. destruct w; [exact P | reflexivity].
Qed.

Lemma convert_okd : forall T m to, Unambiguous T -> NoDup (map fst m) -> Prefixes T to ->
  forall d l s, Denotes T m d l s -> forall ds its, map fst ds = l -> Forall BlankOk ds -> Forall2 LowD ds its -> Forall Tame l ->
  (forall u, In u (urls s) -> Reach T to u) ->
  exists ps ds', convert_pieces T m to d (three its) = Ok ps /\ flat_map p_conv ps = flat_map showd ds' /\ Forall BlankOk ds' /\
    Denotes T (to_map to) d (map fst ds') s /\ Forall Canon (map fst ds').
Proof.
  intros T m to HU Hm HP d l s HD. pose proof HU as (HN & _ & _).
  assert (IdR : forall d p u n, Resolved T m d p u -> YangId n -> IdQ p n).
  { intros d0 p u n HR Hn. split; [exact Hn|]. inversion HR; auto. }
  assert (V : forall q b v c, Inside q b v -> SameLiteral (Segment [] q b) c -> exists b', c = apos :: b' ++ [apos] /\ Inside apos b' v).
  { intros q b v c HI (b' & v' & -> & HI' & HA). cbn [g_quote g_body] in HI'. exists b'. split; [reflexivity|].
    rewrite (inside_fun q b v HI v' HI'). exact HA. }
  induction HD as [d|d p n u r s HR Hn HD IH|d p n u q b v r s HR Hn HQ HI HD IH|d q b v r s HQ HI HD IH|d n r s Hn HD IH];
    intros ds its E B F HT HRe; destruct ds as [| [i w] ds]; try discriminate E; cbn [map fst] in E; try (injection E as -> Er);
    inversion F as [|i0 j l2 its2 L F2]; subst; inversion HT as [|x y T1 T2]; inversion B as [|x3 y3 B1 B2]; subst.
  - exists [], []. split; [reflexivity|]. split; [reflexivity | split; [constructor | split; constructor]].
  - inversion L; subst. rewrite convert_is.
    destruct (parse_resolved T m d p n u Hm HN Hn HR) as (o & -> & Ho). cbn [bind]. rewrite Ho.
    destruct (compose_reach T to u n HU HP) as (p' & -> & Hp' & HP'); [apply HRe; left; reflexivity|]. cbn [bind].
    destruct (IH ds its2 eq_refl B2 F2 T2) as (ps & l' & -> & Ec & B' & HD' & HC'); [intros; apply HRe; right; assumption|]. cbn [bind].
    eexists. exists ((Step (Some p') n, []) :: l'). split; [reflexivity|]. split; [| split].
    + cbn [flat_map p_conv same app]. rewrite Ec, qname_some. reflexivity.
    + constructor; [reflexivity | exact B'].
    + split; [constructor; [constructor; assumption | exact Hn | exact HD'] | constructor; [discriminate | exact HC']].
  - inversion L as [|k0 q0 b0 w0 c0 SL]; subst. rewrite convert_ip. cbn [keychars]. cbn [Tame] in T1. destruct T1 as [T1 _].
    rewrite punct_blank; [|eapply IdR; eassumption|exact T1]. cbn [BlankOk] in B1.
    destruct (parse_blank T m (Some d) p n u w Hm HN Hn B1 HR) as (o & -> & Ho). cbn [bind]. rewrite Ho.
    destruct (compose_reach T to u (n ++ to_s w)%string HU HP) as (p' & -> & Hp' & HP'); [apply HRe; left; reflexivity|]. cbn [bind].
    destruct (IH ds its2 eq_refl B2 F2 T2) as (ps & l' & -> & Ec & B' & HD' & HC'); [intros; apply HRe; right; assumption|]. cbn [bind].
    destruct (V q b v c0 HI SL) as (b' & -> & HA).
    eexists. exists ((Pred (Some (Some p', n)) apos b', w) :: l'). split; [reflexivity|]. split; [| split].
    + cbn [flat_map p_conv same app showd keychars]. rewrite Ec, qname_some, <- qname_blank.
      repeat (rewrite <- !app_assoc; cbn [app]). reflexivity.
    + constructor; [exact B1 | exact B'].
    + split; [constructor; [constructor; assumption | exact Hn | left; reflexivity | exact HA | exact HD']|].
      constructor; [split; [discriminate | reflexivity] | exact HC'].
  - inversion L as [|k0 q0 b0 w0 c0 SL]; subst. cbn [BlankOk] in B1. subst w. rewrite convert_ip. cbn [keychars app is_punct]. cbn [Ascii.eqb Bool.eqb orb].
    destruct (IH ds its2 eq_refl B2 F2 T2) as (ps & l' & -> & Ec & B' & HD' & HC'); [intros; apply HRe; assumption|]. cbn [bind].
    destruct (V q b v c0 HI SL) as (b' & -> & HA).
    eexists. exists ((Pred None apos b', []) :: l'). split; [reflexivity|]. split; [| split].
    + cbn [flat_map p_conv same five app showd keychars]. rewrite Ec. rewrite <- !app_assoc. reflexivity.
    + constructor; [reflexivity | exact B'].
    + split; [constructor; [left; reflexivity | exact HA | exact HD'] | constructor; [split; [exact I | reflexivity] | exact HC']].
  - contradiction.
Qed.

Theorem late_kept : forall T w t m to l x s, Unambiguous T -> In w (map e_url T) -> Name t -> Nsmap m -> Prefixes T to ->
  Late l x -> Denotes T m None l s -> Forall Tame l -> l <> [] -> (forall u, In u (urls s) -> Reach T to u) ->
  exists l' x', iid_convert T (RNode (etree w t) m (Some (to_s x))) to = Ok (to_s x') /\
    Late l' x' /\ Denotes T (to_map to) None l' s /\ Forall Canon l'.
Proof.
  intros T w t m to l x s HU Hw Ht [Hm _] HP HL HD HT HN HR. unfold iid_convert.
  rewrite node_url_ok by assumption. cbn [bind r_text r_nsmap].
  destruct (late_dec l x HL) as (ds & El & B & ->). pose proof (Denotes_shape _ _ _ _ _ HD) as HS.
  assert (TD : Forall TameD ds) by (rewrite <- El in HT; exact (proj1 (Forall_map fst Tame ds) HT)).
  assert (SD : Forall ShapeD ds) by (rewrite <- El in HS; exact (proj1 (Forall_map fst Shape ds) HS)).
  destruct (spelled_segd ds [] TD SD B) as [SP PE]; [intros []|].
  assert (Hsp := spell_segd ds [] TD). cbn [app] in Hsp.
  destruct (quotes_found _ _ SP PE) as (ps & Eps & Hp).
  { rewrite Hsp. destruct ds as [|[[p n|k q b|n] w0] ds]; [cbn in El; congruence|discriminate|discriminate|discriminate]. }
  rewrite Hsp in Eps. destruct (pieces_lowd ds [] ps TD Hp) as (its & F & ->).
  unfold iid_pieces. rewrite of_to, Eps. cbn [bind].
  destruct (phases its (lowd_ok ds its F TD SD B)) as (ps2 & -> & E3). cbn [bind]. rewrite E3.
  destruct (convert_okd T m to HU Hm HP None l s HD ds its El B F HT HR) as (ps & ds' & -> & Ec & B' & HD' & HC'). cbn [bind].
  exists (map fst ds'), (flat_map showd ds'). rewrite Ec. split; [reflexivity |]. split; [| split; assumption].
  apply dec_late; auto. eapply Forall_impl; [| exact (proj1 (Forall_map fst Canon ds') HC')]. intros [[p n|k q b|n] w0] X; cbn [fst] in *; auto.
Qed.

(** ** A blank behind the dot of a leaf-list predicate *)
Definition self_items : list item := [Step (Some "oc-if") "a"; Pred None apos (of_s "1")].
Definition self_sem : list sem := [VStep u_if "a"; VSelf (of_s "1")].
Definition self_text : list ascii := of_s "/oc-if:a[. ='1']".
Definition self_result : list ascii := of_s "/x:a[x:. ='1']".
Lemma self_spaced : Spaced self_items self_text.
Proof. exact (SStep (Some "oc-if") "a" _ _ (SPred None apos (of_s "1") [] [] [] [" "%char] [] [] no_blanks one_blank no_blanks no_blanks SNil)). Qed.
Lemma self_denotes : Denotes ref_table iid_map None self_items self_sem.
Proof.
  apply DStep; [apply Resolved_prefix; [yang | left; vm_compute; tauto] | yang |].
  apply DSelf; [left; reflexivity | unfold of_s; cbn; inside | apply DNil].
Qed.
Lemma self_wrong : forall l, Spaced l self_result -> ~ Denotes ref_table other_map None l self_sem.
Proof.
  intros l H D. inversion D as [| d p n u r s R Y D' E1 E2 E3 | | |]; subst.
  inversion R as [u E4 | p' u Yp P E4 E5]; subst; [discriminate |]. inversion H as [| p n l t H' E1 E2 | |]; subst.
  apply other_prefix in P. destruct P as [-> | ->]; [| discriminate E2]. cbn in E2. injection E2 as E2. subst t.
  inversion D' as [| | | d q b v r' s Q Iv D'' E1 E2 E3 |]; subst.
  inversion H' as [| | k q0 b0 l t w1 w2 w3 w4 B1 B2 B3 B4 H'' E1 E2 |]; subst.
  destruct w1 as [| c w1]; [discriminate E2 |]. injection E2 as E2 _. subst c. destruct (B1 "x"%char (or_introl eq_refl)) as [X | X]; discriminate X.
Qed.
Theorem self_refuted : exists l s text result,
  Spaced l text /\ Denotes ref_table iid_map None l s /\
  iid_convert ref_table (RNode (etree u_if "peer") iid_map (Some (to_s text))) (Some other_map) = Ok (to_s result) /\
  (forall l', Spaced l' result -> ~ Denotes ref_table other_map None l' s).
Proof.
  exists self_items, self_sem, self_text, self_result. split; [exact self_spaced |]. split; [exact self_denotes |].
  split; [vm_compute; reflexivity | exact self_wrong].
Qed.

(** ** Blanks make a difference *)
Definition late_text : list ascii := of_s "/oc-if:a[oc-if:k ='1']".
Lemma late_late : Late blank_items late_text.
Proof. exact (LStep (Some "oc-if") "a" _ _ (LKey (Some "oc-if") "k" apos (of_s "1") [] [] [" "%char] one_blank LNil)). Qed.
Lemma late_none : Late blank_items (of_s "/oc-if:a[oc-if:k='1']").
Proof. exact (LStep (Some "oc-if") "a" _ _ (LKey (Some "oc-if") "k" apos (of_s "1") [] [] [] no_blanks LNil)). Qed.
Theorem differ_refuted : exists l s x y, Spaced l x /\ Spaced l y /\ Denotes ref_table iid_map None l s /\
  ref_same ref_table DInstance (RNode (etree u_if "peer") iid_map (Some (to_s x))) (RNode (etree u_if "peer") iid_map (Some (to_s y))) = Ok false.
Proof.
  exists blank_items, blank_sem, late_text, (of_s "/oc-if:a[oc-if:k='1']").
  split; [exact (late_spaced _ _ late_late) |]. split; [exact (late_spaced _ _ late_none) |]. split; [exact blank_denotes | vm_compute; reflexivity].
Qed.
