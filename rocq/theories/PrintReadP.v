(** The print of a model can be read: proofs about PrintM.v. *)
From Coq Require Import String Ascii List Bool Arith Lia.
From Verif Require Import Base BaseP XmlM CalcP TagM TagSpec TagP ReorderM XPathM XPathP DepictM DepictSpec DepictP PrintM PrintSpec PrintP.
Import ListNotations.
Open Scope string_scope.
Open Scope list_scope.
Open Scope nat_scope.

Definition feat (x : xml) : string := match get_attr "if-feature" x with Some f => (" {" ++ f ++ "}?")%string | None => "" end.
Definition tail_text (ty : string) (x : xml) (sp t : string) : Prop :=
  t = ((match ShownType ty x with Some d => sp ++ d | None => "" end) ++ feat x)%string.
Lemma model_tail_eq : forall x ty, get_attr "type" x = Some ty ->
  match model_tail x with
  | None => ShownType ty x = None /\ get_attr "if-feature" x = None
  | Some f => forall sp, tail_text ty x sp (f sp)
  end.
Proof.
  intros x ty E. unfold model_tail, tail_text, ShownType, feat. rewrite E. cbn [eq_opt].
  destruct (String.eqb ty "anyxml" || String.eqb ty "anydata").
  - intros sp. reflexivity.
  - destruct (get_attr "datatype" x) as [d |]; [intros sp; reflexivity |].
    destruct (get_attr "if-feature" x) as [f |]; [intros sp; reflexivity | auto].
Qed.

Lemma blanks3 : forall sp, Blanks sp -> 3 <= String.length sp -> exists r, sp = ("   " ++ r)%string /\ Blanks r.
Proof.
  intros [| a [| b [| c r]]] H L; cbn in L; try lia. unfold Blanks in H. cbn [chars] in H.
  inversion H as [| ? ? -> H1]; subst. inversion H1 as [| ? ? -> H2]; subst. inversion H2 as [| ? ? -> H3]; subst. exists r. auto.
Qed.
Lemma tail_is : forall ty x sp t, tail_text ty x sp t -> (ShownType ty x <> None -> Blanks sp /\ 3 <= String.length sp) -> TailText t.
Proof.
  intros ty x sp t -> H. unfold TailText, feat. destruct (ShownType ty x) as [d |].
  - destruct (H ltac:(discriminate)) as (B & L). destruct (blanks3 sp B L) as (r & -> & _). right. left. rewrite !app_assoc_s. eauto.
  - destruct (get_attr "if-feature" x) as [f |]; cbn [append]; [right; right; eauto | left; reflexivity].
Qed.

Definition nice_type (o : option string) : Prop :=
  forall d, o = Some d -> ~ In "{"%char (chars d) /\ exists c r, d = String c r /\ c <> " "%char.
Lemma app_last_inj : forall a b c, (a ++ c)%string = (b ++ c)%string -> a = b.
Proof.
  intros a b c E. assert (L : String.length a = String.length b) by (apply (f_equal String.length) in E; rewrite !length_app_s in E; lia).
  revert b L E. induction a as [| x a IH]; intros [| y b] L E; try discriminate; auto. cbn in E, L. injection E as -> E. f_equal. apply IH; auto.
Qed.
Lemma tail_read : forall ty1 ty2 x y sp1 sp2 t, tail_text ty1 x sp1 t -> tail_text ty2 y sp2 t ->
  (ShownType ty1 x <> None -> Blanks sp1 /\ 3 <= String.length sp1) -> (ShownType ty2 y <> None -> Blanks sp2 /\ 3 <= String.length sp2) ->
  nice_type (ShownType ty1 x) -> nice_type (ShownType ty2 y) ->
  ShownType ty1 x = ShownType ty2 y /\ get_attr "if-feature" x = get_attr "if-feature" y.
Proof.
  intros ty1 ty2 x y sp1 sp2 t E1 E2 B1 B2 N1 N2. unfold tail_text in E1, E2. subst t. unfold feat in E2.
  destruct (ShownType ty1 x) as [d1 |], (ShownType ty2 y) as [d2 |].
  - destruct (B1 ltac:(discriminate)) as (Q1 & _), (B2 ltac:(discriminate)) as (Q2 & _).
    destruct (N1 d1 eq_refl) as (D1 & c1 & r1 & Ed1 & C1), (N2 d2 eq_refl) as (D2 & c2 & r2 & Ed2 & C2).
    rewrite !app_assoc_s in E2.
    assert (FC : forall d (x0 : string) c r, d = String c r -> c <> " "%char -> forall c' s', (d ++ x0)%string = String c' s' -> c' <> " "%char).
    { intros d x0 c r -> N c' s' G. injection G as <- _. exact N. }
    destruct (cut_s (fun c => c = " "%char) _ _ _ _ (proj1 (Forall_forall _ _) Q1) (proj1 (Forall_forall _ _) Q2)
                (FC d1 _ c1 r1 Ed1 C1) (FC d2 _ c2 r2 Ed2 C2) E2) as (_ & E3).
    assert (CUT : forall a b r r', ~ In "{"%char (chars a) -> ~ In "{"%char (chars b) ->
               ((a ++ " ") ++ String "{" r)%string = ((b ++ " ") ++ String "{" r')%string -> a = b /\ r = r').
    { intros a b r r' Ha Hb E. destruct (cut_s (fun c => c <> "{"%char) (a ++ " ")%string (b ++ " ")%string (String "{" r) (String "{" r')) as (G1 & G2); auto.
      - intros c Hc ->. rewrite chars_app in Hc. apply in_app_or in Hc. destruct Hc as [Hc | [Hc | []]]; [auto | discriminate].
      - intros c Hc ->. rewrite chars_app in Hc. apply in_app_or in Hc. destruct Hc as [Hc | [Hc | []]]; [auto | discriminate].
      - intros c s G. injection G as <- _. tauto.
      - intros c s G. injection G as <- _. tauto.
      - apply app_last_inj in G1. injection G2 as G2. auto. }
    assert (NO : forall a b r, ~ In "{"%char (chars a) -> a <> (b ++ " {" ++ r)%string).
    { intros a b r Ha ->. apply Ha. rewrite !chars_app. apply in_or_app. right. cbn. auto. }
    destruct (get_attr "if-feature" x) as [f1 |], (get_attr "if-feature" y) as [f2 |].
    + destruct (CUT d1 d2 (f1 ++ "}?")%string (f2 ++ "}?")%string D1 D2) as (-> & G).
      * rewrite !app_assoc_s. exact E3.
      * apply app_last_inj in G. subst f2. auto.
    + rewrite app_nil_s in E3. exfalso. symmetry in E3. exact (NO _ _ _ D2 E3).
    + rewrite app_nil_s in E3. exfalso. exact (NO _ _ _ D1 E3).
    + rewrite !app_nil_s in E3. split; congruence.
  - destruct (B1 ltac:(discriminate)) as (Q1 & L1). destruct (blanks3 sp1 Q1 L1) as (r & -> & _).
    destruct (get_attr "if-feature" y); discriminate E2.
  - destruct (B2 ltac:(discriminate)) as (Q2 & L2). destruct (blanks3 sp2 Q2 L2) as (r & -> & _).
    destruct (get_attr "if-feature" x); discriminate E2.
  - split; auto. destruct (get_attr "if-feature" x) as [f1 |], (get_attr "if-feature" y) as [f2 |]; try discriminate E2; auto.
    cbn [append] in E2. injection E2 as E2. apply app_last_inj in E2. congruence.
Qed.

Lemma Clear_Display2 : forall p n, Clear p -> Clear n -> Display (p ++ ":" ++ n)%string.
Proof.
  intros p n (_ & P1 & P2) (_ & N1 & N2). split; [destruct p; discriminate |]. intros c Hc. rewrite !chars_app in Hc.
  apply in_app_or in Hc. destruct Hc as [Hc | [<- | Hc]]; auto. cbn. intuition discriminate.
Qed.

Section Read.
Variables (prefix u0 : string) (l : list (string * string)) (m : model).
Hypothesis HK : Known l.
Hypothesis HM : model_init prefix l = Ok m.
Hypothesis H0 : In (prefix, u0) l.
Hypothesis Hdot : ~ In "."%char (chars prefix).
Let NM := fun x n => name_str m x = Ok n.

Lemma read_label : forall sibs x s ks, Printable l x -> In x sibs -> Labelled NM model_tail sibs x (LNode s ks) ->
  exists ty f mk d sp t, get_attr "type" x = Some ty /\ FlagsOf ty x f /\ MarkOf ty x mk /\ Display d /\
    prefix_to_url m d = Ok (xtag x) /\ s = (shown f mk d ++ t)%string /\ tail_text ty x sp t /\
    (ShownType ty x <> None -> Blanks sp /\ 3 <= String.length sp) /\ nice_type (ShownType ty x) /\
    (forall k, mk = MKeyed k -> ~ In "]"%char (chars k)) /\ Forall2 (Labelled NM model_tail (xkids x)) (xkids x) ks.
Proof.
  intros sibs x s ks HP Hin HL. inversion HP as [? p u n ty Hpu Cp Cn Et Ety NLt Not Nbr Hkey Hdt Hft Hks]; subst.
  inversion HL as [? ? n0 ? ? Hn Hlab HF]; subst.
  destruct (name_shown m x n0 Hn) as (ty' & d & f & mk & T1 & T2 & T3 & T4 & T5). assert (ty' = ty) by congruence. subst ty'.
  rewrite Et in T2. destruct (display_back prefix l m u0 p u n HK HM H0 Hpu (proj1 Cn) Hdot) as (d' & U1 & U2 & U3).
  assert (d' = d) by congruence. subst d'.
  assert (DD : Display (remove_model_prefix m d)).
  { rewrite U2. destruct (String.eqb p prefix); [apply Cn | apply Clear_Display2; auto]. }
  assert (NT : nice_type (ShownType ty x)).
  { intros v Hv. unfold ShownType in Hv. destruct (String.eqb ty "anyxml" || String.eqb ty "anydata").
    - assert (v = ("<" ++ ty ++ ">")%string) by congruence. subst v. split; [| exists "<"%char; eexists; split; [reflexivity | discriminate]].
      rewrite !chars_app. intros G. apply in_app_or in G. destruct G as [[G | []] | G]; [discriminate |].
      apply in_app_or in G. destruct G as [G | [G | []]]; [auto | discriminate].
    - apply (Hdt v Hv). }
  assert (KE : forall k, mk = MKeyed k -> ~ In "]"%char (chars k)).
  { intros k ->. cbn [MarkOf] in T4. apply (Hkey k). apply T4. }
  pose proof (model_tail_eq x ty Ety) as MT. destruct (model_tail x) as [ft |].
  - destruct Hlab as (names & w & sp & F1 & F2 & F3 & F4 & F5).
    exists ty, f, mk, (remove_model_prefix m d), sp, (ft sp). rewrite Et. rewrite <- T5.
    split; auto. split; auto. split; auto. split; auto. split; auto. split; auto. split; [apply MT |]. split; [| split; [exact NT | split; [exact KE | exact HF]]].
    intros _. split; auto. assert (L : String.length n0 + 3 <= w); [| lia].
    apply (proj1 (proj2 F2)). clear -F1 Hin Hn. induction F1 as [| y b q names Hb F1 IH]; [destruct Hin |].
    destruct Hin as [-> | Hin]; [left; unfold NM in *; congruence | right; auto].
  - destruct MT as (M1 & M2). exists ty, f, mk, (remove_model_prefix m d), "", "". rewrite Et, app_nil_s, <- T5.
    split; auto. split; auto. split; auto. split; auto. split; auto. split; auto.
    split; [unfold tail_text, feat; rewrite M1, M2; reflexivity |]. split; [congruence |]. split; [exact NT | split; [exact KE | exact HF]].
Qed.

Lemma read_alike : forall t x y sx sy, Printable l x -> Printable l y -> In x sx -> In y sy ->
  Labelled NM model_tail sx x t -> Labelled NM model_tail sy y t -> Alike x y.
Proof.
  induction t as [s ks IH] using ltree_all; intros x y sx sy Px Py Ix Iy Lx Ly.
  destruct (read_label sx x s ks Px Ix Lx) as (ty1 & f1 & mk1 & d1 & sp1 & t1 & A1 & A2 & A3 & A4 & A5 & A6 & A7 & A8 & A9 & A10 & A11).
  destruct (read_label sy y s ks Py Iy Ly) as (ty2 & f2 & mk2 & d2 & sp2 & t2 & B1 & B2 & B3 & B4 & B5 & B6 & B7 & B8 & B9 & B10 & B11).
  assert (E : (shown f1 mk1 d1 ++ t1)%string = (shown f2 mk2 d2 ++ t2)%string) by congruence.
  destruct (shown_read f1 f2 mk1 mk2 d1 d2 t1 t2 (FlagsOf_In _ _ _ A2) (FlagsOf_In _ _ _ B2) A4 B4 A10 B10
             (tail_is ty1 x sp1 t1 A7 A8) (tail_is ty2 y sp2 t2 B7 B8) E) as (R1 & R2 & R3 & R4).
  subst mk2 d2 t2. destruct (tail_read ty1 ty2 x y sp1 sp2 t1 A7 B7 A8 B8 A9 B9) as (S1 & S2).
  apply (alike x y ty1 ty2 mk1 f1 f2); auto; [congruence |].
  inversion Px as [? ? ? ? ? _ _ _ _ _ _ _ _ _ _ _ PKx]; subst. inversion Py as [? ? ? ? ? _ _ _ _ _ _ _ _ _ _ _ PKy]; subst.
  assert (G : forall k1 k2, Forall2 (Labelled NM model_tail (xkids x)) k1 ks -> Forall2 (Labelled NM model_tail (xkids y)) k2 ks ->
             incl k1 (xkids x) -> incl k2 (xkids y) -> Forall2 Alike k1 k2).
  { clear -IH PKx PKy. induction ks as [| c ks IHk]; intros k1 k2 F1 F2 I1 I2; inversion F1; inversion F2; subst; constructor.
    - inversion IH as [| ? ? HC _]; subst. rewrite Forall_forall in PKx, PKy.
      eapply HC; [| | | | eassumption | eassumption]; auto with datatypes.
    - inversion IH; subst. apply IHk; auto; intros z Hz; [apply I1 | apply I2]; right; auto. }
  apply G; auto; apply incl_refl.
Qed.

Lemma oneline_label : forall x sibs t, Printable l x -> In x sibs -> Labelled NM model_tail sibs x t -> OneLine t.
Proof.
  intros x sibs t. revert x sibs. induction t as [s ks IH] using ltree_all; intros x sibs Px Ix Lx.
  destruct (read_label sibs x s ks Px Ix Lx) as (ty & f & mk & d & sp & t & A1 & A2 & A3 & A4 & A5 & A6 & A7 & A8 & A9 & A10 & A11).
  inversion Px as [? p u n ty' _ _ _ _ Ety NLt _ _ Hkey Hdt Hft Hks]; subst. assert (ty' = ty) by congruence. subst ty'. constructor.
  - assert (ND : ~ In newline (chars d)) by (intro G; apply (proj2 A4 _ G); left; reflexivity).
    assert (NF : ~ In newline (chars f)).
    { apply FlagsOf_In in A2. cbn in A2. repeat (destruct A2 as [<- | A2]; [cbn; intuition discriminate |]). destruct A2. }
    assert (NK : forall k, mk = MKeyed k -> ~ In newline (chars k)).
    { intros k ->. cbn [MarkOf] in A3. apply (Hkey k). apply A3. }
    assert (NT : ~ In newline (chars t)).
    { rewrite A7. unfold feat. rewrite chars_app. intros G. apply in_app_or in G. destruct G as [G | G].
      - destruct (ShownType ty x) as [v |] eqn:ES; [| destruct G]. rewrite chars_app in G. apply in_app_or in G. destruct G as [G | G].
        + destruct (A8 ltac:(discriminate)) as (B & _). unfold Blanks in B. rewrite Forall_forall in B. specialize (B _ G). discriminate B.
        + unfold ShownType in ES. destruct (String.eqb ty "anyxml" || String.eqb ty "anydata").
          * assert (v = ("<" ++ ty ++ ">")%string) by congruence. subst v. rewrite !chars_app in G. apply in_app_or in G. destruct G as [[G | []] | G]; [discriminate |].
            apply in_app_or in G. destruct G as [G | [G | []]]; [exact (NLt G) | discriminate].
          * exact (proj1 (Hdt v ES) G).
      - destruct (get_attr "if-feature" x) as [v |] eqn:EF; [| destruct G]. rewrite !chars_app in G.
        apply in_app_or in G. destruct G as [G | G]; [cbn in G; intuition discriminate |].
        apply in_app_or in G. destruct G as [G | G]; [exact (Hft v eq_refl G) | cbn in G; intuition discriminate]. }
    rewrite shown_eq, !chars_app. intros G.
    apply in_app_or in G. destruct G as [G | G].
    { destruct mk; try (rewrite chars_app in G; apply in_app_or in G; destruct G as [G | [G | []]]; [exact (NF G) | discriminate]). destruct G as [G | []]. discriminate. }
    apply in_app_or in G. destruct G as [G | G]; [destruct (opens mk); cbn in G; intuition discriminate |].
    apply in_app_or in G. destruct G as [G | G]; [auto |].
    apply in_app_or in G. destruct G as [G | G]; [| auto].
    destruct mk; cbn [rest] in G; try (cbn in G; intuition discriminate).
    rewrite !chars_app in G. apply in_app_or in G. destruct G as [G | G]; [cbn in G; intuition discriminate |].
    apply in_app_or in G. destruct G as [G | G]; [exact (NK k eq_refl G) | cbn in G; intuition discriminate].
  - clear -IH Hks A11. rewrite Forall_forall in IH |- *. intros c Hc.
    assert (G : forall k1, Forall2 (Labelled NM model_tail (xkids x)) k1 ks -> exists y, In y k1 /\ Labelled NM model_tail (xkids x) y c).
    { clear IH A11. intros k1 F. induction F as [| y b k1 ks Hy F IHF]; [destruct Hc |].
      destruct Hc as [-> | Hc]; [exists y; split; [left |]; auto |].
      destruct (IHF Hc) as (z & Z1 & Z2). exists z. split; [right |]; auto. }
    destruct (G _ A11) as (y & Y1 & Y2). rewrite Forall_forall in Hks. exact (IH c Hc y (xkids x) (Hks y Y1) Y1 Y2).
Qed.

Theorem print_read : forall t1 t2 text, Forall (Printable l) (xkids t1) -> Forall (Printable l) (xkids t2) ->
  NoLines (xtag t1) -> NoLines (xtag t2) ->
  print_model m t1 = Ok text -> print_model m t2 = Ok text ->
  xtag t1 = xtag t2 /\ Forall2 Alike (filter in_data (xkids t1)) (filter in_data (xkids t2)) /\
  Forall2 Alike (filter in_rpcs (xkids t1)) (filter in_rpcs (xkids t2)) /\
  Forall2 Alike (filter in_notifications (xkids t1)) (filter in_notifications (xkids t2)).
Proof.
  intros t1 t2 text P1 P2 N1 N2 E1 E2.
  assert (OT : forall t, Forall (Printable l) (xkids t) -> forall x, In x (xkids t) -> get_attr "type" x <> Some "other").
  { intros t P x Hx. rewrite Forall_forall in P. specialize (P x Hx). inversion P; subst. congruence. }
  destruct (emit_page _ _ t1 text (OT t1 P1) E1) as (a1 & b1 & c1 & A1 & B1 & C1 & T1).
  destruct (emit_page _ _ t2 text (OT t2 P2) E2) as (a2 & b2 & c2 & A2 & B2 & C2 & T2).
  assert (OL : forall t p ts, Forall (Printable l) (xkids t) -> Forall2 (Labelled (fun x n => name_str m x = Ok n) model_tail (xkids t)) (filter p (xkids t)) ts -> Forall OneLine ts).
  { intros t p ts P F. rewrite Forall_forall in P.
    assert (HI : incl (filter p (xkids t)) (xkids t)) by (intros z Hz; apply filter_In in Hz; tauto).
    revert HI. induction F as [| x b q ts Hx F IHF]; intros HI; constructor.
    - apply (oneline_label x (xkids t)); auto with datatypes.
    - apply IHF. intros z Hz. apply HI. right. auto. }
  destruct (page_inj (xtag t1) (xtag t2) a1 a2 b1 b2 c1 c2 N1 N2) as (R1 & R2 & R3 & R4).
  - apply Forall_app. split; [exact (OL _ _ _ P1 A1) |]. apply Forall_app. split; [exact (OL _ _ _ P1 B1) | exact (OL _ _ _ P1 C1)].
  - apply Forall_app. split; [exact (OL _ _ _ P2 A2) |]. apply Forall_app. split; [exact (OL _ _ _ P2 B2) | exact (OL _ _ _ P2 C2)].
  - congruence.
  - subst a2 b2 c2. rewrite Forall_forall in P1, P2.
    assert (G : forall p ts, Forall2 (Labelled (fun x n => name_str m x = Ok n) model_tail (xkids t1)) (filter p (xkids t1)) ts ->
                Forall2 (Labelled (fun x n => name_str m x = Ok n) model_tail (xkids t2)) (filter p (xkids t2)) ts ->
                Forall2 Alike (filter p (xkids t1)) (filter p (xkids t2))).
    { intros p ts F1 F2.
      assert (I1 : incl (filter p (xkids t1)) (xkids t1)) by (intros z Hz; apply filter_In in Hz; tauto).
      assert (I2 : incl (filter p (xkids t2)) (xkids t2)) by (intros z Hz; apply filter_In in Hz; tauto).
      revert I1 I2 F2. generalize (filter p (xkids t2)) as q2. induction F1 as [| x b q1 ts Hx F1 IHF]; intros q2 I1 I2 F2; inversion F2; subst; constructor.
      - eapply read_alike; [| | | | exact Hx | eassumption]; auto with datatypes.
      - apply IHF; auto; intros z Hz; [apply I1 | apply I2]; right; auto. }
    split; auto. split; [eapply G; eassumption |]. split; eapply G; eassumption.
Qed.
End Read.
