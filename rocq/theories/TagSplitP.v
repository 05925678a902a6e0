(** How tags are split, for C37: the regular expressions of composer.py:42-45 exactly. *)
From Coq Require Import String Ascii List Bool Arith Lia.
From Verif Require Import Base BaseP TagM TagSpec TagSplitSpec TagP.
Import ListNotations.
Open Scope string_scope.
Open Scope list_scope.
Open Scope nat_scope.

Lemma line_iff : forall s t, line s = Some t <-> OneLine s t.
Proof.
  induction s as [|a r IH]; intro t; cbn [line].
  - split.
    + intro H. injection H as <-. split; [left; reflexivity | intros []].
    + intros [[H | H] _]; [now subst | destruct t; discriminate H].
  - destruct (Ascii.eqb_spec a newline) as [->|N].
    + destruct r as [|b r].
      * split.
        -- intro H. injection H as <-. split; [right; reflexivity | intros []].
        -- intros [[H | H] F]; [subst t; exfalso; apply F; left; reflexivity |].
           destruct t as [|x t]; [reflexivity |]. injection H as _ H. destruct t; discriminate H.
      * split; [discriminate |]. intros [[H | H] F].
        -- subst t. exfalso. apply F. left. reflexivity.
        -- destruct t as [|x t]; [discriminate H |]. injection H as <- H. exfalso. apply F. left. reflexivity.
    + split.
      * destruct (line r) as [t'|] eqn:E; [|discriminate]. cbn [option_map]. intro H. injection H as <-.
        destruct (proj1 (IH t') eq_refl) as [[-> | ->] F]; (split; [auto |]); cbn; intros [-> | H]; auto.
      * intros [[H | H] F].
        -- subst t. rewrite (proj2 (IH r)); [reflexivity |]. split; [now left |]. intro H. apply F. right. exact H.
        -- destruct t as [|x t]; [injection H as -> _; contradiction |]. injection H as -> H.
           rewrite (proj2 (IH t)); [reflexivity |]. split; [now right |]. intro K. apply F. right. exact K.
Qed.

Lemma split_last_some : forall c s b e, split_last c s = Some (b, e) ->
  s = (b ++ String c e)%string /\ e <> "" /\
  forall b' e', s = (b' ++ String c e')%string -> e' <> "" -> String.length b' <= String.length b.
Proof.
  induction s as [|a r IH]; cbn [split_last]; [discriminate |]. intros b e H.
  destruct (split_last c r) as [[b0 e0]|] eqn:E.
  - injection H as <- <-. destruct (IH b0 e0 eq_refl) as (-> & N & L). split; [reflexivity |]. split; [exact N |].
    intros b' e' H N'. destruct b' as [|x b']; [cbn; lia |]. injection H as _ H. cbn.
    specialize (L b' e' H N'). lia.
  - destruct (Ascii.eqb_spec a c) as [->|]; [|discriminate]. destruct r as [|x r]; [discriminate |].
    injection H as <- <-. split; [reflexivity |]. split; [discriminate |]. intros b' e' H N'.
    destruct b' as [|y b']; [cbn; lia |]. injection H as _ H. exfalso. clear IH. revert b' H E.
    generalize (String x r). clear x r y.
    intros s b' ->. induction b' as [|y b' IH]; cbn.
    + destruct (split_last c e') as [[? ?]|]; [discriminate |]. rewrite Ascii.eqb_refl. destruct e'; [contradiction | discriminate].
    + destruct (split_last c (b' ++ String c e')%string) as [[? ?]|]; [discriminate |]. intros _. apply IH. reflexivity.
Qed.

Lemma split_last_no : forall c s b e, split_last c s = None -> s = (b ++ String c e)%string -> e = "".
Proof.
  intros c s b e E ->. revert E. induction b as [|y b IH]; cbn.
  - destruct (split_last c e) as [[? ?]|]; [discriminate |]. rewrite Ascii.eqb_refl. destruct e; [reflexivity | discriminate].
  - destruct (split_last c (b ++ String c e)%string) as [[? ?]|]; [discriminate |]. intros _. apply IH. reflexivity.
Qed.

Lemma re_style_some : forall st s ns name, re_style st s = Some (ns, name) -> Splits st s ns name.
Proof.
  intros [|] s ns name H; cbn [re_style] in H.
  - unfold re_brace in H. destruct (line s) as [[|o [|a r]]|] eqn:E; try discriminate.
    destruct (Ascii.eqb_spec o "{") as [->|]; [|discriminate].
    destruct (split_last "}" r) as [[b e]|] eqn:F; [|discriminate]. injection H as <- <-.
    apply split_last_some in F. destruct F as (-> & N & L).
    exists (String "{" (String a (b ++ String "}" e)%string)). split; [now apply line_iff |].
    split; [discriminate |]. split; [exact N |]. split; [reflexivity |].
    intros ns' name' N1 N2 H. destruct ns' as [|x ns']; [contradiction |]. injection H as _ H. cbn.
    specialize (L ns' name' H N2). lia.
  - unfold re_colon in H. destruct (line s) as [[|a r]|] eqn:E; try discriminate.
    destruct (split_last ":" r) as [[b e]|] eqn:F; [|discriminate]. injection H as <- <-.
    apply split_last_some in F. destruct F as (-> & N & L).
    exists (String a (b ++ String ":" e)%string). split; [now apply line_iff |].
    split; [discriminate |]. split; [exact N |]. split; [reflexivity |].
    intros ns' name' N1 N2 H. destruct ns' as [|x ns']; [contradiction |]. injection H as _ H. cbn.
    specialize (L ns' name' H N2). lia.
Qed.

Lemma re_style_no : forall st s ns name, re_style st s = None -> ~ Splits st s ns name.
Proof.
  intros [|] s ns name H (t & O & N1 & N2 & -> & _); apply line_iff in O; cbn [re_style] in H.
  - unfold re_brace in H. rewrite O in H. destruct ns as [|a ns]; [contradiction |].
    cbn [tag_form etree append] in H. unfold etree in H. cbn [append] in H. rewrite Ascii.eqb_refl in H.
    destruct (split_last "}" (ns ++ String "}" name)%string) as [[? ?]|] eqn:F; [discriminate |].
    apply N2. eapply split_last_no; [exact F | reflexivity].
  - unfold re_colon in H. rewrite O in H. destruct ns as [|a ns]; [contradiction |].
    cbn [tag_form append] in H.
    destruct (split_last ":" (ns ++ String ":" name)%string) as [[? ?]|] eqn:F; [discriminate |].
    apply N2. eapply split_last_no; [exact F | reflexivity].
Qed.

Lemma app_form_eq : forall st ns name ns' name', tag_form st ns name = tag_form st ns' name' ->
  String.length ns = String.length ns' -> ns = ns' /\ name = name'.
Proof.
  assert (A : forall a b c d, (a ++ c)%string = (b ++ d)%string -> String.length a = String.length b -> a = b /\ c = d).
  { induction a as [|x a IH]; intros [|y b] c d H L; cbn in *; try discriminate; [auto |].
    injection H as -> H. injection L as L. destruct (IH b c d H L) as [-> ->]. auto. }
  intros [|] ns name ns' name' H L; cbn [tag_form] in H; unfold etree in H; cbn [append] in H.
  - injection H as H. apply A in H; [|exact L]. destruct H as [-> H]. injection H as ->. auto.
  - apply A in H; [|exact L]. destruct H as [-> H]. injection H as ->. auto.
Qed.

Lemma one_line_eq : forall s t t', OneLine s t -> OneLine s t' -> t = t'.
Proof. intros s t t' H H'. apply line_iff in H. apply line_iff in H'. congruence. Qed.

Lemma splits_one : forall st s ns name ns' name', Splits st s ns name -> Splits st s ns' name' -> ns = ns' /\ name = name'.
Proof.
  intros st s ns name ns' name' (t & O & A1 & A2 & E & L) (t' & O' & B1 & B2 & E' & L').
  pose proof (one_line_eq _ _ _ O O') as <-. subst t. apply (app_form_eq st); [exact E' |].
  specialize (L _ _ B1 B2 E'). specialize (L' _ _ A1 A2 eq_refl). lia.
Qed.

Lemma re_style_iff : forall st s ns name, re_style st s = Some (ns, name) <-> Splits st s ns name.
Proof.
  intros st s ns name. split; [apply re_style_some |]. intro H.
  destruct (re_style st s) as [[a b]|] eqn:E; [| exfalso; exact (re_style_no _ _ _ _ E H)].
  apply re_style_some in E. destruct (splits_one _ _ _ _ _ _ E H) as [-> ->]. reflexivity.
Qed.

Lemma split_exact : forall st s,
  (exists ns name, Splits st s ns name /\ split_tag st s = (ns, name) /\
     forall T k o, split_known T (k, o, st) s = if in_dec string_dec ns (possible_part1 T k) then Ok (ns, name) else Err ValueError) \/
  ((forall ns name, ~ Splits st s ns name) /\ split_tag st s = ("", s) /\ forall T k o, split_known T (k, o, st) s = Ok ("", s)).
Proof.
  intros st s. unfold split_tag, split_known. destruct (re_style st s) as [[a b]|] eqn:E.
  - left. exists a, b. split; [now apply re_style_some |]. split; [reflexivity |]. intros T k o.
    destruct (mem String.eqb a (possible_part1 T k)) eqn:M; destruct (in_dec string_dec a (possible_part1 T k)) as [I|I]; try reflexivity.
    + exfalso. apply I. apply (mem_In String.eqb (fun x y => String.eqb_eq x y)) in M. exact M.
    + exfalso. apply (mem_In String.eqb (fun x y => String.eqb_eq x y)) in I. congruence.
  - right. split; [intros ns name; now apply re_style_no |]. auto.
Qed.

Lemma notations : forall T e t, Sole T KUrl e -> Sole T KName e -> Sole T KPrefix e ->
  Word (e_url e) -> Word (e_name e) -> Word (e_prefix e) -> Name t ->
  let from := convert_tag T "" (etree (e_url e) t) LXML_ETREE in
  from JSON_NAME = Ok (e_url e, (e_name e ++ ":" ++ t)%string) /\
  from JSON_PREFIX = Ok (e_url e, (e_prefix e ++ ":" ++ t)%string) /\
  from YTOOL = Ok (e_url e, (e_prefix e ++ ":" ++ t)%string) /\
  from XPATH = Ok (e_url e, (e_prefix e ++ ":" ++ t)%string) /\
  from LXML_XPATH = Ok (e_url e, (e_prefix e ++ ":" ++ t)%string).
Proof.
  intros T e t SU SN SP WU WN WP N.
  assert (A : forall kd od, Sole T kd e -> Word (field kd e) ->
    convert_tag T "" (etree (e_url e) t) LXML_ETREE (kd, od, Colon) = Ok (e_url e, (field kd e ++ ":" ++ t)%string)).
  { intros kd od S W. destruct (back_and_there T e None kd od t SU S WU W N ltac:(discriminate)) as [_ H].
    cbn [dflt] in H. rewrite H. f_equal. f_equal. destruct W as [W _]. destruct od; cbn [short]; try reflexivity;
    (destruct (String.eqb_spec "" (field kd e)) as [X|X]; [congruence | reflexivity]). }
  cbv zeta. repeat split; apply A; assumption.
Qed.

Lemma built_in_notations : forall T p u t, In (p, u) built_in -> (forall e, In e T -> e_url e <> u) -> Name t ->
  (forall o, convert_tag T "" (etree u t) LXML_ETREE (KPrefix, o, Colon) = Ok (u, (p ++ ":" ++ t)%string)) /\
  get_prefix T u = Some p.
Proof.
  intros T p u t H F N.
  assert (M : matches KUrl u T = []).
  { unfold matches. clear H N. induction T as [|e T IH]; [reflexivity |]. cbn [filter field].
    destruct (String.eqb_spec (e_url e) u) as [X|X]; [exfalso; exact (F e (or_introl eq_refl) X) |].
    apply IH. intros x Hx. apply F. right. exact Hx. }
  assert (K : Word u /\ u <> "" /\ In u (map e_url specials) /\ (exists e, matches KUrl u specials = [e] /\ e_prefix e = p) /\ p <> "" /\
    get_prefix T u = Some p).
  { cbn in H. repeat (destruct H as [H|H]; [injection H as <- <- |]); try (destruct H);
    (split; [split; [discriminate | vm_compute; intuition discriminate] |]; split; [discriminate |]; split; [vm_compute; tauto |];
     split; [eexists; split; vm_compute; reflexivity |]; split; [discriminate | reflexivity]). }
  destruct K as (W & U & I & (e & E & P) & Q & G). split; [| exact G]. intro o. rewrite from_etree; [| exact W | exact N |].
  2:{ cbn [possible_part1]. apply in_or_app. right. exact I. }
  unfold convert_part. rewrite M, E. cbn [bind field]. rewrite P.
  destruct (String.eqb_spec "" u) as [X|X]; [congruence |].
  destruct p; [contradiction |]. destruct o; reflexivity.
Qed.
