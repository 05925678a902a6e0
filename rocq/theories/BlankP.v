(** Proofs about instance-identifiers with blanks. *)
From Coq Require Import String Ascii List Bool Arith Lia.
From Verif Require Import Base BaseP TagM TagSpec TagP RefM RefSpec RefP RefPropsP IidSpec IidP IidPropsP BlankSpec.
Import ListNotations.
Open Scope string_scope.
Open Scope list_scope.

(** ** A literal must follow the equals sign at once *)
Lemma quote_eqc : forall q, Quote q -> Some eqc <> Some q.
Proof. intros q [-> | ->]; discriminate. Qed.
Lemma hd_more : forall gs tail x q, Quote q -> hd_error (spell gs tail) <> Some q -> hd_error (spell gs (tail ++ eqc :: x)) <> Some q.
Proof.
  intros [| g gs] tail x q Q H; cbn [spell] in *.
  - destruct tail as [| c tail]; [cbn; apply quote_eqc; exact Q | exact H].
  - destruct (g_text g) as [| c r]; exact H.
Qed.
Lemma scan_refused : forall gs tail c rest whole pre op ps0,
  Spelled gs tail -> Forall PlainEnd gs -> ~ Quote c -> whole = pre ++ spell gs (tail ++ eqc :: c :: rest) ->
  quote_loop whole (length pre) (spell gs (tail ++ eqc :: c :: rest)) (QState ps0 None None op) = Err ConfigError.
Proof.
  induction gs as [| g gs IH]; intros tail c rest whole pre op ps0 HS HP NQ Hw.
  - cbn [spell] in *. rewrite scan_outside by exact HS. cbn [quote_loop]. unfold quote_step at 1.
    change (Ascii.eqb eqc "=") with true. cbv iota. cbn [bind]. unfold quote_step at 1. rewrite Nat.eqb_refl.
    destruct (Ascii.eqb_spec c apos) as [E | E]; [exfalso; apply NQ; left; exact E |].
    destruct (Ascii.eqb_spec c dquo) as [F | F]; [exfalso; apply NQ; right; exact F |]. reflexivity.
  - cbn [spell] in *. destruct HS as (HE & HQ & HI & Hh & HS'). inversion HP as [| x y HP1 HP2 Ex]; subst x y.
    rewrite scan_outside by exact HE. cbn [app quote_loop]. unfold quote_step at 1.
    change (Ascii.eqb "=" "=") with true. cbv iota. cbn [bind].
    set (pre1 := pre ++ g_text g ++ ["="%char]).
    assert (L1 : S (length pre + length (g_text g)) = length pre1) by (unfold pre1; rewrite !app_length; simpl; lia).
    rewrite L1.
    assert (Hw1 : whole = pre1 ++ literal g ++ spell gs (tail ++ eqc :: c :: rest)) by (rewrite Hw; unfold pre1; rewrite <- !app_assoc; reflexivity).
    destruct (spell_literal_scan g _ whole pre1 ps0 HQ HI HP1 (hd_more _ _ _ _ HQ Hh) Hw1) as (conv & op1 & _ & Hscan).
    rewrite Hscan. replace (length pre1 + length (literal g)) with (length (pre1 ++ literal g)) by apply app_length.
    apply IH; auto. rewrite Hw1, app_assoc. reflexivity.
Qed.

Theorem equals_refused : forall T w t m to gs tail c rest, Unambiguous T -> In w (map e_url T) -> Name t ->
  Spelled gs tail -> Forall PlainEnd gs -> ~ Quote c ->
  iid_convert T (RNode (etree w t) m (Some (to_s (spell gs (tail ++ "="%char :: c :: rest))))) to = Err ConfigError.
Proof.
  intros T w t m to gs tail c rest U I N HS HP NQ. unfold iid_convert. rewrite (node_url_ok T w t m _ U I N). cbn [bind r_text r_nsmap].
  unfold iid_pieces. rewrite of_to. unfold parse_quote.
  assert (E : str_of 1 [(spell gs (tail ++ "="%char :: c :: rest), 0, spell gs (tail ++ "="%char :: c :: rest))] = spell gs (tail ++ "="%char :: c :: rest))
    by (unfold str_of; cbn [filter p_phase flat_map p_str]; simpl; apply app_nil_r).
  rewrite E. change 0 with (length (@nil ascii)) at 1.
  rewrite (scan_refused gs tail c rest _ [] apos _ HS HP NQ eq_refl). reflexivity.
Qed.

Lemma spell_more : forall gs tail x, spell gs (tail ++ x) = spell gs tail ++ x.
Proof. induction gs as [| g gs IH]; intros tail x; [reflexivity |]. cbn [spell]. rewrite IH, <- !app_assoc. reflexivity. Qed.
Lemma spelled_more : forall gs tail x, Spelled gs tail -> NoEq x -> (forall q, Quote q -> hd_error x <> Some q) -> Spelled gs (tail ++ x).
Proof.
  induction gs as [| g gs IH]; intros tail x H N D; cbn [Spelled] in *; [apply noeq_app; assumption |].
  destruct H as (A & B & C & E & F). repeat (split; [assumption |]). split; [| apply IH; assumption].
  rewrite spell_more. destruct (spell gs tail) as [| c r]; [apply D; exact B | exact E].
Qed.
Lemma blanks_noeq : forall l, Blanks l -> NoEq l.
Proof. intros l B I. destruct (B _ I) as [E | E]; discriminate E. Qed.
Lemma blank_quote : forall c, Blank c -> ~ Quote c.
Proof. intros c [-> | ->] [E | E]; discriminate E. Qed.

Theorem space_refused : forall T w t m to l1 k q b l2 s w1 w2 c rest, Unambiguous T -> In w (map e_url T) -> Name t ->
  Denotes T m None (l1 ++ Pred k q b :: l2) s -> Forall Tame l1 -> Blanks w1 -> Blanks w2 -> Blank c ->
  iid_convert T (RNode (etree w t) m (Some (to_s (show_items l1 ++ "["%char :: w1 ++ key_text k ++ w2 ++ "="%char :: c :: rest)))) to = Err ConfigError.
Proof.
  intros T w t m to l1 k q b l2 s w1 w2 c rest U I N D HT B1 B2 Bc. apply Denotes_shape in D. apply Forall_app in D. destruct D as (D1 & D2).
  inversion D2 as [| i r SK _]; subst. cbn [Shape] in SK. destruct SK as (_ & _ & SK). destruct (spelled_segs l1 [] HT D1) as (SP & PE); [intros [] |].
  assert (E := spell_segs l1 [] HT). cbn [app] in E. rewrite <- E.
  set (x := "["%char :: w1 ++ key_text k ++ w2).
  replace (spell (fst (segs [] l1)) (snd (segs [] l1)) ++ "["%char :: w1 ++ key_text k ++ w2 ++ "="%char :: c :: rest)
    with (spell (fst (segs [] l1)) ((snd (segs [] l1) ++ x) ++ "="%char :: c :: rest)).
  - apply equals_refused; [exact U | exact I | exact N | | exact PE | exact (blank_quote c Bc)].
    apply spelled_more; [exact SP | | intros q' [-> | ->]; discriminate].
    apply noeq_cons; [discriminate |]. apply noeq_app; [apply blanks_noeq; exact B1 |]. apply noeq_app; [| apply blanks_noeq; exact B2].
    destruct k as [[p n] |]; [apply noeq_qname; exact SK | intros [X | []]; discriminate X].
  - rewrite !spell_more. unfold x. rewrite <- !app_assoc. cbn [app]. rewrite <- !app_assoc. reflexivity.
Qed.

(** ** A blank before the closing bracket *)
Definition blank_sem : list sem := [VStep u_if "a"; VKey u_if "k" (of_s "1")].
Definition blank_items : list item := [Step (Some "oc-if") "a"; Pred (Some (Some "oc-if", "k")) apos (of_s "1")].
Definition wrong_sem : list sem := [VStep u_ip "a"; VKey u_ip "k" (of_s "1")].
Lemma blank_denotes : Denotes ref_table iid_map None blank_items blank_sem.
Proof.
  apply DStep; [apply Resolved_prefix; [yang | left; vm_compute; tauto] | yang |].
  apply DKey; [apply Resolved_prefix; [yang | left; vm_compute; tauto] | yang | left; reflexivity | unfold of_s; cbn; inside | apply DNil].
Qed.
Lemma wrong_denotes : Denotes ref_table other_map None blank_items wrong_sem.
Proof.
  apply DStep; [apply Resolved_prefix; [yang | left; vm_compute; tauto] | yang |].
  apply DKey; [apply Resolved_prefix; [yang | left; vm_compute; tauto] | yang | left; reflexivity | unfold of_s; cbn; inside | apply DNil].
Qed.
Lemma no_blanks : Blanks []. Proof. intros c []. Qed.
Lemma one_blank : Blanks [" "%char]. Proof. intros c [<- | []]. left. reflexivity. Qed.
Definition close_text : list ascii := of_s "/oc-if:a[oc-if:k='1' ]".
Lemma close_spaced : Spaced blank_items close_text.
Proof. exact (SStep (Some "oc-if") "a" _ _ (SPred (Some (Some "oc-if", "k")) apos (of_s "1") [] [] [] [] [] [" "%char] no_blanks no_blanks no_blanks one_blank SNil)). Qed.

(** The prefixes of [u_if] at the other node *)
Lemma other_prefix : forall p, Prefix ref_table other_map p u_if -> p = "x" \/ p = "openconfig-interfaces".
Proof.
  intros p [H | (_ & e & I & E & Eu)].
  - cbn in H. repeat (destruct H as [H | H]; [first [discriminate H | injection H as <-; left; reflexivity] |]). destruct H.
  - right. cbn in I. repeat (destruct I as [<- | I]; [first [discriminate Eu | exact (eq_sym E)] |]). destruct I.
Qed.
Lemma close_wrong : forall l t, Spaced l t -> Denotes ref_table other_map None l blank_sem -> t <> close_text.
Proof.
  intros l t H D E. subst t. inversion D as [| d p n u r s R Y D' E1 E2 E3 | | |]; subst.
  inversion R as [u E4 | p' u Yp P E4 E5]; subst; [discriminate |]. inversion H as [| p n l t H' E1 E2 | |]; subst.
  apply other_prefix in P. destruct P as [-> | ->]; discriminate E2.
Qed.
Theorem close_refuted : exists l s text s',
  Spaced l text /\ Denotes ref_table iid_map None l s /\
  iid_convert ref_table (RNode (etree u_if "peer") iid_map (Some (to_s text))) (Some other_map) = Ok (to_s text) /\
  Denotes ref_table other_map None l s' /\ s' <> s /\
  (forall l', Spaced l' text -> ~ Denotes ref_table other_map None l' s).
Proof.
  exists blank_items, blank_sem, close_text, wrong_sem. split; [exact close_spaced |]. split; [exact blank_denotes |].
  split; [vm_compute; reflexivity |]. split; [exact wrong_denotes |]. split; [discriminate |].
  intros l' H D. exact (close_wrong l' _ H D eq_refl).
Qed.

(** ** A blank after the opening bracket *)
Definition open_items : list item := [Step (Some "oc-if") "a"; Pred (Some (None, "k")) apos (of_s "1")].
Definition open_text : list ascii := of_s "/oc-if:a[ k='1']".
Definition open_result : list ascii := of_s "/x:a[x: k='1']".
Lemma open_spaced : Spaced open_items open_text.
Proof. exact (SStep (Some "oc-if") "a" _ _ (SPred (Some (None, "k")) apos (of_s "1") [] [] [" "%char] [] [] [] one_blank no_blanks no_blanks no_blanks SNil)). Qed.
Lemma open_denotes : Denotes ref_table iid_map None open_items blank_sem.
Proof.
  apply DStep; [apply Resolved_prefix; [yang | left; vm_compute; tauto] | yang |].
  apply DKey; [apply Resolved_bare; reflexivity | yang | left; reflexivity | unfold of_s; cbn; inside | apply DNil].
Qed.
Lemma open_wrong : forall l, Spaced l open_result -> ~ Denotes ref_table other_map None l blank_sem.
Proof.
  intros l H D. inversion D as [| d p n u r s R Y D' E1 E2 E3 | | |]; subst.
  inversion R as [u E4 | p' u Yp P E4 E5]; subst; [discriminate |]. inversion H as [| p n l t H' E1 E2 | |]; subst.
  apply other_prefix in P. destruct P as [-> | ->]; [| discriminate E2]. cbn in E2. injection E2 as E2. subst t.
  inversion D' as [| | d p n u q b v r' s R' Y' Q Iv D'' E1 E2 E3 | |]; subst.
  inversion H' as [| | k q0 b0 l t w1 w2 w3 w4 B1 B2 B3 B4 H'' E1 E2 |]; subst.
  destruct w1 as [| c w1].
  - cbn [app key_text] in E2. inversion R' as [u E4 | p' u Yp' P' E4 E5]; subst; [discriminate E2 |].
    apply other_prefix in P'. destruct P' as [-> | ->]; discriminate E2.
  - injection E2 as E2 _. subst c. destruct (B1 "x"%char (or_introl eq_refl)) as [X | X]; discriminate X.
Qed.
Theorem open_refuted : exists l s text result,
  Spaced l text /\ Denotes ref_table iid_map None l s /\
  iid_convert ref_table (RNode (etree u_if "peer") iid_map (Some (to_s text))) (Some other_map) = Ok (to_s result) /\
  (forall l', Spaced l' result -> ~ Denotes ref_table other_map None l' s).
Proof.
  exists open_items, blank_sem, open_text, open_result. split; [exact open_spaced |]. split; [exact open_denotes |].
  split; [vm_compute; reflexivity | exact open_wrong].
Qed.
