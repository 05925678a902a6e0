(** Proofs about tag notations and namespace tables. *)
From Coq Require Import String Ascii List Bool Arith Lia Permutation DecimalString DecimalNat.
From Verif Require Import Base BaseP TagM TagSpec.
Import ListNotations.
Open Scope string_scope.
Open Scope list_scope.

Lemma has_In : forall c s, has c s = true <-> In c (chars s).
Proof.
  intros c s. induction s as [|a s IH]; simpl; [split; easy|].
  rewrite orb_true_iff, Ascii.eqb_eq, IH. reflexivity.
Qed.

Lemma line_plain : forall s, ~ In newline (chars s) -> line s = Some s.
Proof.
  induction s as [|a s IH]; simpl; intro H; [reflexivity|].
  destruct (Ascii.eqb_spec a newline) as [E|E]; [exfalso; apply H; left; exact E|].
  rewrite IH by (intro; apply H; right; assumption). reflexivity.
Qed.

Lemma chars_app : forall a b, chars (a ++ b)%string = chars a ++ chars b.
Proof. induction a as [|c a IH]; simpl; intro b; [reflexivity|]. f_equal. apply IH. Qed.

Lemma split_last_none : forall c s, ~ In c (chars s) -> split_last c s = None.
Proof.
  induction s as [|a s IH]; simpl; intro H; [reflexivity|].
  rewrite IH by (intro; apply H; right; assumption).
  destruct (Ascii.eqb_spec a c) as [E|E]; [exfalso; apply H; left; exact E | reflexivity].
Qed.

Lemma split_last_app : forall c b e, e <> "" -> ~ In c (chars e) ->
  split_last c (b ++ String c e)%string = Some (b, e).
Proof.
  induction b as [|a b IH]; intros e He Hc.
  - change ("" ++ String c e)%string with (String c e). cbn [split_last].
    rewrite split_last_none by assumption. rewrite Ascii.eqb_refl.
    destruct e; [congruence | reflexivity].
  - change (String a b ++ String c e)%string with (String a (b ++ String c e)%string).
    cbn [split_last]. rewrite IH by assumption. reflexivity.
Qed.

Lemma re_colon_app : forall p t, Word p -> Word t -> ~ In ":"%char (chars t) ->
  re_colon (p ++ ":" ++ t)%string = Some (p, t).
Proof.
  intros p t [Hp Np] [Ht Nt] Hc. unfold re_colon.
  rewrite line_plain.
  - destruct p as [|a p]; [congruence|].
    change (String a p ++ ":" ++ t)%string with (String a (p ++ String ":" t)%string).
    cbv beta iota. rewrite split_last_app by assumption. reflexivity.
  - rewrite chars_app. intro H. apply in_app_or in H. destruct H as [H|H]; [auto|].
    simpl in H. destruct H as [H|H]; [discriminate H | auto].
Qed.

Lemma re_colon_bare : forall t, ~ In newline (chars t) -> ~ In ":"%char (chars t) -> re_colon t = None.
Proof.
  intros t Nt Hc. unfold re_colon. rewrite line_plain by assumption.
  destruct t as [|a t]; [reflexivity|].
  rewrite split_last_none; [reflexivity|]. intro; apply Hc; right; assumption.
Qed.

Lemma re_brace_app : forall u t, Word u -> Word t -> ~ In "}"%char (chars t) ->
  re_brace (etree u t) = Some (u, t).
Proof.
  intros u t [Hp Np] [Ht Nt] Hc. unfold re_brace, etree.
  rewrite line_plain.
  - destruct u as [|a p]; [congruence|].
    change ("{" ++ String a p ++ "}" ++ t)%string with
      (String "{" (String a (p ++ String "}" t)%string)).
    cbv beta iota. rewrite Ascii.eqb_refl. rewrite split_last_app by assumption. reflexivity.
  - change ("{" ++ u ++ "}" ++ t)%string with (String "{" (u ++ String "}" t)%string).
    simpl. rewrite chars_app. intros [H|H]; [discriminate H|].
    apply in_app_or in H. destruct H as [H|H]; [auto|].
    simpl in H. destruct H as [H|H]; [discriminate H | auto].
Qed.

Lemma mem_string : forall x l, mem String.eqb x l = true <-> In x l.
Proof.
  intros x l. induction l as [|y l IH]; simpl; [split; easy|].
  rewrite orb_true_iff, String.eqb_eq, IH. split; intros [H|H]; auto.
Qed.

(** ** Tables *)

Lemma filter_none : forall (A : Type) (f : A -> bool) l, (forall x, In x l -> f x = false) -> filter f l = [].
Proof.
  intros A f l. induction l as [|x l IH]; simpl; intro H; [reflexivity|].
  rewrite (H x (or_introl eq_refl)). apply IH. intros; apply H; right; assumption.
Qed.

Lemma Sole_matches : forall T k e, Sole T k e <-> matches k (field k e) T = [e].
Proof.
  intros T k e. split.
  - intros (l & r & -> & H). unfold matches. rewrite filter_app. cbn [filter].
    rewrite String.eqb_refl.
    rewrite !filter_none; [reflexivity| |];
      intros x Hx; apply String.eqb_neq; apply H; apply in_or_app; auto.
  - unfold matches. intro H. induction T as [|a T IH]; [discriminate H|].
    cbn [filter] in H. destruct (String.eqb_spec (field k a) (field k e)) as [E|E].
    + injection H as H1 H2. subst a. exists [], T. split; [reflexivity|].
      intros x Hx Hf. assert (Hin : In x (filter (fun e0 => String.eqb (field k e0) (field k e)) T))
        by (apply filter_In; split; [exact Hx | apply String.eqb_eq; exact Hf]).
      rewrite H2 in Hin. destruct Hin.
    + destruct (IH H) as (l & r & -> & Hx). exists (a :: l), r. split; [reflexivity|].
      intros x [<-|Hx']; [exact E | apply Hx; exact Hx'].
Qed.

Lemma matches_In : forall k ns T e, In e (matches k ns T) <-> In e T /\ field k e = ns.
Proof. intros. unfold matches. rewrite filter_In, String.eqb_eq. reflexivity. Qed.

Lemma convert_ns_spec : forall T ns src dst v,
  convert_ns T ns src dst = Ok v <->
  exists e, Sole T src e /\ field src e = ns /\ field dst e = v.
Proof.
  intros T ns src dst v. unfold convert_ns. split.
  - destruct (matches src ns T) as [|e [|e' r]] eqn:E; try discriminate.
    intro H. injection H as <-. exists e.
    assert (Hin : In e (matches src ns T)) by (rewrite E; left; reflexivity).
    apply matches_In in Hin. destruct Hin as [_ Hf]. subst ns.
    repeat split. apply Sole_matches. exact E.
  - intros (e & HS & <- & <-). apply Sole_matches in HS. rewrite HS. reflexivity.
Qed.

Lemma convert_ns_err : forall T ns src dst,
  (~ exists e, Sole T src e /\ field src e = ns) <-> convert_ns T ns src dst = Err ValueError.
Proof.
  intros T ns src dst. split.
  - intro H. destruct (convert_ns T ns src dst) as [v|er] eqn:E.
    + apply convert_ns_spec in E. destruct E as (e & HS & Hf & _). exfalso. apply H. eauto.
    + unfold convert_ns in E. destruct (matches src ns T) as [|e [|e' r]]; congruence.
  - intros H (e & HS & Hf).
    assert (E : convert_ns T ns src dst = Ok (field dst e)) by (apply convert_ns_spec; eauto).
    congruence.
Qed.

(** ** convert_tag *)

Lemma convert_part_sole : forall T ks kd e, Sole T ks e ->
  convert_part T ks kd (field ks e) = Ok (field kd e).
Proof. intros T ks kd e H. apply Sole_matches in H. unfold convert_part. rewrite H. reflexivity. Qed.

Lemma Sole_In : forall T k e, Sole T k e -> In e T.
Proof. intros T k e (l & r & -> & _). apply in_elt. Qed.

Lemma Sole_eq : forall T k e e', Sole T k e -> In e' T -> field k e' = field k e -> e' = e.
Proof.
  intros T k e e' HS Hin Hf. apply Sole_matches in HS.
  assert (H : In e' (matches k (field k e) T)) by (apply matches_In; auto).
  rewrite HS in H. destruct H as [H|[]]. auto.
Qed.

Lemma possible_In : forall T k e, In e T -> In (field k e) (possible_part1 T k).
Proof.
  intros T k e H. destruct k; simpl field; unfold possible_part1;
    [apply in_map; exact H | apply in_or_app; left; apply in_map; exact H
    | apply in_or_app; left; apply in_map; exact H].
Qed.

Lemma split_etree : forall T u t, Word u -> Name t -> In u (possible_part1 T KUrl) ->
  split_known T LXML_ETREE (etree u t) = Ok (u, t).
Proof.
  intros T u t Hu (Ht & _ & Hb) Hp. unfold split_known, LXML_ETREE, re_style.
  rewrite re_brace_app by assumption.
  rewrite (proj2 (mem_string _ _) Hp). reflexivity.
Qed.

Lemma split_colon : forall T k o q t, Word q -> Name t -> In q (possible_part1 T k) ->
  split_known T (k, o, Colon) (q ++ ":" ++ t)%string = Ok (q, t).
Proof.
  intros T k o q t Hq (Ht & Hc & _) Hp. unfold split_known, re_style.
  rewrite re_colon_app by assumption.
  rewrite (proj2 (mem_string _ _) Hp). reflexivity.
Qed.

Lemma split_bare : forall T k o t, Name t -> split_known T (k, o, Colon) t = Ok ("", t).
Proof.
  intros T k o t ((_ & Nt) & Hc & _). unfold split_known, re_style.
  rewrite re_colon_bare by assumption. reflexivity.
Qed.

Lemma format_word : forall k o st q t, q <> "" -> format_tag (k, o, st) q t = fmt_style st q t.
Proof. intros k o st q t H. unfold format_tag. destruct q; [congruence | reflexivity]. Qed.

Lemma from_etree : forall T d u t kd od, Word u -> Name t -> In u (possible_part1 T KUrl) ->
  convert_tag T d (etree u t) LXML_ETREE (kd, od, Colon) =
  match od with
  | NoOmit => let! p := convert_part T KUrl kd u in Ok (u, format_tag (kd, od, Colon) p t)
  | _ => if String.eqb d u then Ok (u, t)
         else let! p := convert_part T KUrl kd u in Ok (u, format_tag (kd, od, Colon) p t)
  end.
Proof.
  intros T d u t kd od Hu Ht Hp. unfold convert_tag.
  change (KUrl, NoOmit, Brace) with LXML_ETREE. cbv beta iota delta [LXML_ETREE].
  change (KUrl, NoOmit, Brace) with LXML_ETREE.
  rewrite (split_etree T u t Hu Ht Hp). cbn [bind].
  destruct Hu as [Hu _]. destruct u as [|a u]; [congruence|]. cbn [bind].
  destruct od; reflexivity.
Qed.

Lemma to_etree_qualified : forall T d q t ks os, Word q -> Name t -> In q (possible_part1 T ks) ->
  convert_tag T d (q ++ ":" ++ t)%string (ks, os, Colon) LXML_ETREE =
  let! u := convert_part T ks KUrl q in Ok (q, format_tag LXML_ETREE u t).
Proof.
  intros T d q t ks os Hq Ht Hp. unfold convert_tag, LXML_ETREE.
  rewrite (split_colon T ks os q t Hq Ht Hp). cbn [bind].
  destruct Hq as [Hq _]. destruct q as [|a q]; [congruence|].
  destruct os; reflexivity.
Qed.

Lemma to_etree_bare : forall T d t ks os, Name t -> os <> NoOmit ->
  convert_tag T d t (ks, os, Colon) LXML_ETREE =
  let! u := convert_part T ks KUrl d in Ok (d, format_tag LXML_ETREE u t).
Proof.
  intros T d t ks os Ht Ho. unfold convert_tag, LXML_ETREE.
  rewrite (split_bare T ks os t Ht). cbn [bind].
  destruct os; [congruence | reflexivity | reflexivity].
Qed.

Lemma Word_ne : forall s, Word s -> s <> "".
Proof. intros s [H _]; exact H. Qed.

Lemma there_and_back : forall T e d kd od t,
  Sole T KUrl e -> Sole T kd e -> Word (e_url e) -> Word (field kd e) -> Name t ->
  (forall e0, d = Some e0 -> In e0 T) ->
  exists s,
    convert_tag T (dflt d KUrl) (etree (e_url e) t) LXML_ETREE (kd, od, Colon) = Ok (e_url e, s) /\
    convert_tag T (dflt d kd) s (kd, od, Colon) LXML_ETREE = Ok (field kd e, etree (e_url e) t).
Proof.
  intros T e d kd od t HU HK Wu Wk Ht Hd.
  assert (Hin := Sole_In _ _ _ HU).
  assert (Pu := possible_In T KUrl e Hin). assert (Pk := possible_In T kd e Hin).
  assert (CU := convert_part_sole T KUrl kd e HU). assert (CK := convert_part_sole T kd KUrl e HK).
  change (field KUrl e) with (e_url e) in *.
  rewrite from_etree by assumption.
  assert (Q : convert_tag T (dflt d kd) (field kd e ++ ":" ++ t)%string (kd, od, Colon) LXML_ETREE
              = Ok (field kd e, etree (e_url e) t)).
  { rewrite to_etree_qualified by assumption. rewrite CK. cbn [bind].
    unfold LXML_ETREE. rewrite format_word by (apply Word_ne; exact Wu). reflexivity. }
  assert (F : format_tag (kd, od, Colon) (field kd e) t = (field kd e ++ ":" ++ t)%string)
    by (rewrite format_word by (apply Word_ne; exact Wk); reflexivity).
  destruct od.
  - exists (field kd e ++ ":" ++ t)%string. rewrite CU. cbn [bind]. rewrite F. auto.
  - destruct (String.eqb_spec (dflt d KUrl) (e_url e)) as [E|E].
    + exists t. split; [reflexivity|].
      assert (Ed : dflt d kd = field kd e).
      { destruct d as [e0|]; simpl in E |- *; [|exfalso; apply (Word_ne _ Wu); auto].
        rewrite (Sole_eq T KUrl e e0 HU (Hd e0 eq_refl) E). reflexivity. }
      rewrite Ed. rewrite to_etree_bare by (assumption || discriminate).
      rewrite CK. cbn [bind]. unfold LXML_ETREE.
      rewrite format_word by (apply Word_ne; exact Wu). reflexivity.
    + exists (field kd e ++ ":" ++ t)%string. rewrite CU. cbn [bind]. rewrite F. auto.
  - destruct (String.eqb_spec (dflt d KUrl) (e_url e)) as [E|E].
    + exists t. split; [reflexivity|].
      assert (Ed : dflt d kd = field kd e).
      { destruct d as [e0|]; simpl in E |- *; [|exfalso; apply (Word_ne _ Wu); auto].
        rewrite (Sole_eq T KUrl e e0 HU (Hd e0 eq_refl) E). reflexivity. }
      rewrite Ed. rewrite to_etree_bare by (assumption || discriminate).
      rewrite CK. cbn [bind]. unfold LXML_ETREE.
      rewrite format_word by (apply Word_ne; exact Wu). reflexivity.
    + exists (field kd e ++ ":" ++ t)%string. rewrite CU. cbn [bind]. rewrite F. auto.
Qed.

Lemma back_and_there : forall T e d kd od t,
  Sole T KUrl e -> Sole T kd e -> Word (e_url e) -> Word (field kd e) -> Name t ->
  (forall e0, d = Some e0 -> In e0 T) ->
  convert_tag T (dflt d kd) (short od (dflt d kd) (field kd e) t) (kd, od, Colon) LXML_ETREE
    = Ok (field kd e, etree (e_url e) t) /\
  convert_tag T (dflt d KUrl) (etree (e_url e) t) LXML_ETREE (kd, od, Colon)
    = Ok (e_url e, short od (dflt d kd) (field kd e) t).
Proof.
  intros T e d kd od t HU HK Wu Wk Ht Hd.
  assert (Hin := Sole_In _ _ _ HU).
  assert (Pu := possible_In T KUrl e Hin). assert (Pk := possible_In T kd e Hin).
  assert (CU := convert_part_sole T KUrl kd e HU). assert (CK := convert_part_sole T kd KUrl e HK).
  change (field KUrl e) with (e_url e) in *.
  rewrite from_etree by assumption.
  assert (Q : convert_tag T (dflt d kd) (field kd e ++ ":" ++ t)%string (kd, od, Colon) LXML_ETREE
              = Ok (field kd e, etree (e_url e) t)).
  { rewrite to_etree_qualified by assumption. rewrite CK. cbn [bind].
    unfold LXML_ETREE. rewrite format_word by (apply Word_ne; exact Wu). reflexivity. }
  assert (F : format_tag (kd, od, Colon) (field kd e) t = (field kd e ++ ":" ++ t)%string)
    by (rewrite format_word by (apply Word_ne; exact Wk); reflexivity).
  assert (D : String.eqb (dflt d KUrl) (e_url e) = String.eqb (dflt d kd) (field kd e)).
  { destruct d as [e0|]; cbn [dflt]; change (field KUrl) with e_url.
    - assert (H0 := Hd e0 eq_refl).
      destruct (String.eqb_spec (e_url e0) (e_url e)) as [E|E];
        destruct (String.eqb_spec (field kd e0) (field kd e)) as [E'|E']; try reflexivity.
      + exfalso. apply E'. rewrite (Sole_eq T KUrl e e0 HU H0 E). reflexivity.
      + exfalso. apply E. rewrite (Sole_eq T kd e e0 HK H0 E'). reflexivity.
    - destruct (String.eqb_spec "" (e_url e)) as [E|_]; [exfalso; apply (Word_ne _ Wu); auto|].
      destruct (String.eqb_spec "" (field kd e)) as [E|_]; [exfalso; apply (Word_ne _ Wk); auto|].
      reflexivity. }
  unfold short. rewrite D.
  destruct od.
  - rewrite CU. cbn [bind]. rewrite F. auto.
  - destruct (String.eqb_spec (dflt d kd) (field kd e)) as [E|E].
    + split; [|reflexivity]. rewrite E. rewrite to_etree_bare by (assumption || discriminate).
      rewrite CK. cbn [bind]. unfold LXML_ETREE.
      rewrite format_word by (apply Word_ne; exact Wu). reflexivity.
    + rewrite CU. cbn [bind]. rewrite F. auto.
  - destruct (String.eqb_spec (dflt d kd) (field kd e)) as [E|E].
    + split; [|reflexivity]. rewrite E. rewrite to_etree_bare by (assumption || discriminate).
      rewrite CK. cbn [bind]. unfold LXML_ETREE.
      rewrite format_word by (apply Word_ne; exact Wu). reflexivity.
    + rewrite CU. cbn [bind]. rewrite F. auto.
Qed.

(** Whatever the table: two successful conversions return the tag. *)
Lemma specials_prefix : forall a b, In a specials -> In b specials -> e_prefix a = e_prefix b -> a = b.
Proof.
  intros a b Ha Hb. simpl in Ha, Hb.
  destruct Ha as [<-|[<-|[<-|[<-|[]]]]], Hb as [<-|[<-|[<-|[<-|[]]]]]; intro H;
    try reflexivity; discriminate H.
Qed.

Lemma one_match : forall k ns T e, matches k ns T = [e] -> In e T /\ field k e = ns.
Proof. intros k ns T e H. apply matches_In. rewrite H. left. reflexivity. Qed.

Lemma no_match : forall k ns T e, matches k ns T = [] -> In e T -> field k e <> ns.
Proof.
  intros k ns T e H Hin Hf. assert (H' : In e (matches k ns T)) by (apply matches_In; auto).
  rewrite H in H'. destruct H'.
Qed.

Lemma matched_same : forall k ns T e e', matches k ns T = [e] -> In e' T -> field k e' = ns -> e' = e.
Proof.
  intros k ns T e e' H Hin Hf. assert (H' : In e' (matches k ns T)) by (apply matches_In; auto).
  rewrite H in H'. destruct H' as [H'|[]]. auto.
Qed.

Lemma convert_part_back : forall T kd u p u',
  KeepsSpecials T -> kd <> KUrl ->
  convert_part T KUrl kd u = Ok p -> convert_part T kd KUrl p = Ok u' -> u' = u.
Proof.
  intros T kd u p u' HK Hk H1 H2. unfold convert_part in H1.
  destruct (matches KUrl u T) as [|e [|e' r]] eqn:E1; [| |discriminate H1].
  - destruct kd; try discriminate; [|congruence].
    destruct (matches KUrl u specials) as [|s [|s' r]] eqn:E2; try discriminate H1.
    injection H1 as <-. apply one_match in E2. destruct E2 as [Hs Hu].
    unfold convert_part in H2. cbn [field] in H2; destruct (matches KPrefix (e_prefix s) T) as [|e [|e' r]] eqn:E3;
      [| |discriminate H2].
    + destruct (matches KPrefix (e_prefix s) specials) as [|s2 [|s3 r]] eqn:E4; try discriminate H2.
      injection H2 as <-. apply one_match in E4. destruct E4 as [Hs2 Hp].
      rewrite <- (specials_prefix s2 s Hs2 Hs Hp) in Hu. exact Hu.
    + injection H2 as <-. apply one_match in E3. destruct E3 as [He Hp].
      rewrite <- Hu. exact (HK e s He Hs Hp).
  - injection H1 as <-. apply one_match in E1. destruct E1 as [He Hu].
    unfold convert_part in H2. destruct (matches kd (field kd e) T) as [|a [|b r]] eqn:E3;
      [|injection H2 as <-; rewrite <- (matched_same _ _ _ _ _ E3 He eq_refl); exact Hu|discriminate H2].
    exfalso. exact (no_match _ _ _ _ E3 He eq_refl).
Qed.

Lemma split_known_colon_ok : forall T k o q t r, Word q -> Name t ->
  split_known T (k, o, Colon) (q ++ ":" ++ t)%string = Ok r -> In q (possible_part1 T k).
Proof.
  intros T k o q t r Hq (Ht & Hc & _) H. unfold split_known, re_style in H.
  rewrite re_colon_app in H by assumption.
  destruct (mem String.eqb q (possible_part1 T k)) eqn:E; [|discriminate H].
  apply mem_string. exact E.
Qed.

Lemma convert_part_word : forall T kd u p, Forall (fun e => Word (field kd e)) T -> kd <> KUrl ->
  convert_part T KUrl kd u = Ok p -> Word p.
Proof.
  intros T kd u p HF Hk H. unfold convert_part in H.
  destruct (matches KUrl u T) as [|e [|e' r]] eqn:E1; [| |discriminate H].
  - destruct kd; try discriminate; [|congruence].
    destruct (matches KUrl u specials) as [|s [|s' r]] eqn:E2; try discriminate H.
    injection H as <-. apply one_match in E2. destruct E2 as [Hs _].
    simpl in Hs. destruct Hs as [<-|[<-|[<-|[<-|[]]]]]; split; simpl; try discriminate;
      intro H; repeat (destruct H as [H|H]; [discriminate H|]); exact H.
  - injection H as <-. apply one_match in E1. destruct E1 as [He _].
    rewrite Forall_forall in HF. exact (HF e He).
Qed.

Lemma both_succeed : forall T kd od u t du dd ns1 s ns2 tag,
  KeepsSpecials T -> Forall (fun e => Word (field kd e)) T -> kd <> KUrl ->
  Word u -> Name t ->
  (du = "" \/ convert_part T KUrl kd du = Ok dd) ->
  convert_tag T du (etree u t) LXML_ETREE (kd, od, Colon) = Ok (ns1, s) ->
  convert_tag T dd s (kd, od, Colon) LXML_ETREE = Ok (ns2, tag) ->
  tag = etree u t.
Proof.
  intros T kd od u t du dd ns1 s ns2 tag HK HF Hk Wu Ht Hd H1 H2.
  assert (Pu : In u (possible_part1 T KUrl)).
  { unfold convert_tag, LXML_ETREE, split_known, re_style in H1.
    rewrite re_brace_app in H1 by (apply Wu || apply Ht).
    destruct (mem String.eqb u (possible_part1 T KUrl)) eqn:E; [|discriminate H1].
    apply mem_string. exact E. }
  rewrite from_etree in H1 by assumption.
  assert (Q : forall p, convert_part T KUrl kd u = Ok p ->
              s = format_tag (kd, od, Colon) p t -> tag = etree u t).
  { intros p Hp Hs. assert (Wp := convert_part_word T kd u p HF Hk Hp).
    rewrite format_word in Hs by (apply Word_ne; exact Wp). unfold fmt_style in Hs. subst s.
    assert (Pp : In p (possible_part1 T kd)).
    { unfold convert_tag, LXML_ETREE in H2.
      destruct (split_known T (kd, od, Colon) (p ++ ":" ++ t)%string) as [r|er] eqn:E; [|discriminate H2].
      exact (split_known_colon_ok T kd od p t r Wp Ht E). }
    rewrite to_etree_qualified in H2 by assumption.
    destruct (convert_part T kd KUrl p) as [u'|er] eqn:E; [|discriminate H2].
    cbn [bind] in H2. assert (Ht2 : tag = format_tag LXML_ETREE u' t) by congruence. rewrite Ht2.
    rewrite (convert_part_back T kd u p u' HK Hk Hp E).
    unfold LXML_ETREE. rewrite format_word by (apply Word_ne; exact Wu). reflexivity. }
  destruct od.
  - destruct (convert_part T KUrl kd u) as [p|er] eqn:E; [|discriminate H1].
    cbn [bind] in H1. injection H1 as H1a H1b. exact (Q p eq_refl (eq_sym H1b)).
  - destruct (String.eqb_spec du u) as [E|E].
    + injection H1 as H1a H1b. subst s. subst du.
      rewrite to_etree_bare in H2 by (assumption || discriminate).
      destruct (convert_part T kd KUrl dd) as [u'|er] eqn:E'; [|discriminate H2].
      cbn [bind] in H2. assert (Ht2 : tag = format_tag LXML_ETREE u' t) by congruence. rewrite Ht2.
      destruct Hd as [Hd|Hd]; [exfalso; apply (Word_ne _ Wu); exact Hd|].
      rewrite (convert_part_back T kd u dd u' HK Hk Hd E').
      unfold LXML_ETREE. rewrite format_word by (apply Word_ne; exact Wu). reflexivity.
    + destruct (convert_part T KUrl kd u) as [p|er] eqn:E'; [|discriminate H1].
      cbn [bind] in H1. injection H1 as H1a H1b. exact (Q p eq_refl (eq_sym H1b)).
  - destruct (String.eqb_spec du u) as [E|E].
    + injection H1 as H1a H1b. subst s. subst du.
      rewrite to_etree_bare in H2 by (assumption || discriminate).
      destruct (convert_part T kd KUrl dd) as [u'|er] eqn:E'; [|discriminate H2].
      cbn [bind] in H2. assert (Ht2 : tag = format_tag LXML_ETREE u' t) by congruence. rewrite Ht2.
      destruct Hd as [Hd|Hd]; [exfalso; apply (Word_ne _ Wu); exact Hd|].
      rewrite (convert_part_back T kd u dd u' HK Hk Hd E').
      unfold LXML_ETREE. rewrite format_word by (apply Word_ne; exact Wu). reflexivity.
    + destruct (convert_part T KUrl kd u) as [p|er] eqn:E'; [|discriminate H1].
      cbn [bind] in H1. injection H1 as H1a H1b. exact (Q p eq_refl (eq_sym H1b)).
Qed.

(** ** _get_ns *)

Lemma ns_number_inj : forall i j, ns_number i = ns_number j -> i = j.
Proof.
  intros i j H. unfold ns_number in H. injection H as H.
  assert (K : forall n, Nat.of_uint (if Nat.ltb n 10 then Decimal.D0 (Nat.to_uint n) else Nat.to_uint n) = n).
  { intro n. assert (E := DecimalNat.Unsigned.of_to n).
    destruct (Nat.ltb n 10); [|exact E]. exact E. }
  rewrite <- (K i), <- (K j).
  assert (U : forall a b, NilEmpty.string_of_uint a = NilEmpty.string_of_uint b -> a = b).
  { intros a b Hab. assert (Ha := NilEmpty.usu a). assert (Hb := NilEmpty.usu b).
    rewrite Hab in Ha. rewrite Ha in Hb. congruence. }
  rewrite (U _ _ H). reflexivity.
Qed.

Lemma uint_digits : forall d, Forall digit (chars (NilEmpty.string_of_uint d)).
Proof.
  induction d; simpl; constructor; try assumption; unfold digit; simpl; tauto.
Qed.

Lemma ns_number_form : forall i, exists d, ns_number i = ("ns" ++ d)%string /\ Forall digit (chars d).
Proof. intro i. unfold ns_number. eexists. split; [reflexivity|]. apply uint_digits. Qed.

Lemma number_fst : forall l i, map fst (number i l) = map fst l.
Proof.
  induction l as [|(u, [p|]) l IH]; intro i; [reflexivity| |]; simpl; f_equal; apply IH.
Qed.

(** The pairs: known URLs keep their prefix, numbered ones get [ns_number j], [i <= j]. *)
Lemma number_In : forall l i u p, In (u, p) (number i l) ->
  In (u, Some p) l \/ (In (u, None) l /\ exists j, i <= j /\ p = ns_number j).
Proof.
  induction l as [|(u0, [p0|]) l IH]; intros i u p H; [destruct H| |]; simpl in H.
  - destruct H as [H|H]; [injection H as <- <-; left; left; reflexivity|].
    destruct (IH i u p H) as [H1|(H1 & H2)]; [left; right; exact H1 | right; split; [right; exact H1 | exact H2]].
  - destruct H as [H|H].
    + injection H as <- <-. right. split; [left; reflexivity|]. exists i. auto.
    + destruct (IH (S i) u p H) as [H1|(H1 & j & Hj & Hp)]; [left; right; exact H1|].
      right. split; [right; exact H1|]. exists j. split; [lia | exact Hp].
Qed.

Lemma number_inj : forall l i,
  (forall u v p, In (u, Some p) l -> In (v, Some p) l -> u = v) ->
  (forall u p, In (u, Some p) l -> ~ exists j, p = ns_number j) ->
  NoDup (map fst l) ->
  NoDup (map snd (number i l)).
Proof.
  induction l as [|(u0, o) l IH]; intros i Hd Hn HND; [constructor|].
  simpl in HND. inversion HND as [|x y Hx HND' Ex]; subst.
  assert (Hd' : forall u v p, In (u, Some p) l -> In (v, Some p) l -> u = v).
  { intros u v p Hu Hv. apply (Hd u v p); right; assumption. }
  assert (Hn' : forall u p, In (u, Some p) l -> ~ exists j, p = ns_number j).
  { intros u p Hu. apply (Hn u p). right; exact Hu. }
  destruct o as [p0|]; simpl; constructor.
  - intro H. apply in_map_iff in H. destruct H as ((v, p) & Hp & H). simpl in Hp. subst p.
    destruct (number_In _ _ _ _ H) as [H1|(H1 & j & _ & Hj)].
    + apply Hx. rewrite (Hd u0 v p0 (or_introl eq_refl) (or_intror H1)).
      apply in_map_iff. exists (v, Some p0). auto.
    + apply (Hn u0 p0 (or_introl eq_refl)). exists j. exact Hj.
  - apply IH; assumption.
  - intro H. apply in_map_iff in H. destruct H as ((v, p) & Hp & H). simpl in Hp. subst p.
    destruct (number_In _ _ _ _ H) as [H1|(H1 & j & Hj & Hj')].
    + apply (Hn' v _ H1). exists i. reflexivity.
    + apply ns_number_inj in Hj'. lia.
  - apply IH; assumption.
Qed.

Lemma dset_new : forall (d : list (string * string)) k v, ~ In k (map fst d) ->
  dset String.eqb k v d = d ++ [(k, v)].
Proof.
  induction d as [|(k0, v0) d IH]; intros k v H; [reflexivity|]. simpl.
  destruct (String.eqb_spec k k0) as [E|E]; [exfalso; apply H; left; auto|].
  rewrite IH; [reflexivity|]. intro; apply H; right; assumption.
Qed.

Lemma fold_dset : forall (l : list (string * string)) d,
  NoDup (map snd l) -> (forall p, In p (map snd l) -> ~ In p (map fst d)) ->
  fold_left (fun d '(u, p) => dset String.eqb p u d) l d = d ++ map (fun '(u, p) => (p, u)) l.
Proof.
  induction l as [|(u, p) l IH]; intros d HND Hd; [simpl; rewrite app_nil_r; reflexivity|].
  cbn [fold_left map]. simpl in HND. inversion HND as [|x y Hx HND' Ex]; subst.
  rewrite dset_new by (apply Hd; left; reflexivity).
  rewrite IH.
  - rewrite <- app_assoc. reflexivity.
  - exact HND'.
  - intros q Hq Hin. rewrite map_app in Hin. apply in_app_or in Hin. destruct Hin as [Hin|Hin].
    + apply (Hd q); [right; exact Hq | exact Hin].
    + simpl in Hin. destruct Hin as [<-|[]]. exact (Hx Hq).
Qed.

Lemma get_prefix_In : forall T u p, get_prefix T u = Some p ->
  exists e, In e (T ++ specials) /\ e_prefix e = p /\ e_url e = u.
Proof.
  intros T u p H. unfold get_prefix in H.
  destruct (find (fun e => String.eqb (e_url e) u) specials) as [s|] eqn:E.
  - injection H as <-. apply find_some in E. destruct E as [Hs He]. apply String.eqb_eq in He.
    exists s. split; [apply in_or_app; right; exact Hs | auto].
  - destruct (find (fun e => String.eqb u (e_url e)) T) as [e|] eqn:E'; [|discriminate H].
    injection H as <-. apply find_some in E'. destruct E' as [He Hu]. apply String.eqb_eq in Hu.
    exists e. split; [apply in_or_app; left; exact He | auto].
Qed.

Lemma get_prefix_none : forall T u, get_prefix T u = None ->
  forall e, In e (T ++ specials) -> e_url e <> u.
Proof.
  intros T u H e He Hu. unfold get_prefix in H.
  destruct (find (fun e => String.eqb (e_url e) u) specials) as [s|] eqn:E; [discriminate H|].
  destruct (find (fun e => String.eqb u (e_url e)) T) as [e0|] eqn:E'; [discriminate H|].
  apply in_app_or in He. destruct He as [He|He].
  - assert (X := find_none _ _ E' e He). simpl in X. rewrite Hu, String.eqb_refl in X. discriminate X.
  - assert (X := find_none _ _ E e He). simpl in X. rewrite Hu, String.eqb_refl in X. discriminate X.
Qed.

Lemma specials_not_numbered : forall s, In s specials -> ~ exists j, e_prefix s = ns_number j.
Proof.
  intros s Hs (j & H). simpl in Hs.
  destruct Hs as [<-|[<-|[<-|[<-|[]]]]]; simpl in H; unfold ns_number in H; discriminate H.
Qed.

Lemma get_ns_eq : forall T urls, PrefixesDistinct T -> NoNumbered T -> NoDup urls ->
  get_ns T urls = map (fun '(u, p) => (p, u)) (number 0 (map (fun u => (u, get_prefix T u)) urls)) /\
  NoDup (map snd (number 0 (map (fun u => (u, get_prefix T u)) urls))).
Proof.
  intros T urls HP HN HND. unfold get_ns.
  assert (X : NoDup (map snd (number 0 (map (fun u => (u, get_prefix T u)) urls)))).
  { apply number_inj.
    - intros u v p Hu Hv. apply in_map_iff in Hu. destruct Hu as (u' & Eu & _).
      apply in_map_iff in Hv. destruct Hv as (v' & Ev & _).
      injection Eu as <- Eu. injection Ev as <- Ev.
      apply get_prefix_In in Eu. apply get_prefix_In in Ev.
      destruct Eu as (a & Ha & Hpa & <-). destruct Ev as (b & Hb & Hpb & <-).
      apply HP; try assumption. congruence.
    - intros u p Hu (j & Hj). apply in_map_iff in Hu. destruct Hu as (u' & Eu & _).
      injection Eu as <- Eu. apply get_prefix_In in Eu. destruct Eu as (a & Ha & Hpa & _).
      apply in_app_or in Ha. destruct Ha as [Ha|Ha].
      + apply (HN a Ha). rewrite Hpa, Hj. apply ns_number_form.
      + apply (specials_not_numbered a Ha). exists j. congruence.
    - rewrite map_map. simpl. rewrite map_id. exact HND. }
  split; [|exact X]. rewrite fold_dset; [reflexivity | exact X | intros p _ []].
Qed.

Lemma get_ns_exact : forall T urls, PrefixesDistinct T -> NoNumbered T -> NoDup urls ->
  map snd (get_ns T urls) = urls /\ NoDup (map fst (get_ns T urls)) /\
  forall p u, In (p, u) (get_ns T urls) ->
    forall e, In e (T ++ specials) -> e_url e = u ->
      exists e', In e' (T ++ specials) /\ e_url e' = u /\ e_prefix e' = p.
Proof.
  intros T urls HP HN HND. destruct (get_ns_eq T urls HP HN HND) as [E X]. rewrite E.
  assert (F : map fst (number 0 (map (fun u => (u, get_prefix T u)) urls)) = urls)
    by (rewrite number_fst, map_map; simpl; apply map_id).
  repeat split.
  - rewrite map_map. rewrite <- F at 2. apply map_ext. intros (u, p). reflexivity.
  - rewrite map_map.
    assert (G : map (fun x => fst (let '(u, p) := x in (p, u)))
                  (number 0 (map (fun u => (u, get_prefix T u)) urls)) =
                map snd (number 0 (map (fun u => (u, get_prefix T u)) urls)))
      by (apply map_ext; intros (u, p); reflexivity).
    rewrite G. exact X.
  - intros p u H e He Hu. apply in_map_iff in H. destruct H as ((u0, p0) & Eq & H).
    injection Eq as -> ->. destruct (number_In _ _ _ _ H) as [H1|(H1 & _)].
    + apply in_map_iff in H1. destruct H1 as (u1 & Eq1 & _). injection Eq1 as -> Eq1.
      destruct (get_prefix_In _ _ _ Eq1) as (e' & He' & Hp' & Hu'). exists e'. auto.
    + apply in_map_iff in H1. destruct H1 as (u1 & Eq1 & _). injection Eq1 as -> Eq1.
      exfalso. exact (get_prefix_none T u Eq1 e He Hu).
Qed.
