(** Proofs about identityref and instance-identifier values. *)
From Coq Require Import String Ascii List Bool Arith Lia.
From Verif Require Import Base BaseP TagM TagSpec TagP RefM RefSpec.
Import ListNotations.
Open Scope string_scope.
Open Scope list_scope.
Open Scope nat_scope.

(** ** IdentityRef *)

Lemma ostr_eqb_eq : forall a b, ostr_eqb a b = true <-> a = b.
Proof.
  intros [a|] [b|]; unfold ostr_eqb; simpl; try (split; congruence).
  rewrite String.eqb_eq. split; congruence.
Qed.

Lemma assoc_In : forall (m : nsmap) k u, NoDup (map fst m) -> In (k, u) m -> assoc ostr_eqb k m = Some u.
Proof.
  induction m as [|(k0, u0) m IH]; intros k u HND H; [destruct H|].
  simpl. simpl in HND. inversion HND as [|x y Hx HND' Ex]; subst.
  destruct H as [H|H].
  - injection H as -> ->. rewrite (proj2 (ostr_eqb_eq k k) eq_refl). reflexivity.
  - destruct (ostr_eqb k k0) eqn:E.
    + apply ostr_eqb_eq in E. subst k0. exfalso. apply Hx. apply in_map_iff. exists (k, u). auto.
    + apply IH; assumption.
Qed.

Lemma assoc_none : forall (m : nsmap) k, ~ In k (map fst m) -> assoc ostr_eqb k m = None.
Proof.
  induction m as [|(k0, u0) m IH]; intros k H; [reflexivity|]. simpl.
  destruct (ostr_eqb k k0) eqn:E.
  - apply ostr_eqb_eq in E. exfalso. apply H. left. auto.
  - apply IH. intro; apply H; right; assumption.
Qed.

Lemma NoDup_map_inj : forall (A B : Type) (f : A -> B) l a b, NoDup (map f l) -> In a l -> In b l -> f a = f b -> a = b.
Proof.
  intros A B f l. induction l as [|x l IH]; intros a b HND Ha Hb E; [destruct Ha|].
  simpl in HND. inversion HND as [|y z Hx HND' Ey]; subst.
  destruct Ha as [<-|Ha], Hb as [<-|Hb]; auto.
  - exfalso. apply Hx. rewrite E. apply in_map. exact Hb.
  - exfalso. apply Hx. rewrite <- E. apply in_map. exact Ha.
Qed.

Lemma name_to_url_In : forall T e, NoDup (map e_name T) -> In e T -> name_to_url T (e_name e) = Some (e_url e).
Proof.
  intros T e HND He. unfold name_to_url.
  destruct (find (fun x => String.eqb (e_name x) (e_name e)) (rev T)) as [e'|] eqn:E.
  - apply find_some in E. destruct E as [Hin Hn]. apply String.eqb_eq in Hn. apply in_rev in Hin.
    rewrite (NoDup_map_inj _ _ e_name T e' e HND Hin He Hn). reflexivity.
  - assert (X := find_none _ _ E e (proj1 (in_rev T e) He)). simpl in X.
    rewrite String.eqb_refl in X. discriminate X.
Qed.

Lemma Ident_bare : forall n, Ident n -> re_colon n = None.
Proof. intros n [[_ H1] H2]. apply re_colon_bare; assumption. Qed.

Lemma Ident_pref : forall p n, Word p -> Ident n -> re_colon (p ++ ":" ++ n)%string = Some (p, n).
Proof. intros p n Hp [H1 H2]. apply re_colon_app; assumption. Qed.

Lemma Refers_parse : forall T m t u n, NoDup (map fst m) -> NoDup (map e_name T) ->
  Refers T m t u n -> id_parse T m t = Ok (u, n).
Proof.
  intros T m t u n Hm HT H. unfold id_parse, parse_prefixed.
  destruct H as [u n Hn Hin | p u n Hp Hn Hin | e n He Hn Hno Hin].
  - rewrite Ident_bare by assumption. cbn [bind]. rewrite (assoc_In m None u Hm Hin). reflexivity.
  - rewrite Ident_pref by assumption. rewrite (assoc_In m (Some p) u Hm Hin). reflexivity.
  - rewrite Ident_pref by assumption. rewrite (assoc_none m (Some (e_name e)) Hno).
    rewrite (name_to_url_In T e HT Hin). reflexivity.
Qed.

Lemma Refers_Ident : forall T m t u n, Refers T m t u n -> Ident n.
Proof. intros T m t u n H. destruct H; assumption. Qed.

Lemma sole_of_nodup : forall T e (k : kind), NoDup (map (field k) T) -> In e T -> Sole T k e.
Proof.
  intros T e k HND He. apply in_split in He. destruct He as (l & r & ->).
  exists l, r. split; [reflexivity|]. intros x Hx E.
  rewrite map_app in HND. simpl in HND. apply NoDup_remove_2 in HND. apply HND.
  rewrite <- E, <- map_app. apply in_map. exact Hx.
Qed.

Lemma node_url_ok : forall T w t m tx, Unambiguous T -> In w (map e_url T) -> Name t ->
  node_url T (RNode (etree w t) m tx) = Ok w.
Proof.
  intros T w t m tx (_ & HU & HW) Hw Ht. apply in_map_iff in Hw. destruct Hw as (e & <- & He).
  assert (HS : Sole T KUrl e) by (apply sole_of_nodup; assumption).
  rewrite Forall_forall in HW. destruct (HW e He) as [_ Wu].
  unfold node_url. cbn [r_tag]. unfold YTOOL. rewrite from_etree.
  - destruct (String.eqb "" (e_url e)); [reflexivity|].
    assert (CP := convert_part_sole T KUrl KPrefix e HS). cbn [field] in CP. rewrite CP. reflexivity.
  - exact Wu.
  - exact Ht.
  - exact (possible_In T KUrl e He).
Qed.

Lemma convert_url_name : forall T e, Unambiguous T -> In e T -> convert_ns T (e_url e) KUrl KName = Ok (e_name e).
Proof.
  intros T e (_ & HU & _) He. apply convert_ns_spec. exists e.
  repeat split. apply sole_of_nodup; assumption.
Qed.

Lemma Ok_inj : forall (A : Type) (a b : A), Ok a = Ok b -> a = b.
Proof. intros A a b H. congruence. Qed.

Lemma compose_inj : forall T w u n v k s, Unambiguous T -> In u (map e_url T) -> In v (map e_url T) ->
  Ident n -> Ident k ->
  id_compose T w u n None = Ok s -> id_compose T w v k None = Ok s -> u = v /\ n = k.
Proof.
  intros T w u n v k s HT Hu Hv Hn Hk H1 H2.
  apply in_map_iff in Hu. destruct Hu as (a & <- & Ha).
  apply in_map_iff in Hv. destruct Hv as (b & <- & Hb).
  assert (HT' := HT). destruct HT' as (HN & HU & HW). rewrite Forall_forall in HW.
  destruct (HW a Ha) as [Wa _]. destruct (HW b Hb) as [Wb _].
  unfold id_compose in H1, H2.
  rewrite (convert_url_name T a HT Ha) in H1. rewrite (convert_url_name T b HT Hb) in H2.
  cbn [bind] in H1, H2.
  destruct (String.eqb_spec (e_url a) w) as [Ea|Ea]; destruct (String.eqb_spec (e_url b) w) as [Eb|Eb];
    apply Ok_inj in H1; apply Ok_inj in H2.
  - split; congruence.
  - exfalso. assert (X := Ident_bare n Hn). rewrite H1, <- H2 in X.
    rewrite (Ident_pref _ _ Wb Hk) in X. discriminate X.
  - exfalso. assert (X := Ident_bare k Hk). rewrite H2, <- H1 in X.
    rewrite (Ident_pref _ _ Wa Hn) in X. discriminate X.
  - assert (X := Ident_pref _ _ Wa Hn). assert (Y := Ident_pref _ _ Wb Hk).
    rewrite H1 in X. rewrite H2 in Y. rewrite X in Y. injection Y as Yn Yk.
    split; [|exact Yk]. rewrite (NoDup_map_inj _ _ e_name T a b HN Ha Hb Yn). reflexivity.
Qed.

Lemma compose_ok : forall T w u n, Unambiguous T -> In u (map e_url T) ->
  exists s, id_compose T w u n None = Ok s.
Proof.
  intros T w u n HT Hu. apply in_map_iff in Hu. destruct Hu as (a & <- & Ha).
  unfold id_compose. rewrite (convert_url_name T a HT Ha).
  destruct (String.eqb (e_url a) w); eexists; reflexivity.
Qed.

Lemma id_default_ok : forall T w t m x u n, Unambiguous T -> In w (map e_url T) -> Name t -> Nsmap m ->
  Refers T m x u n ->
  id_convert T (RNode (etree w t) m (Some x)) None = id_compose T w u n None.
Proof.
  intros T w t m x u n HT Hw Ht [Hm _] HR. unfold id_convert.
  rewrite (node_url_ok T w t m (Some x) HT Hw Ht). cbn [bind r_text r_nsmap].
  rewrite (Refers_parse T m x u n Hm (proj1 HT) HR). reflexivity.
Qed.

Lemma identity_same : forall T w t m1 m2 x y u n v k,
  Unambiguous T -> In w (map e_url T) -> Name t -> Nsmap m1 -> Nsmap m2 ->
  In u (map e_url T) -> In v (map e_url T) ->
  Refers T m1 x u n -> Refers T m2 y v k ->
  exists b, ref_same T DIdentity (RNode (etree w t) m1 (Some x)) (RNode (etree w t) m2 (Some y)) = Ok b /\
            (b = true <-> u = v /\ n = k).
Proof.
  intros T w t m1 m2 x y u n v k HT Hw Ht Hm1 Hm2 Hu Hv HR1 HR2.
  unfold ref_same, ref_text. cbn [r_text].
  rewrite (id_default_ok T w t m1 x u n HT Hw Ht Hm1 HR1).
  rewrite (id_default_ok T w t m2 y v k HT Hw Ht Hm2 HR2).
  destruct (compose_ok T w u n HT Hu) as [s1 E1]. destruct (compose_ok T w v k HT Hv) as [s2 E2].
  rewrite E1, E2. cbn [bind]. eexists. split; [reflexivity|].
  rewrite ostr_eqb_eq. split.
  - intro E. injection E as E. subst s2.
    exact (compose_inj T w u n v k s1 HT Hu Hv (Refers_Ident _ _ _ _ _ HR1) (Refers_Ident _ _ _ _ _ HR2) E1 E2).
  - intros [-> ->]. congruence.
Qed.

Lemma url_to_prefix_In : forall m u k, url_to_prefix m u = Some k -> In (k, u) m.
Proof.
  intros m u k H. unfold url_to_prefix in H.
  destruct (find (fun kv => String.eqb (snd kv) u) (rev m)) as [(k0, u0)|] eqn:E; [|discriminate H].
  injection H as <-. apply find_some in E. destruct E as [Hin Hu]. apply String.eqb_eq in Hu.
  simpl in Hu. subst u0. apply in_rev. exact Hin.
Qed.

Lemma url_to_prefix_some : forall m u, In u (map snd m) -> exists k, url_to_prefix m u = Some k.
Proof.
  intros m u H. apply in_map_iff in H. destruct H as ((k, u') & Eu & Hin). simpl in Eu. subst u'.
  unfold url_to_prefix. destruct (find (fun kv => String.eqb (snd kv) u) (rev m)) as [(k0, u0)|] eqn:E.
  - eexists. reflexivity.
  - assert (X := find_none _ _ E (k, u) (proj1 (in_rev m _) Hin)). simpl in X.
    rewrite String.eqb_refl in X. discriminate X.
Qed.

Lemma compose_refers : forall T w u n m s, Nsmap m -> Ident n ->
  id_compose T w u n (Some m) = Ok s -> Refers T m s u n.
Proof.
  intros T w u n m s [Hm HW] Hn H. unfold id_compose in H.
  destruct (url_to_prefix m u) as [[p|]|] eqn:E; [| |discriminate H]; injection H as <-;
    apply url_to_prefix_In in E.
  - apply RPrefix; [exact (HW p u E) | exact Hn | exact E].
  - apply RBare; assumption.
Qed.

Lemma identity_merge : forall T w t m1 x u n to,
  Unambiguous T -> In w (map e_url T) -> Name t -> Nsmap m1 -> Nsmap (r_nsmap to) ->
  Refers T m1 x u n ->
  (In u (map snd (r_nsmap to)) ->
     exists s, ref_merge T DIdentity (RNode (etree w t) m1 (Some x)) to = Ok (Some s) /\
               Refers T (r_nsmap to) s u n) /\
  (~ In u (map snd (r_nsmap to)) ->
     ref_merge T DIdentity (RNode (etree w t) m1 (Some x)) to = Err ConfigError).
Proof.
  intros T w t m1 x u n to HT Hw Ht Hm1 Hm2 HR.
  assert (E : ref_merge T DIdentity (RNode (etree w t) m1 (Some x)) to =
              let! s := id_compose T w u n (Some (r_nsmap to)) in Ok (Some s)).
  { unfold ref_merge. cbn [r_text]. unfold id_convert.
    rewrite (node_url_ok T w t m1 (Some x) HT Hw Ht). cbn [bind r_text r_nsmap].
    rewrite (Refers_parse T m1 x u n (proj1 Hm1) (proj1 HT) HR). reflexivity. }
  rewrite E. split; intro H.
  - destruct (id_compose T w u n (Some (r_nsmap to))) as [s|er] eqn:C.
    + exists s. split; [reflexivity|]. exact (compose_refers T w u n _ s Hm2 (Refers_Ident _ _ _ _ _ HR) C).
    + exfalso. unfold id_compose in C. destruct (url_to_prefix_some _ _ H) as [k Hk].
      rewrite Hk in C. destruct k; discriminate C.
  - unfold id_compose. destruct (url_to_prefix (r_nsmap to) u) as [k|] eqn:C; [|reflexivity].
    exfalso. apply H. apply url_to_prefix_In in C. apply in_map_iff. exists (k, u). auto.
Qed.

(** ** Cutting *)

Definition text_of (l : list piece) : list ascii := flat_map p_str l.

Lemma text_of_app : forall a b, text_of (a ++ b) = text_of a ++ text_of b.
Proof. intros. unfold text_of. apply flat_map_app. Qed.

Lemma filter_nonempty_text : forall l, text_of (filter nonempty l) = text_of l.
Proof.
  induction l as [|p l IH]; [reflexivity|]. simpl. unfold nonempty at 1.
  destruct (p_str p) eqn:E; simpl; rewrite IH; [reflexivity|]. rewrite E. reflexivity.
Qed.

Lemma skipn_skipn' : forall (A : Type) (l : list A) n m, skipn n (skipn m l) = skipn (m + n) l.
Proof.
  intros A l. induction l as [|x l IH]; intros n m; [rewrite !skipn_nil; reflexivity|].
  destruct m as [|m]; [reflexivity|]. simpl. apply IH.
Qed.

Lemma three_parts : forall (l : list ascii) s e, s <= e ->
  firstn s l ++ firstn (e - s) (skipn s l) ++ skipn e l = l.
Proof.
  intros l s e H. rewrite <- (firstn_skipn s l) at 4. f_equal.
  rewrite <- (firstn_skipn (e - s) (skipn s l)) at 2. f_equal.
  rewrite skipn_skipn'. f_equal. lia.
Qed.

Lemma this_piece_text : forall p s e conv ph, s <= e -> text_of (this_piece p s e conv ph) = p_str p.
Proof.
  intros p s e conv ph H. unfold this_piece. rewrite filter_nonempty_text. unfold text_of.
  cbn [flat_map p_str]. rewrite app_nil_r. apply three_parts. exact H.
Qed.

Lemma cut_text : forall l pos s e conv ph, s <= e -> text_of (cut_at pos s e conv ph l) = text_of l.
Proof.
  induction l as [|p l IH]; intros pos s e conv ph H; [reflexivity|].
  cbn [cut_at].
  destruct ((p_phase p =? 0) || (p_phase p =? ph)).
  - destruct ((pos <=? s) && (e <=? pos + length (p_str p))) eqn:E.
    + rewrite text_of_app, this_piece_text by lia. reflexivity.
    + change (text_of (p :: cut_at (pos + length (p_str p)) s e conv ph l))
        with (p_str p ++ text_of (cut_at (pos + length (p_str p)) s e conv ph l)).
      rewrite IH by exact H. reflexivity.
  - change (text_of (p :: cut_at pos s e conv ph l)) with (p_str p ++ text_of (cut_at pos s e conv ph l)).
    rewrite IH by exact H. reflexivity.
Qed.

(** No cut makes empty pieces, or a piece of a phase other than the old ones and its own. *)
Lemma cut_In : forall l pos s e conv ph p, In p (cut_at pos s e conv ph l) ->
  In p l \/ (nonempty p = true /\ (p_phase p = ph \/ exists p0, In p0 l /\ p_phase p = p_phase p0)).
Proof.
  induction l as [|q l IH]; intros pos s e conv ph p H; [destruct H|].
  cbn [cut_at] in H.
  assert (K : forall pos', In p (q :: cut_at pos' s e conv ph l) ->
    In p (q :: l) \/ (nonempty p = true /\ (p_phase p = ph \/ exists p0, In p0 (q :: l) /\ p_phase p = p_phase p0))).
  { intros pos' [->|H']; [left; left; reflexivity|].
    destruct (IH pos' s e conv ph p H') as [H1|(H1 & [H2|(p0 & H2 & H3)])].
    - left; right; exact H1.
    - right; split; [exact H1 | left; exact H2].
    - right; split; [exact H1 | right; exists p0; split; [right; exact H2 | exact H3]]. }
  destruct ((p_phase q =? 0) || (p_phase q =? ph)); [|exact (K _ H)].
  destruct ((pos <=? s) && (e <=? pos + length (p_str q))); [|exact (K _ H)].
  apply in_app_or in H. destruct H as [H|H]; [|left; right; exact H].
  unfold this_piece in H. apply filter_In in H. destruct H as [H Hn]. right. split; [exact Hn|].
  simpl in H. destruct H as [<-|[<-|[<-|[]]]]; simpl.
  - right. exists q. split; [left; reflexivity | reflexivity].
  - left. reflexivity.
  - right. exists q. split; [left; reflexivity | reflexivity].
Qed.

(** One list of cuts after the other. *)
Definition cuts (ops : list (nat * nat * list ascii * nat)) (l : list piece) : list piece :=
  fold_left (fun l '(s, e, conv, ph) => cut s e conv ph l) ops l.

Lemma cuts_text : forall ops l, Forall (fun '(s, e, _, _) => s <= e) ops ->
  text_of (cuts ops l) = text_of l.
Proof.
  induction ops as [|(((s, e), conv), ph) ops IH]; intros l H; [reflexivity|].
  inversion H as [|x y Hx Hy Ex]; subst. unfold cuts. cbn [fold_left]. fold (cuts ops (cut s e conv ph l)).
  rewrite IH by exact Hy. apply cut_text. exact Hx.
Qed.

(** ** The loops keep the text *)

Lemma quote_step_text : forall whole idx c nx st st',
  quote_step whole idx c nx st = Ok st' -> text_of (q_pieces st') = text_of (q_pieces st).
Proof.
  intros whole idx c nx [ps start esc op] st' H. unfold quote_step in H.
  destruct start as [b|].
  - destruct (idx =? b).
    + destruct (Ascii.eqb c apos || Ascii.eqb c dquo); [|discriminate H]. injection H as <-. reflexivity.
    + destruct (b <? idx) eqn:Hb; [|injection H as <-; reflexivity].
      apply Nat.ltb_lt in Hb.
      destruct (Ascii.eqb c op); [|injection H as <-; reflexivity].
      destruct (match nx with Some d => Ascii.eqb d op | None => false end); [injection H as <-; reflexivity|].
      destruct (match esc with Some s => Nat.even (S idx - s) | None => false end);
        injection H as <-; [reflexivity|]. cbn [q_pieces]. apply cut_text. lia.
  - injection H as <-. destruct (Ascii.eqb c "="); reflexivity.
Qed.

Lemma quote_loop_text : forall rest whole idx st st',
  quote_loop whole idx rest st = Ok st' -> text_of (q_pieces st') = text_of (q_pieces st).
Proof.
  induction rest as [|c r IH]; intros whole idx st st' H; simpl in H.
  - injection H as <-. reflexivity.
  - destruct (quote_step whole idx c (hd_error r) st) as [st1|er] eqn:E; [|discriminate H].
    cbn [bind] in H. rewrite (IH _ _ _ _ H). exact (quote_step_text _ _ _ _ _ _ E).
Qed.

Lemma parse_quote_text : forall ps ps', parse_quote ps = Ok ps' -> text_of ps' = text_of ps.
Proof.
  intros ps ps' H. unfold parse_quote in H.
  destruct (quote_loop (str_of 1 ps) 0 (str_of 1 ps) (QState ps None None apos)) as [st|er] eqn:E; [|discriminate H].
  cbn [bind] in H. destruct (q_start st); [discriminate H|]. injection H as <-.
  exact (quote_loop_text _ _ _ _ _ E).
Qed.

Lemma nth_error_skipn : forall (A : Type) (l : list A) n k, nth_error (skipn n l) k = nth_error l (n + k).
Proof.
  intros A l. induction l as [|x l IH]; intros n k.
  - rewrite skipn_nil. destruct k, (n + 0); try reflexivity; destruct n; reflexivity.
  - destruct n as [|n]; [reflexivity|]. simpl. apply IH.
Qed.

Lemma nth_error_firstn : forall (A : Type) (l : list A) n k, k < n -> nth_error (firstn n l) k = nth_error l k.
Proof.
  intros A l. induction l as [|x l IH]; intros n k H; [rewrite firstn_nil; reflexivity|].
  destruct n as [|n]; [lia|]. destruct k as [|k]; [reflexivity|]. simpl. apply IH. lia.
Qed.

Lemma bracket_cuts_text : forall whole b idx ps, b < idx -> idx < length whole ->
  nth_error whole b = Some "["%char -> text_of (bracket_cuts whole b idx ps) = text_of ps.
Proof.
  intros whole b idx ps H Hi Hb. unfold bracket_cuts, cut.
  set (sub := slice b (S idx) whole).
  assert (L : length sub = S idx - b)
    by (unfold sub, slice; rewrite firstn_length, skipn_length; lia).
  destruct (nth_error sub (length sub - 2)) as [c|] eqn:E.
  - destruct (Ascii.eqb_spec c "=") as [Ec|Ec].
    + assert (B : S b <= S idx - 2).
      { destruct (Nat.eq_dec idx (S b)) as [Ei|]; [|lia]. exfalso.
        rewrite L in E. replace (S idx - b - 2) with 0 in E by lia.
        unfold sub, slice in E. rewrite nth_error_firstn in E by lia.
        rewrite nth_error_skipn, Nat.add_0_r, Hb in E. rewrite Ec in E. discriminate E. }
      rewrite !cut_text by lia. reflexivity.
    + rewrite !cut_text by lia. reflexivity.
  - rewrite !cut_text by lia. reflexivity.
Qed.

Lemma skipn_cons : forall (A : Type) (l : list A) n x r, skipn n l = x :: r ->
  nth_error l n = Some x /\ skipn (S n) l = r /\ n < length l.
Proof.
  intros A l. induction l as [|y l IH]; intros n x r H.
  - rewrite skipn_nil in H. discriminate H.
  - destruct n as [|n]; simpl in H.
    + injection H as -> ->. simpl. repeat split. lia.
    + destruct (IH n x r H) as (H1 & H2 & H3). simpl. repeat split; [exact H1 | exact H2 | lia].
Qed.

Lemma bracket_loop_text : forall rest whole idx ps start,
  skipn idx whole = rest ->
  match start with None => True | Some b => b < idx /\ nth_error whole b = Some "["%char end ->
  text_of (fst (bracket_loop whole idx rest ps start)) = text_of ps.
Proof.
  induction rest as [|c r IH]; intros whole idx ps start Hr Hs; [reflexivity|].
  destruct (skipn_cons _ _ _ _ _ Hr) as (Hn & Hr' & Hl).
  cbn [bracket_loop]. destruct start as [b|].
  - destruct Hs as [Hb Hw]. destruct (Ascii.eqb c "]").
    + rewrite IH by (exact Hr' || exact I). apply bracket_cuts_text; assumption.
    + apply IH; [exact Hr' | split; [lia | exact Hw]].
  - apply IH; [exact Hr'|]. destruct (Ascii.eqb_spec c "[") as [E|E]; [|exact I].
    split; [lia|]. rewrite Hn, E. reflexivity.
Qed.

Lemma parse_square_bracket_text : forall ps ps', parse_square_bracket ps = Ok ps' -> text_of ps' = text_of ps.
Proof.
  intros ps ps' H. unfold parse_square_bracket in H.
  assert (X := bracket_loop_text (str_of 2 ps) (str_of 2 ps) 0 ps None eq_refl I).
  destruct (bracket_loop (str_of 2 ps) 0 (str_of 2 ps) ps None) as [ps1 [b|]]; [discriminate H|].
  injection H as <-. exact X.
Qed.

Lemma element_loop_text : forall rest whole idx ps start,
  match start with None => True | Some b => b <= idx end ->
  text_of (element_loop whole idx rest ps start) = text_of ps.
Proof.
  induction rest as [|c r IH]; intros whole idx ps start Hs; cbn [element_loop].
  - destruct start as [b|]; [|reflexivity]. apply cut_text. exact Hs.
  - destruct start as [b|].
    + destruct (is_sep c).
      * rewrite IH by exact I. apply cut_text. exact Hs.
      * apply IH. lia.
    + apply IH. destruct (is_sep c); [exact I | lia].
Qed.

Lemma parse_element_text : forall ps, text_of (parse_element ps) = text_of ps.
Proof. intro ps. unfold parse_element. apply element_loop_text. exact I. Qed.

(** Phases stay within 0..3. *)
Definition Phases (n : nat) (l : list piece) : Prop := forall p, In p l -> p_phase p <= n.

Lemma cut_phases : forall n l s e conv ph, ph <= n -> Phases n l -> Phases n (cut s e conv ph l).
Proof.
  intros n l s e conv ph Hp Hl p H. unfold cut in H.
  destruct (cut_In _ _ _ _ _ _ _ H) as [H1|(_ & [H1|(p0 & H1 & H2)])].
  - exact (Hl p H1).
  - lia.
  - rewrite H2. exact (Hl p0 H1).
Qed.

Lemma quote_loop_phases : forall rest whole idx st st', Phases 1 (q_pieces st) ->
  quote_loop whole idx rest st = Ok st' -> Phases 1 (q_pieces st').
Proof.
  induction rest as [|c r IH]; intros whole idx st st' HP H; simpl in H.
  - injection H as <-. exact HP.
  - destruct (quote_step whole idx c (hd_error r) st) as [st1|er] eqn:E; [|discriminate H].
    cbn [bind] in H. apply (IH _ _ _ _) with (2 := H).
    destruct st as [ps start esc op]. unfold quote_step in E.
    destruct start as [b|].
    + destruct (idx =? b).
      * destruct (Ascii.eqb c apos || Ascii.eqb c dquo); [|discriminate E]. injection E as <-. exact HP.
      * destruct (b <? idx); [|injection E as <-; exact HP].
        destruct (Ascii.eqb c op); [|injection E as <-; exact HP].
        destruct (match hd_error r with Some d => Ascii.eqb d op | None => false end); [injection E as <-; exact HP|].
        destruct (match esc with Some s => Nat.even (S idx - s) | None => false end);
          injection E as <-; [exact HP|]. cbn [q_pieces]. apply cut_phases; [lia | exact HP].
    + injection E as <-. destruct (Ascii.eqb c "="); exact HP.
Qed.

Lemma bracket_loop_phases : forall rest whole idx ps start, Phases 2 ps ->
  Phases 2 (fst (bracket_loop whole idx rest ps start)).
Proof.
  induction rest as [|c r IH]; intros whole idx ps start HP; [exact HP|].
  cbn [bracket_loop]. destruct start as [b|]; [|apply IH; exact HP].
  destruct (Ascii.eqb c "]"); apply IH; [|exact HP].
  unfold bracket_cuts. destruct (nth_error _ _) as [d|]; [destruct (Ascii.eqb d "=")|];
    repeat (apply cut_phases; [lia|]); exact HP.
Qed.

Lemma element_loop_phases : forall rest whole idx ps start, Phases 3 ps ->
  Phases 3 (element_loop whole idx rest ps start).
Proof.
  induction rest as [|c r IH]; intros whole idx ps start HP; cbn [element_loop].
  - destruct start; [apply cut_phases; [lia | exact HP] | exact HP].
  - destruct start; [destruct (is_sep c)|]; apply IH; try exact HP. apply cut_phases; [lia | exact HP].
Qed.

Lemma convert_pieces_text : forall T m to l d l', Phases 3 l ->
  convert_pieces T m to d l = Ok l' -> map p_str l' = map p_str l /\ map p_phase l' = map p_phase l.
Proof.
  intros T m to. induction l as [|p l IH]; intros d l' HP H; simpl in H.
  - injection H as <-. split; reflexivity.
  - assert (HP' : Phases 3 l) by (intros q Hq; apply HP; right; exact Hq).
    assert (H3 : p_phase p <= 3) by (apply HP; left; reflexivity).
    destruct (p_phase p <=? 1) eqn:E1.
    { destruct (convert_pieces T m to d l) as [r|er] eqn:E; [|discriminate H].
      cbn [bind] in H. injection H as <-. destruct (IH d r HP' E) as [I1 I2].
      simpl. rewrite I1, I2. split; reflexivity. }
    destruct (p_phase p =? 2) eqn:E2.
    { destruct (is_punct (p_str p)).
      - destruct (convert_pieces T m to d l) as [r|er] eqn:E; [|discriminate H].
        cbn [bind] in H. injection H as <-. destruct (IH d r HP' E) as [I1 I2].
        simpl. rewrite I1, I2. split; reflexivity.
      - destruct (parse_prefixed T m (to_s (p_str p))) as [(u, id)|er]; [|discriminate H].
        cbn [bind] in H. destruct (match u with Some _ => u | None => d end) as [url|]; [|discriminate H].
        destruct (iid_compose T url id to) as [c|er]; [|discriminate H]. cbn [bind] in H.
        destruct (convert_pieces T m to d l) as [r|er] eqn:E; [|discriminate H].
        cbn [bind] in H. injection H as <-. destruct (IH d r HP' E) as [I1 I2].
        simpl. rewrite I1, I2. split; reflexivity. }
    destruct (p_phase p =? 3) eqn:E3.
    { destruct (parse_prefixed T m (to_s (p_str p))) as [(u, id)|er]; [|discriminate H].
      cbn [bind] in H. destruct (match u with Some _ => u | None => d end) as [url|]; [|discriminate H].
      destruct (iid_compose T url id to) as [c|er]; [|discriminate H]. cbn [bind] in H.
      destruct (convert_pieces T m to (Some url) l) as [r|er] eqn:E; [|discriminate H].
      cbn [bind] in H. injection H as <-. destruct (IH (Some url) r HP' E) as [I1 I2].
      simpl. rewrite I1, I2. split; reflexivity. }
    apply Nat.leb_gt in E1. apply Nat.eqb_neq in E2. apply Nat.eqb_neq in E3. lia.
Qed.

Lemma text_of_map : forall l, text_of l = concat (map p_str l).
Proof. intro l. unfold text_of. apply flat_map_concat_map. Qed.

Lemma iid_pieces_text : forall T m to text ps, iid_pieces T m to text = Ok ps ->
  text_of ps = of_s text.
Proof.
  intros T m to text ps H. unfold iid_pieces in H.
  destruct (parse_quote [(of_s text, 0, of_s text)]) as [p1|er] eqn:E1; [|discriminate H].
  cbn [bind] in H. destruct (parse_square_bracket p1) as [p2|er] eqn:E2; [|discriminate H].
  cbn [bind] in H.
  assert (P1 : Phases 1 p1).
  { unfold parse_quote in E1.
    destruct (quote_loop _ _ _ _) as [st|er] eqn:EQ; [|discriminate E1]. cbn [bind] in E1.
    destruct (q_start st); [discriminate E1|]. injection E1 as <-.
    refine (quote_loop_phases _ _ _ _ _ _ EQ). cbn [q_pieces].
    intros p [<-|[]]. simpl. lia. }
  assert (P2 : Phases 2 p2).
  { unfold parse_square_bracket in E2.
    assert (X := bracket_loop_phases (str_of 2 p1) (str_of 2 p1) 0 p1 None (fun p Hp => Nat.le_trans _ _ _ (P1 p Hp) (le_S _ _ (le_n 1)))).
    destruct (bracket_loop _ _ _ _ _) as [ps1 [b|]]; [discriminate E2|]. injection E2 as <-. exact X. }
  assert (P3 : Phases 3 (parse_element p2)).
  { unfold parse_element. apply element_loop_phases. intros p Hp. specialize (P2 p Hp). lia. }
  destruct (convert_pieces_text T m to _ None ps P3 H) as [T1 _].
  rewrite text_of_map, T1, <- text_of_map, parse_element_text.
  rewrite (parse_square_bracket_text _ _ E2), (parse_quote_text _ _ E1).
  simpl. apply app_nil_r.
Qed.

(** ** Quoted literals *)

Lemma convert_literal_same : forall b v, Inside dquo b v ->
  exists b', convert_literal ([dquo] ++ b ++ [dquo]) = [apos] ++ b' ++ [apos] /\ Inside apos b' v.
Proof.
  intros b v H. exists (single_dquo (double_apos b)). split.
  - unfold convert_literal. cbn [app tl]. rewrite removelast_last. reflexivity.
  - induction H as [|c b v Hc H IH|b v H IH].
    + constructor.
    + unfold double_apos. cbn [flat_map]. fold (double_apos b).
      destruct (Ascii.eqb_spec c apos) as [->|Ea].
      * cbn [app single_dquo]. change (Ascii.eqb apos dquo) with false. cbv iota. apply IPair. exact IH.
      * cbn [app single_dquo]. destruct (Ascii.eqb_spec c dquo) as [E|_]; [congruence|].
        apply IChar; assumption.
    + unfold double_apos. cbn [flat_map]. fold (double_apos b).
      change (Ascii.eqb dquo apos) with false. cbv iota. cbn [app single_dquo].
      rewrite Ascii.eqb_refl. apply IChar; [discriminate | exact IH].
Qed.

(** Scanning the inside of a literal that does not end in a pair. *)
Lemma scan_inside : forall q b v, Inside q b v -> forall whole idx st0 ps post esc,
  st0 < idx -> (forall b', b <> b' ++ [q]) -> hd_error post <> Some q ->
  (esc = None \/ (esc = Some (idx - 1) /\ hd_error b = Some q)) ->
  quote_loop whole idx (b ++ q :: post) (QState ps (Some st0) esc q) =
  quote_loop whole (S (idx + length b)) post
    (QState (cut st0 (S (idx + length b))
        (if Ascii.eqb q dquo then convert_literal (slice st0 (S (idx + length b)) whole)
         else slice st0 (S (idx + length b)) whole) 1 ps) None None q).
Proof.
  intros q b v H. induction H as [|c b v Hc H IH|b v H IH]; intros whole idx st0 ps post esc Hi Hend Hpost Hesc.
  - destruct Hesc as [->|[_ Hesc]]; [|discriminate Hesc].
    cbn [app length quote_loop]. rewrite Nat.add_0_r. unfold quote_step at 1.
    replace (idx =? st0) with false by (symmetry; apply Nat.eqb_neq; lia).
    replace (st0 <? idx) with true by (symmetry; apply Nat.ltb_lt; lia).
    rewrite Ascii.eqb_refl.
    destruct (hd_error post) as [d|]; [|reflexivity].
    destruct (Ascii.eqb_spec d q) as [->|_]; [congruence | reflexivity].
  - destruct Hesc as [->|[_ Hesc]]; [|injection Hesc as Hesc; congruence].
    cbn [app quote_loop]. unfold quote_step at 1.
    replace (idx =? st0) with false by (symmetry; apply Nat.eqb_neq; lia).
    replace (st0 <? idx) with true by (symmetry; apply Nat.ltb_lt; lia).
    destruct (Ascii.eqb_spec c q) as [E|_]; [congruence|]. cbn [bind].
    rewrite IH with (esc := None).
    + cbn [length]. replace (S idx + length b) with (idx + S (length b)) by lia. reflexivity.
    + lia.
    + intros b' E. apply (Hend (c :: b')). rewrite E. reflexivity.
    + exact Hpost.
    + left; reflexivity.
  - assert (Hb : b <> []) by (intros ->; apply (Hend [q]); reflexivity).
    cbn [app quote_loop hd_error]. unfold quote_step at 1.
    replace (idx =? st0) with false by (symmetry; apply Nat.eqb_neq; lia).
    replace (st0 <? idx) with true by (symmetry; apply Nat.ltb_lt; lia).
    rewrite Ascii.eqb_refl. cbn [bind]. unfold quote_step at 1.
    replace (S idx =? st0) with false by (symmetry; apply Nat.eqb_neq; lia).
    replace (st0 <? S idx) with true by (symmetry; apply Nat.ltb_lt; lia).
    rewrite Ascii.eqb_refl.
    destruct b as [|c b]; [congruence|]. cbn [app hd_error].
    assert (Hend' : forall b', c :: b <> b' ++ [q])
      by (intros b' E; apply (Hend (q :: q :: b')); rewrite E; reflexivity).
    replace (S (idx + length (q :: q :: c :: b))) with (S (S (S idx) + length (c :: b))) by (simpl; lia).
    destruct (Ascii.eqb_spec c q) as [->|Hcq].
    + cbn [bind]. change (q :: b ++ q :: post) with ((q :: b) ++ q :: post).
      rewrite IH with (esc := Some (S idx)); [reflexivity | lia | exact Hend' | exact Hpost |].
      right. split; [f_equal; lia | reflexivity].
    + replace (S (S idx) - idx) with 2 by lia. cbn [Nat.even bind].
      change (c :: b ++ q :: post) with ((c :: b) ++ q :: post).
      rewrite IH with (esc := None); [reflexivity | lia | exact Hend' | exact Hpost | left; reflexivity].
Qed.

(** Scanning text outside literals. *)
Lemma scan_outside : forall l whole idx ps esc op rest, NoEq l ->
  quote_loop whole idx (l ++ rest) (QState ps None esc op) =
  quote_loop whole (idx + length l) rest (QState ps None esc op).
Proof.
  induction l as [|c l IH]; intros whole idx ps esc op rest H.
  - cbn [app length]. rewrite Nat.add_0_r. reflexivity.
  - cbn [app quote_loop quote_step].
    destruct (Ascii.eqb_spec c "=") as [E|E]; [exfalso; apply H; left; exact E|].
    cbn [bind]. rewrite IH by (intro Hi; apply H; right; exact Hi).
    cbn [length]. f_equal. lia.
Qed.

Definition walked (ph : nat) (l : list piece) : list ascii :=
  flat_map p_str (filter (fun p => (p_phase p =? 0) || (p_phase p =? ph)) l).

(** A cut that lies inside one piece, all earlier pieces ending before it. *)
Lemma cut_exact : forall l1 pos a x b c l2 conv ph, x <> [] ->
  cut_at pos (pos + length (walked ph l1) + length a) (pos + length (walked ph l1) + length a + length x)
      conv ph (l1 ++ (a ++ x ++ b, 0, c) :: l2) =
  l1 ++ filter nonempty [(a, 0, a); (x, ph, conv); (b, 0, b)] ++ l2.
Proof.
  induction l1 as [|p l1 IH]; intros pos a x b c l2 conv ph Hx.
  - cbn [app walked filter flat_map length]. rewrite Nat.add_0_r. cbn [cut_at p_phase p_str].
    change (0 =? 0) with true. cbn [orb].
    replace (pos <=? pos + length a) with true by (symmetry; apply Nat.leb_le; lia).
    rewrite !app_length.
    replace (pos + length a + length x <=? pos + (length a + (length x + length b))) with true
      by (symmetry; apply Nat.leb_le; lia).
    cbn [andb]. unfold this_piece. cbn [p_str p_phase].
    replace (pos + length a - pos) with (length a) by lia.
    replace (pos + length a + length x - pos) with (length a + length x) by lia.
    replace (length a + length x - length a) with (length x) by lia.
    rewrite firstn_app, firstn_all, Nat.sub_diag. cbn [firstn]. rewrite app_nil_r.
    rewrite skipn_app, skipn_all, Nat.sub_diag. cbn [skipn app].
    rewrite firstn_app, firstn_all, Nat.sub_diag. cbn [firstn]. rewrite app_nil_r.
    rewrite skipn_app. rewrite (skipn_all2 a) by lia.
    replace (length a + length x - length a) with (length x) by lia. cbn [app].
    rewrite skipn_app, skipn_all, Nat.sub_diag. reflexivity.
  - cbn [app cut_at]. unfold walked. cbn [filter].
    destruct ((p_phase p =? 0) || (p_phase p =? ph)) eqn:E.
    + cbn [flat_map]. fold (walked ph l1). rewrite app_length.
      assert (Lx : 1 <= length x) by (destruct x; [congruence | simpl; lia]).
      replace (pos + (length (p_str p) + length (walked ph l1)) + length a + length x <=? pos + length (p_str p))
        with false by (symmetry; apply Nat.leb_gt; lia).
      rewrite andb_false_r. f_equal.
      replace (pos + (length (p_str p) + length (walked ph l1)) + length a)
        with ((pos + length (p_str p)) + length (walked ph l1) + length a) by lia.
      apply IH. exact Hx.
    + fold (walked ph l1). f_equal. apply IH. exact Hx.
Qed.

Lemma slice_mid : forall a x b : list ascii, slice (length a) (length a + length x) (a ++ x ++ b) = x.
Proof.
  intros a x b. unfold slice. replace (length a + length x - length a) with (length x) by lia.
  rewrite skipn_app, skipn_all, Nat.sub_diag. cbn [skipn app].
  rewrite firstn_app, firstn_all, Nat.sub_diag. cbn [firstn]. apply app_nil_r.
Qed.

Lemma spell_literal_scan : forall g post whole pre ps,
  Quote (g_quote g) -> (exists v, Inside (g_quote g) (g_body g) v) -> PlainEnd g ->
  hd_error post <> Some (g_quote g) ->
  whole = pre ++ literal g ++ post ->
  exists conv op, SameLiteral g conv /\
  forall op0, quote_loop whole (length pre) (literal g ++ post) (QState ps (Some (length pre)) None op0) =
  quote_loop whole (length pre + length (literal g)) post
    (QState (cut (length pre) (length pre + length (literal g)) conv 1 ps) None None op).
Proof.
  intros g post whole pre ps HQ [v HI] HP Hh Hw. destruct g as [tx q b]. cbn [g_quote g_body] in *.
  assert (HS : slice (length pre) (length pre + length (literal (Segment tx q b))) whole = literal (Segment tx q b))
    by (rewrite Hw; apply slice_mid).
  exists (if Ascii.eqb q dquo then convert_literal (literal (Segment tx q b)) else literal (Segment tx q b)), q.
  split.
  - unfold SameLiteral, literal. cbn [g_quote g_body].
    destruct (Ascii.eqb_spec q dquo) as [->|E].
    + destruct (convert_literal_same b v HI) as (b' & Hb' & HI'). exists b', v. auto.
    + destruct HQ as [->|HQ]; [|congruence]. exists b, v. auto.
  - intro op0. unfold literal. cbn [g_quote g_body]. cbn [app]. cbn [quote_loop].
    unfold quote_step at 1. rewrite Nat.eqb_refl.
    assert (EQ : Ascii.eqb q apos || Ascii.eqb q dquo = true)
      by (destruct HQ as [-> | ->]; reflexivity).
    rewrite EQ. cbn [bind]. rewrite <- app_assoc. cbn [app].
    rewrite (scan_inside q b v HI) with (esc := None); [|lia|exact HP|exact Hh|left; reflexivity].
    replace (S (S (length pre) + length b)) with (length pre + length (q :: b ++ [q]))
      by (cbn [length]; rewrite app_length; simpl; lia).
    change (q :: b ++ [q]) with (literal (Segment tx q b)). rewrite HS. reflexivity.
Qed.

Definition whole_piece (l : list ascii) : list piece := filter nonempty [(l, 0, l)].

Lemma whole_piece_ne : forall l, l <> [] -> whole_piece l = [(l, 0, l)].
Proof. intros [|c l] H; [congruence | reflexivity]. Qed.

Lemma scan_all : forall gs tail whole pre done op ps0,
  Spelled gs tail -> Forall PlainEnd gs ->
  whole = pre ++ spell gs tail -> length (walked 1 done) = length pre ->
  ps0 = done ++ whole_piece (spell gs tail) ->
  exists st ps, quote_loop whole (length pre) (spell gs tail) (QState ps0 None None op) = Ok st /\
    q_start st = None /\ q_pieces st = done ++ ps /\ Pieces gs tail ps.
Proof.
  induction gs as [|g gs IH]; intros tail whole pre done op ps0 HS HP Hw Hd Hps.
  - cbn [spell] in *. assert (HL := scan_outside tail whole (length pre) ps0 None op [] HS).
    rewrite app_nil_r in HL. rewrite HL. cbn [quote_loop].
    eexists. exists (whole_piece tail).
    split; [reflexivity|]. cbn [q_start q_pieces]. split; [reflexivity|]. split; [exact Hps|].
    destruct tail as [|c tail]; [apply PEnd | apply PTail; discriminate].
  - cbn [spell] in *. destruct HS as (HE & HQ & HI & Hh & HS').
    inversion HP as [|x y HP1 HP2 Ex]; subst x y.
    rewrite scan_outside by exact HE. cbn [app quote_loop]. unfold quote_step at 1.
    change (Ascii.eqb "=" "=") with true. cbv iota. cbn [bind].
    set (pre1 := pre ++ g_text g ++ ["="%char]).
    assert (L1 : S (length pre + length (g_text g)) = length pre1)
      by (unfold pre1; rewrite !app_length; simpl; lia).
    rewrite L1.
    assert (Hw1 : whole = pre1 ++ literal g ++ spell gs tail)
      by (rewrite Hw; unfold pre1; rewrite <- !app_assoc; reflexivity).
    destruct (spell_literal_scan g (spell gs tail) whole pre1 ps0 HQ HI HP1 Hh Hw1)
      as (conv & op1 & HSame & Hscan).
    rewrite Hscan. clear Hscan.
    assert (HC : cut (length pre1) (length pre1 + length (literal g)) conv 1 ps0 =
                 (done ++ [(g_text g ++ ["="%char], 0, g_text g ++ ["="%char]); (literal g, 1, conv)]) ++
                 whole_piece (spell gs tail)).
    { rewrite Hps.
      rewrite whole_piece_ne by (destruct (g_text g); discriminate).
      set (s := g_text g ++ ["="%char] ++ literal g ++ spell gs tail).
      assert (Es' : s = (g_text g ++ ["="%char]) ++ literal g ++ spell gs tail)
        by (unfold s; rewrite <- app_assoc; reflexivity).
      clearbody s.
      unfold cut. rewrite Es' at 1.
      replace (length pre1) with (0 + length (walked 1 done) + length (g_text g ++ ["="%char]))
        by (unfold pre1; rewrite Hd, !app_length; simpl; lia).
      rewrite cut_exact by (unfold literal; discriminate).
      rewrite <- app_assoc. f_equal. cbn [filter app].
      assert (N1 : nonempty (g_text g ++ ["="%char], 0, g_text g ++ ["="%char]) = true)
        by (unfold nonempty; cbn [p_str]; destruct (g_text g); reflexivity).
      rewrite N1. change (nonempty (literal g, 1, conv)) with true. cbv iota.
      rewrite app_nil_r. reflexivity. }
    rewrite HC.
    replace (length pre1 + length (literal g)) with (length (pre1 ++ literal g)) by apply app_length.
    assert (Hw2 : whole = (pre1 ++ literal g) ++ spell gs tail) by (rewrite Hw1, app_assoc; reflexivity).
    assert (Hd2 : length (walked 1 (done ++ [(g_text g ++ ["="%char], 0, g_text g ++ ["="%char]); (literal g, 1, conv)]))
                  = length (pre1 ++ literal g)).
    { unfold walked in *. rewrite filter_app, flat_map_app, app_length, Hd.
      cbn [filter p_phase]. change ((0 =? 0) || (0 =? 1)) with true. change ((1 =? 0) || (1 =? 1)) with true.
      cbv iota. cbn [flat_map p_str]. unfold pre1. rewrite !app_length. simpl. lia. }
    destruct (IH tail whole (pre1 ++ literal g) _ op1 _ HS' HP2 Hw2 Hd2 eq_refl)
      as (st & ps & Hloop & Hst & Hpc & HPs).
    exists st. eexists. split; [exact Hloop|]. split; [exact Hst|].
    split; [rewrite Hpc, <- app_assoc; reflexivity|].
    cbn [app]. apply PSeg; assumption.
Qed.

Lemma quotes_found : forall gs tail, Spelled gs tail -> Forall PlainEnd gs -> spell gs tail <> [] ->
  exists ps, parse_quote [(spell gs tail, 0, spell gs tail)] = Ok ps /\ Pieces gs tail ps.
Proof.
  intros gs tail HS HP Hne. unfold parse_quote.
  assert (Hstr : str_of 1 [(spell gs tail, 0, spell gs tail)] = spell gs tail)
    by (unfold str_of; cbn [filter p_phase flat_map p_str]; simpl; apply app_nil_r).
  rewrite Hstr.
  destruct (scan_all gs tail (spell gs tail) [] [] apos [(spell gs tail, 0, spell gs tail)] HS HP eq_refl eq_refl)
    as (st & ps & Hl & Hst & Hpc & HPs).
  { cbn [app]. symmetry. apply whole_piece_ne. exact Hne. }
  change (length (@nil ascii)) with 0 in Hl. rewrite Hl. cbn [bind]. rewrite Hst, Hpc.
  exists ps. split; [reflexivity | exact HPs].
Qed.

(** A literal whose inside ends in a doubled quote is never seen to end. *)
Lemma scan_pair_end : forall q b v, Inside q b v -> forall whole idx st0 ps post esc b',
  st0 < idx -> b = b' ++ [q] -> ~ In q post ->
  (esc = None \/ (esc = Some (idx - 1) /\ hd_error b = Some q)) ->
  exists esc', quote_loop whole idx (b ++ q :: post) (QState ps (Some st0) esc q) =
               Ok (QState ps (Some st0) esc' q).
Proof.
  assert (Post : forall post whole idx st0 ps esc q, st0 < idx -> ~ In q post ->
    quote_loop whole idx post (QState ps (Some st0) esc q) = Ok (QState ps (Some st0) esc q)).
  { induction post as [|c post IH]; intros whole idx st0 ps esc q Hi Hq; [reflexivity|].
    cbn [quote_loop]. unfold quote_step at 1.
    replace (idx =? st0) with false by (symmetry; apply Nat.eqb_neq; lia).
    replace (st0 <? idx) with true by (symmetry; apply Nat.ltb_lt; lia).
    destruct (Ascii.eqb_spec c q) as [E|_]; [exfalso; apply Hq; left; exact E|].
    cbn [bind]. apply IH; [lia | intro; apply Hq; right; assumption]. }
  intros q b v H. induction H as [|c b v Hc H IH|b v H IH]; intros whole idx st0 ps post esc b' Hi Hend Hpost Hesc.
  - destruct b'; discriminate Hend.
  - destruct Hesc as [->|[_ Hesc]]; [|injection Hesc as Hesc; congruence].
    cbn [app quote_loop]. unfold quote_step at 1.
    replace (idx =? st0) with false by (symmetry; apply Nat.eqb_neq; lia).
    replace (st0 <? idx) with true by (symmetry; apply Nat.ltb_lt; lia).
    destruct (Ascii.eqb_spec c q) as [E|_]; [congruence|]. cbn [bind].
    destruct b' as [|c' b'].
    + cbn [app] in Hend. injection Hend as E1 E2. congruence.
    + cbn [app] in Hend. injection Hend as E1 E2.
      apply (IH whole (S idx) st0 ps post None b'); [lia | exact E2 | exact Hpost | left; reflexivity].
  - cbn [app quote_loop hd_error]. unfold quote_step at 1.
    replace (idx =? st0) with false by (symmetry; apply Nat.eqb_neq; lia).
    replace (st0 <? idx) with true by (symmetry; apply Nat.ltb_lt; lia).
    rewrite Ascii.eqb_refl. cbn [bind]. unfold quote_step at 1.
    replace (S idx =? st0) with false by (symmetry; apply Nat.eqb_neq; lia).
    replace (st0 <? S idx) with true by (symmetry; apply Nat.ltb_lt; lia).
    rewrite Ascii.eqb_refl.
    destruct b as [|c b].
    + cbn [app hd_error]. rewrite Ascii.eqb_refl. cbn [bind quote_loop]. unfold quote_step at 1.
      replace (S (S idx) =? st0) with false by (symmetry; apply Nat.eqb_neq; lia).
      replace (st0 <? S (S idx)) with true by (symmetry; apply Nat.ltb_lt; lia).
      rewrite Ascii.eqb_refl.
      assert (Hn : match hd_error post with Some d => Ascii.eqb d q | None => false end = false).
      { destruct post as [|d post]; [reflexivity|]. simpl.
        destruct (Ascii.eqb_spec d q) as [E|_]; [exfalso; apply Hpost; left; exact E | reflexivity]. }
      rewrite Hn. replace (S (S (S idx)) - S idx) with 2 by lia. cbn [Nat.even bind].
      exists None. apply Post; [lia | exact Hpost].
    + cbn [app hd_error].
      assert (Hb : exists b'', c :: b = b'' ++ [q]).
      { destruct b' as [|x [|y b']]; cbn [app] in Hend; [discriminate Hend| |].
        - injection Hend as E1 E2. discriminate.
        - injection Hend as E1 E2 E3. exists b'. exact E3. }
      destruct Hb as [b'' Hb].
      destruct (Ascii.eqb_spec c q) as [->|Hcq].
      * cbn [bind]. change (q :: b ++ q :: post) with ((q :: b) ++ q :: post).
        apply (IH whole (S (S idx)) st0 ps post (Some (S idx)) b''); [lia | exact Hb | exact Hpost |].
        right. split; [f_equal; lia | reflexivity].
      * replace (S (S idx) - idx) with 2 by lia. cbn [Nat.even bind].
        change (c :: b ++ q :: post) with ((c :: b) ++ q :: post).
        apply (IH whole (S (S idx)) st0 ps post None b''); [lia | exact Hb | exact Hpost | left; reflexivity].
Qed.

Lemma pair_end_refused : forall g tail, Spelled [g] tail -> ~ PlainEnd g -> ~ In (g_quote g) tail ->
  parse_quote [(spell [g] tail, 0, spell [g] tail)] = Err ConfigError.
Proof.
  intros g tail HS HP Hq. destruct HS as (HE & HQ & [v HI] & Hh & HS').
  assert (Hend : exists b', g_body g = b' ++ [g_quote g]).
  { destruct (list_eq_dec Ascii.ascii_dec (g_body g) []) as [E|E].
    - exfalso. apply HP. intros b Hb. rewrite E in Hb. destruct b; discriminate Hb.
    - destruct (exists_last E) as (b & c & Eb).
      destruct (Ascii.eqb_spec c (g_quote g)) as [<-|Hc]; [eexists; exact Eb|].
      exfalso. apply HP. intros b' Hb. rewrite Eb in Hb. apply app_inj_tail in Hb. destruct Hb; congruence. }
  destruct Hend as [b' Hend].
  unfold parse_quote.
  assert (Hstr : str_of 1 [(spell [g] tail, 0, spell [g] tail)] = spell [g] tail)
    by (unfold str_of; cbn [filter p_phase flat_map p_str]; simpl; apply app_nil_r).
  rewrite Hstr.
  assert (X : forall whole ps0, exists st, quote_loop whole 0 (spell [g] tail) (QState ps0 None None apos) = Ok st /\
              q_start st <> None).
  2:{ destruct (X (spell [g] tail) [(spell [g] tail, 0, spell [g] tail)]) as (st & Hl & Hst).
      rewrite Hl. cbn [bind]. destruct (q_start st); [reflexivity | congruence]. }
  intros whole ps0. cbn [spell].
  rewrite scan_outside by exact HE. cbn [app quote_loop]. unfold quote_step at 1.
  change (Ascii.eqb "=" "=") with true. cbv iota. cbn [bind].
  unfold literal. cbn [app quote_loop]. unfold quote_step at 1. rewrite Nat.eqb_refl.
  assert (EQ : Ascii.eqb (g_quote g) apos || Ascii.eqb (g_quote g) dquo = true)
    by (destruct HQ as [-> | ->]; reflexivity).
  rewrite EQ. cbn [bind]. rewrite <- app_assoc. cbn [app].
  destruct (scan_pair_end (g_quote g) (g_body g) v HI whole (S (S (0 + length (g_text g)))) (S (0 + length (g_text g)))
              ps0 tail None b' ltac:(lia) Hend Hq (or_introl eq_refl)) as [esc' Hl].
  eexists. split; [exact Hl | discriminate].
Qed.
